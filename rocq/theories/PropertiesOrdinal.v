(** Property C79: which results depend only on the order of the prices. *)
From Verif Require Import QcTac Num ModelBase ModelCurves ModelHuang ModelMuda ModelP2P ModelMerge ModelMarket ModelStats ModelUniform Spec SpecTrade SpecUnits SpecOrdinal
  Sorter Conform MudaWitness OrdinalFacts OrdinalTop.

(** C79. Let every price [p] be replaced by [h p], where [h] is strictly increasing and keeps 0.  The Huang auction makes the
    same transactions with the prices replaced, and reports the same quantity. *)
Theorem C79_huang :
  forall h (S : sorter) (d : df), rescaling h -> compares_prices S ->
    match huang_auction S d with
    | Ok (tm, XHuang ps pb q) => huang_auction S (map (rescale h) d) = Ok (mkTM (n_trans tm) (map (rescale_trans h) (tm_trans tm)), XHuang (h ps) (h pb) q)
    | x => huang_auction S (map (rescale h) d) = x
    end.
Proof. exact huang_ordinal. Qed.
Print Assumptions C79_huang.
Theorem C79_huang_percentage :
  forall h (S : sorter) (d : df) tm ps pb q sv, rescaling h -> compares_prices S -> huang_auction S d = Ok (tm, XHuang ps pb q) ->
    percentage_traded sv (map (rescale h) d) (map (rescale_trans h) (tm_trans tm)) = percentage_traded sv d (tm_trans tm).
Proof. exact huang_percentage. Qed.
Print Assumptions C79_huang_percentage.

(** With the same random numbers the peer to peer mechanism makes the same transactions up to the prices, in the same rounds. *)
Theorem C79_p2p :
  forall h (d : df) c r, rescaling h ->
    match p2p_random d c r with
    | Ok (tm, ex) => exists tm', p2p_random (map (rescale h) d) c r = Ok (tm', ex) /\ same_but_price tm tm'
    | Err e => p2p_random (map (rescale h) d) c r = Err e
    end.
Proof. exact p2p_ordinal. Qed.
Print Assumptions C79_p2p.
Theorem C79_p2p_run :
  forall h (S : sorter) (d : df) c r, rescaling h ->
    match run_algo S (AP2P c r) d with
    | Ok (tm, ex) => exists tm', run_algo S (AP2P c r) (map (rescale h) d) = Ok (tm', ex) /\ same_but_price tm tm' /\
        forall sv, percentage_traded sv (map (rescale h) d) (tm_trans tm') = percentage_traded sv d (tm_trans tm)
    | Err e => run_algo S (AP2P c r) (map (rescale h) d) = Err e
    end.
Proof. exact p2p_run_ordinal. Qed.
Print Assumptions C79_p2p_run.

(** The uniform price mechanism trades the same quantities of the same bids. *)
Theorem C79_uniform :
  forall h, rescaling h -> forall (S : sorter), compares_prices S -> forall (d : df), qty_nonneg d -> price_nonneg d ->
    match uniform_price_mechanism S d with
    | Ok (tm, XUniform q _) => exists tm' p', uniform_price_mechanism S (map (rescale h) d) = Ok (tm', XUniform q p') /\ same_but_price tm tm'
    | Ok _ => False
    | Err e => uniform_price_mechanism S (map (rescale h) d) = Err e
    end.
Proof. exact uniform_scale. Qed.
Print Assumptions C79_uniform.

(** The largest volume is the same linear program, so the result is the same for any solver. *)
Theorem C79_volume :
  forall h, rescaling h -> forall sv (d : df), maximum_traded_volume sv (map (rescale h) d) = maximum_traded_volume sv d.
Proof. exact volume_scale. Qed.
Print Assumptions C79_volume.

(** MUDA takes means of prices: even the quantity may change. *)
Theorem C79_muda_refuted :
  ~ forall h (S : sorter) (d : df) fl tm ex, rescaling h -> compares_prices S -> qty_nonneg d -> price_nonneg d ->
    muda S d fl = Ok (tm, ex) -> exists tm' ex', muda S (map (rescale h) d) fl = Ok (tm', ex') /\ bought (map (rescale h) d) (tm_trans tm') = bought d (tm_trans tm).
Proof. exact muda_ordinal_refuted. Qed.
Print Assumptions C79_muda_refuted.

(** bids 9 and 6, asks 2 and 1, and the same with squared prices *)
Example C79_example :
  rescaling square /\ map (fun r => this (price r)) (map (rescale square) bent) = [81; 4; 36; 1]%Q /\
  match huang_auction SS bent, huang_auction SS (map (rescale square) bent) with
  | Ok (tm, XHuang ps pb _), Ok (tm', XHuang ps' pb' _) =>
      tm_trans tm <> [] /\ map unpriced (tm_trans tm') = map unpriced (tm_trans tm) /\
      (this ps, this pb) = (2, 6)%Q /\ (this ps', this pb') = (4, 36)%Q
  | _, _ => False
  end /\
  volume_of bent (muda SS bent bent_flips) = Some 2%Q /\
  volume_of (map (rescale square) bent) (muda SS (map (rescale square) bent) bent_flips) = Some 1%Q.
Proof.
  split; [exact square_rescaling|]. split; [vm_compute; reflexivity|]. split; [|exact bent_runs].
  split; [discriminate|]. split; [vm_compute; reflexivity|]. split; vm_compute; reflexivity.
Qed.
