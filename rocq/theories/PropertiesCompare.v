(** Property C78: the mechanisms compared on the same bids. *)
From Verif Require Import QcTac Num ModelBase ModelCurves ModelHuang ModelMuda ModelP2P ModelMerge ModelMarket ModelStats ModelUniform Spec SpecTrade SpecMuda SpecAlloc SpecStats SpecCompare
  Sorter Conform StatsTop MudaWitness LPFacts CompareHuang CompareTop CompareWitness.

(** C78. There is a largest quantity that can be traded at one price; the uniform price mechanism of the documentation trades it. *)
Theorem C78_best_exists : forall d, qty_nonneg d -> exists c, best_at_one_price d c.
Proof. exact best_exists. Qed.
Print Assumptions C78_best_exists.
Theorem C78_uniform :
  forall (S : sorter) (d : df) tm ex, qty_pos d -> price_nonneg d -> labels_unique d -> uniform_price_mechanism S d = Ok (tm, ex) ->
    best_at_one_price d (bought d (tm_trans tm)).
Proof. exact uniform_best. Qed.
Print Assumptions C78_uniform.

(** Whatever is traded at all by bids and asks that agree is at most twice that quantity. *)
Theorem C78_volume :
  forall (d : df) c x, qty_nonneg d -> best_at_one_price d c -> alloc_ok d x -> alloc_compat d x -> SpecAlloc.volume d x <= qz 2 * c.
Proof. exact volume_best. Qed.
Print Assumptions C78_volume.

(** The Huang auction and MUDA do not trade more than it; every run of the peer to peer mechanism trades at least that and at
    most twice as much.  [Market.run] merges equal prices for the Huang auction. *)
Theorem C78_huang :
  forall (S : sorter) (d : df) c tm ex, qty_nonneg d -> price_nonneg d -> labels_unique d -> best_at_one_price d c ->
    huang_auction S d = Ok (tm, ex) -> bought d (tm_trans tm) <= c.
Proof. exact huang_best. Qed.
Print Assumptions C78_huang.
Theorem C78_muda :
  forall (S : sorter) (d : df) fl c tm ex, qty_nonneg d -> price_nonneg d -> labels_unique d -> best_at_one_price d c ->
    muda S d fl = Ok (tm, ex) -> bought d (tm_trans tm) <= c.
Proof. exact muda_best. Qed.
Print Assumptions C78_muda.
Theorem C78_p2p :
  forall (d : df) k r c tm ex, map lbl d = seq 0 (length d) -> qty_nonneg d -> 0 <= k -> k <= 1 -> best_at_one_price d c ->
    p2p_random d k r = Ok (tm, ex) -> c <= bought d (tm_trans tm) /\ bought d (tm_trans tm) <= qz 2 * c.
Proof. exact p2p_best. Qed.
Print Assumptions C78_p2p.
(** Both ends are reached, on the same bids. *)
Theorem C78_p2p_ends :
  exists (d : df) r r' tm ex tm' ex' c, map lbl d = seq 0 (length d) /\ qty_pos d /\ price_nonneg d /\ best_at_one_price d c /\ 0 < c /\
    p2p_random d (qf 1 2) r = Ok (tm, ex) /\ p2p_random d (qf 1 2) r' = Ok (tm', ex') /\
    bought d (tm_trans tm) = c /\ bought d (tm_trans tm') = qz 2 * c.
Proof. exact p2p_ends. Qed.
Print Assumptions C78_p2p_ends.

(** As run by the market: the Huang auction and MUDA never trade more, nor a larger percentage, than the peer to peer mechanism;
    two peer to peer runs differ by a factor of at most two. *)
Theorem C78_run :
  forall (S : sorter) a (d : df) c tm ex, map lbl d = seq 0 (length d) -> qty_pos d -> price_nonneg d -> best_at_one_price d c ->
    run_algo S a d = Ok (tm, ex) ->
    match a with
    | AP2P k _ => 0 <= k -> k <= 1 -> c <= bought d (tm_trans tm) /\ bought d (tm_trans tm) <= qz 2 * c
    | _ => bought d (tm_trans tm) <= c
    end.
Proof. exact run_best. Qed.
Print Assumptions C78_run.
Theorem C78_p2p_most :
  forall (S : sorter) a k r (d : df) tm ex tm' ex', map lbl d = seq 0 (length d) -> qty_pos d -> price_nonneg d -> 0 <= k -> k <= 1 ->
    run_algo S a d = Ok (tm, ex) -> run_algo S (AP2P k r) d = Ok (tm', ex') ->
    match a with
    | AP2P k' _ => 0 <= k' -> k' <= 1 -> bought d (tm_trans tm) <= qz 2 * bought d (tm_trans tm')
    | _ => bought d (tm_trans tm) <= bought d (tm_trans tm')
    end.
Proof. exact p2p_most. Qed.
Print Assumptions C78_p2p_most.
Theorem C78_percentage :
  forall (S : sorter) a k r (d : df) tm ex tm' ex' sv v v', map lbl d = seq 0 (length d) -> qty_pos d -> price_nonneg d -> 0 <= k -> k <= 1 -> solver_ok sv ->
    (forall k' r', a <> AP2P k' r') -> run_algo S a d = Ok (tm, ex) -> run_algo S (AP2P k r) d = Ok (tm', ex') ->
    percentage_traded sv d (tm_trans tm) = Ok v -> percentage_traded sv d (tm_trans tm') = Ok v' ->
    match v, v' with Some x, Some y => x <= y | None, None => True | _, _ => False end.
Proof. exact p2p_percentage. Qed.
Print Assumptions C78_percentage.
(** MUDA may trade more or less than the Huang auction. *)
Theorem C78_muda_huang_unordered :
  exists (d : df) fl fl' tm ex tm1 ex1 tm2 ex2, map lbl d = seq 0 (length d) /\ qty_pos d /\ price_nonneg d /\
    huang_auction SS d = Ok (tm, ex) /\ muda SS d fl = Ok (tm1, ex1) /\ muda SS d fl' = Ok (tm2, ex2) /\
    bought d (tm_trans tm1) < bought d (tm_trans tm) /\ bought d (tm_trans tm) < bought d (tm_trans tm2).
Proof. exact muda_huang_unordered. Qed.
Print Assumptions C78_muda_huang_unordered.

(** Against the uniform price mechanism the Huang auction serves every bid no better and no user gains more: the uniform price
    lies between its two prices, and whoever trades is served in full. *)
Theorem C78_huang_uniform :
  forall (S : sorter) (d : df) tm ps pb q, qty_nonneg d -> price_nonneg d -> labels_unique d -> huang_auction S d = Ok (tm, XHuang ps pb q) ->
    exists tm' c p, uniform_run S d = Ok (tm', XUniform (Fin c) (Fin p)) /\ ps <= p /\ p <= pb /\
      bought d (tm_trans tm') = c /\ bought d (tm_trans tm) <= c /\
      (forall r, In r d -> traded_by (lbl r) (tm_trans tm) <= traded_by (lbl r) (tm_trans tm') /\
         (0 < traded_by (lbl r) (tm_trans tm) -> traded_by (lbl r) (tm_trans tm') = qty r)) /\
      forall u, profit d u (tm_trans tm) <= profit d u (tm_trans tm').
Proof. exact huang_uniform. Qed.
Print Assumptions C78_huang_uniform.
(** Where the Huang auction finds no prices the uniform price mechanism raises TypeError. *)
Theorem C78_huang_uniform_none :
  forall (S : sorter) (d : df) tm b s, qty_nonneg d -> price_nonneg d -> In b d -> In s d -> buying b = true -> buying s = false ->
    huang_auction S d = Ok (tm, XEmpty) -> tm_trans tm = [] /\ uniform_run S d = Err TypeError.
Proof. exact huang_uniform_none. Qed.
Print Assumptions C78_huang_uniform_none.
(** In MUDA, or peer to peer, a user may gain more than at the uniform price. *)
Theorem C78_muda_gain_refuted :
  ~ forall (S : sorter) (d : df) fl tm ex tm' ex', map lbl d = seq 0 (length d) -> qty_pos d -> price_nonneg d ->
    muda S d fl = Ok (tm, ex) -> uniform_run S d = Ok (tm', ex') -> forall u, profit d u (tm_trans tm) <= profit d u (tm_trans tm').
Proof. exact muda_gain_refuted. Qed.
Print Assumptions C78_muda_gain_refuted.
Theorem C78_p2p_gain_refuted :
  ~ forall (S : sorter) (d : df) k r tm ex tm' ex', map lbl d = seq 0 (length d) -> qty_pos d -> price_nonneg d -> 0 <= k -> k <= 1 ->
    p2p_random d k r = Ok (tm, ex) -> uniform_run S d = Ok (tm', ex') -> forall u, profit d u (tm_trans tm) <= profit d u (tm_trans tm').
Proof. exact p2p_gain_refuted. Qed.
Print Assumptions C78_p2p_gain_refuted.

(** buyers 9, 10 and sellers 1, 2, one unit each: two units can be traded at one price; the Huang auction trades one, MUDA none or
    two depending on the flips, the peer to peer mechanism two.  With buyers 10, 2 and sellers 1, 9 one unit can be traded at one
    price, but two in all. *)
Example C78_example :
  best_at_one_price pairs_df (qz 2) /\ best_at_one_price cross 1 /\
  gains pairs_df 2 (huang_auction SS pairs_df) = Some (1, 1)%Q /\
  gains pairs_df 2 (muda SS pairs_df (repeat true 4)) = Some (0, 0)%Q /\
  gains pairs_df 2 (muda SS pairs_df halved) = Some (2, 5)%Q /\
  gains pairs_df 2 (uniform_run SS pairs_df) = Some (2, 9 # 2)%Q /\
  gains pairs_df 2 (p2p_random pairs_df (qf 1 2) (fun _ => 0%nat)) = Some (2, 4)%Q /\
  gains cross 2 (p2p_random cross (qf 1 2) (fun _ => 0%nat)) = Some (1, 9 # 2)%Q /\
  gains cross 2 (p2p_random cross (qf 1 2) (fun _ => 1%nat)) = Some (2, 1 # 2)%Q.
Proof.
  split; [exact pairs_best|]. split; [exact cross_best|].
  split; [vm_compute; reflexivity|]. split; [vm_compute; reflexivity|]. split; [vm_compute; reflexivity|]. split; [vm_compute; reflexivity|].
  split; [vm_compute; reflexivity|]. split; vm_compute; reflexivity.
Qed.
