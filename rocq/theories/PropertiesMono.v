(** Property C92: a bid that offers a better price does not trade less. *)
From Verif Require Import QcTac Num ModelBase ModelCurves ModelHuang ModelMuda ModelP2P ModelMarket ModelUniform Spec SpecTrade SpecMuda SpecHuang SpecMono
  Sorter Conform PlotWitness MonoFacts MonoHuang MonoTop.

(** C92, MUDA.  For the same flips a bid that names a better price, or only offers more where no other bid of its side names
    its price, trades at least as much as before, and at the same price. *)
Theorem C92_muda :
  forall (S : sorter) (l1 l2 : df) (r r' : row) (fl : list bool) tm ex tm' ex',
    let d := l1 ++ r :: l2 in let d' := l1 ++ r' :: l2 in
    qty_nonneg d -> labels_unique d -> better r r' \/ larger (l1 ++ l2) r r' ->
    muda S d fl = Ok (tm, ex) -> muda S d' fl = Ok (tm', ex') ->
    traded_by (lbl r) (tm_trans tm) <= traded_by (lbl r) (tm_trans tm') /\
    forall t t', In t (tm_trans tm) -> In t' (tm_trans tm') -> t_bid t = lbl r -> t_bid t' = lbl r -> t_price t' = t_price t.
Proof. exact muda_mono. Qed.
Print Assumptions C92_muda.
(** C92, the uniform price mechanism, even when the two runs use different sorting algorithms. *)
Theorem C92_uniform :
  forall (S S' : sorter) (l1 l2 : df) (r r' : row) tm ex tm' ex',
    let d := l1 ++ r :: l2 in let d' := l1 ++ r' :: l2 in
    qty_pos d -> price_nonneg d -> price_nonneg d' -> labels_unique d -> better r r' \/ larger (l1 ++ l2) r r' ->
    uniform_price_mechanism S d = Ok (tm, ex) -> uniform_price_mechanism S' d' = Ok (tm', ex') ->
    traded_by (lbl r) (tm_trans tm) <= traded_by (lbl r) (tm_trans tm').
Proof. exact uniform_mono. Qed.
Print Assumptions C92_uniform.
(** C92, the Huang auction on distinct prices: a better price for the same quantity ... *)
Theorem C92_huang :
  forall (S S' : sorter) (l1 l2 : df) (r r' : row) tm ex tm' ex',
    let d := l1 ++ r :: l2 in let d' := l1 ++ r' :: l2 in
    qty_pos d -> price_nonneg d -> price_nonneg d' -> labels_unique d -> prices_distinct d -> prices_distinct d' -> asks_pos d' ->
    better r r' -> qty r' = qty r ->
    huang_auction S d = Ok (tm, ex) -> huang_auction S' d' = Ok (tm', ex') ->
    traded_by (lbl r) (tm_trans tm) <= traded_by (lbl r) (tm_trans tm').
Proof. exact huang_mono. Qed.
Print Assumptions C92_huang.
(** ... and if the bid had won already, neither the two prices nor what any bid trades change. *)
Theorem C92_huang_winner :
  forall (S S' : sorter) (l1 l2 : df) (r r' : row),
    let d := l1 ++ r :: l2 in let d' := l1 ++ r' :: l2 in
    qty_pos d -> price_nonneg d -> price_nonneg d' -> labels_unique d -> prices_distinct d -> prices_distinct d' -> asks_pos d' ->
    better r r' -> qty r' = qty r ->
    forall tm ps pb q, huang_auction S d = Ok (tm, XHuang ps pb q) -> wins ps pb r = true ->
    exists tm' q', huang_auction S' d' = Ok (tm', XHuang ps pb q') /\
      forall x, In x d -> traded_by (lbl x) (tm_trans tm') = traded_by (lbl x) (tm_trans tm).
Proof. exact winner_raise. Qed.
Print Assumptions C92_huang_winner.
(** C92 for bids submitted to a market. *)
Theorem C92_market_muda :
  forall (S : sorter) (m m' : market) (l1 l2 : list bid) (b b' : bid),
    bm_bids (mk_bm m) = (l1 ++ b :: l2)%list -> bm_bids (mk_bm m') = (l1 ++ b' :: l2)%list -> better_bid b b' ->
    forall fl tm ex tm' ex', qty_nonneg (get_df (mk_bm m)) ->
    snd (market_run S m (AMuda fl)) = Ok (tm, ex) -> snd (market_run S m' (AMuda fl)) = Ok (tm', ex') ->
    traded_by (length l1) (tm_trans tm) <= traded_by (length l1) (tm_trans tm').
Proof. exact market_muda_mono. Qed.
Print Assumptions C92_market_muda.
Theorem C92_market_uniform :
  forall (S : sorter) (m m' : market) (l1 l2 : list bid) (b b' : bid),
    bm_bids (mk_bm m) = (l1 ++ b :: l2)%list -> bm_bids (mk_bm m') = (l1 ++ b' :: l2)%list -> better_bid b b' ->
    forall S' tm ex tm' ex', qty_pos (get_df (mk_bm m)) -> price_nonneg (get_df (mk_bm m)) -> price_nonneg (get_df (mk_bm m')) ->
    snd (market_run_uniform S m) = Ok (tm, ex) -> snd (market_run_uniform S' m') = Ok (tm', ex') ->
    traded_by (length l1) (tm_trans tm) <= traded_by (length l1) (tm_trans tm').
Proof. exact market_uniform_mono. Qed.
Print Assumptions C92_market_uniform.

(** C92, refuted: offering more in the Huang auction ... *)
Theorem C92_huang_larger_refuted :
  exists (l1 l2 : df) (r r' : row) tm ex tm' ex', let d := l1 ++ r :: l2 in let d' := l1 ++ r' :: l2 in
    qty_pos d /\ price_nonneg d /\ labels_unique d /\ prices_distinct d /\ asks_pos d /\ larger (l1 ++ l2) r r' /\
    huang_auction SS d = Ok (tm, ex) /\ huang_auction SS d' = Ok (tm', ex') /\
    traded_by (lbl r) (tm_trans tm') < traded_by (lbl r) (tm_trans tm).
Proof. exact huang_larger_witness. Qed.
Print Assumptions C92_huang_larger_refuted.
(** ... a better price in the Huang auction of the market, where bids at one price are merged and share ... *)
Theorem C92_huang_market_refuted :
  exists (m m' : market) (b b' : bid) (l : list bid) tm ex tm' ex',
    bm_bids (mk_bm m) = (b :: l)%list /\ bm_bids (mk_bm m') = (b' :: l)%list /\ better_bid b b' /\ b_qty b' = b_qty b /\
    qty_pos (get_df (mk_bm m)) /\ price_nonneg (get_df (mk_bm m)) /\ asks_pos (get_df (mk_bm m)) /\
    snd (market_run SS m (AHuang (fun _ => 0%nat) 0)) = Ok (tm, ex) /\ snd (market_run SS m' (AHuang (fun _ => 0%nat) 0)) = Ok (tm', ex') /\
    traded_by 0 (tm_trans tm) = qf 1 2 /\ traded_by 0 (tm_trans tm') = 0.
Proof. exact huang_shared_witness. Qed.
Print Assumptions C92_huang_market_refuted.
(** ... and a better price in peer to peer trading with the same draws. *)
Theorem C92_p2p_refuted :
  exists (l1 l2 : df) (r r' : row) k g tm ex tm' ex', let d := l1 ++ r :: l2 in let d' := l1 ++ r' :: l2 in
    map lbl d = seq 0 (length d) /\ qty_pos d /\ price_nonneg d /\ 0 <= k /\ k <= 1 /\ better r r' /\ qty r' = qty r /\
    p2p_random d k g = Ok (tm, ex) /\ p2p_random d' k g = Ok (tm', ex') /\
    traded_by (lbl r) (tm_trans tm') < traded_by (lbl r) (tm_trans tm).
Proof. exact p2p_better_witness. Qed.
Print Assumptions C92_p2p_refuted.

(** buyer 1 raises its price: in MUDA (it is alone in the left half with buyer 0 and seller 2) it takes the unit of buyer 0 at the
    same price; with the uniform price it takes it as well; in the Huang auction it wins at 13, and at 40 everything is the same *)
Definition climb (p : Qc) : df := frame [B (qz 1) (qz 10) 0; B (qz 1) p 1; A (qz 1) (qz 1) 2; B (qz 1) (qz 12) 3; B (qz 1) (qz 9) 4; A (qz 1) (qz 2) 5].
Example C92_example :
  let got := fun (x : res (transmgr * extra)) => match x with Ok (tm, _) => map (fun i => this (traded_by i (tm_trans tm))) [0; 1; 2]%nat | _ => [] end in
  let fl := [true; true; true; false; false; false] in
  got (muda SS (climb (qz 8)) fl) = [1; 0; 1]%Q /\ got (muda SS (climb (qz 11)) fl) = [0; 1; 1]%Q /\
  got (uniform_price_mechanism SS (climb (qz 8))) = [1; 0; 1]%Q /\ got (uniform_price_mechanism SS (climb (qz 11))) = [0; 1; 1]%Q /\
  got (huang_auction SS (climb (qz 11))) = [0; 0; 1]%Q /\ got (huang_auction SS (climb (qz 13))) = [0; 1; 1]%Q /\ got (huang_auction SS (climb (qz 40))) = [0; 1; 1]%Q.
Proof. vm_compute. auto 10. Qed.
