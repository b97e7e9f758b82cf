(** Property C68: how much of the possible trade and welfare the mechanisms realise. *)
From Verif Require Import QcTac Num ModelBase ModelCurves ModelHuang ModelMuda ModelP2P Spec SpecTrade SpecMuda SpecStats SpecAlloc SpecHuang
  Sorter Conform HuangLoss MudaWelfare EffWitness.

(** C68. The Huang auction trades less than the competitive quantity, by at most the larger quantity of the two price setters. *)
Theorem C68_huang_quantity :
  forall (S : sorter) (d : df) tm ps pb q, qty_pos d -> price_nonneg d -> labels_unique d -> prices_distinct d ->
    huang_auction S d = Ok (tm, XHuang ps pb q) ->
    bought d (tm_trans tm) = qmin (demand_above d pb) (supply_below d ps) /\
    exists c rb rs, Marginal d ps pb c /\ In rb d /\ In rs d /\ buying rb = true /\ buying rs = false /\ price rb = pb /\ price rs = ps /\
      bought d (tm_trans tm) < c /\ c <= bought d (tm_trans tm) + qmax (qty rb) (qty rs).
Proof. exact huang_quantity. Qed.
Print Assumptions C68_huang_quantity.

(** C68. No allocation has more welfare than that of the Huang auction plus the units it does not trade times the largest gain of a unit. *)
Theorem C68_huang_loss :
  forall (S : sorter) (d : df) tm ps pb q c x hi lo, qty_pos d -> price_nonneg d -> labels_unique d -> prices_distinct d ->
    huang_auction S d = Ok (tm, XHuang ps pb q) -> Marginal d ps pb c -> alloc_ok d x ->
    (forall r, In r d -> if buying r then price r <= hi else lo <= price r) ->
    welfare d price x <= traded_surplus price d (tm_trans tm) + (c - bought d (tm_trans tm)) * (hi - lo).
Proof. exact huang_loss. Qed.
Print Assumptions C68_huang_loss.

(** C68. When nobody is rationed the auction keeps at least the share of the welfare that it keeps of the quantity. *)
Theorem C68_huang_share :
  forall (S : sorter) (d : df) tm ps pb q c x, qty_pos d -> price_nonneg d -> labels_unique d -> prices_distinct d ->
    huang_auction S d = Ok (tm, XHuang ps pb q) -> Marginal d ps pb c -> demand_above d pb = supply_below d ps -> alloc_ok d x ->
    welfare d price x * bought d (tm_trans tm) <= traded_surplus price d (tm_trans tm) * c.
Proof. exact huang_ratio. Qed.
Print Assumptions C68_huang_share.

(** C68. If all bids have the same quantity, exactly one trade of the efficient outcome is lost. *)
Theorem C68_huang_equal_quantities :
  forall (S : sorter) (d : df) tm ps pb q u, qty_pos d -> price_nonneg d -> labels_unique d -> prices_distinct d ->
    (forall r, In r d -> qty r = u) -> huang_auction S d = Ok (tm, XHuang ps pb q) ->
    exists c, Marginal d ps pb c /\ bought d (tm_trans tm) = c - u /\
      forall x, alloc_ok d x -> welfare d price x * (c - u) <= traded_surplus price d (tm_trans tm) * c.
Proof. exact huang_unit. Qed.
Print Assumptions C68_huang_equal_quantities.

Example C68_example :
  let d := frame [B (qz 1) (qz 9) 0; B (qz 1) (qz 8) 1; B (qz 1) (qz 7) 2; B (qz 1) (qz 2) 5; A (qz 1) (qz 1) 3; A (qz 1) (qz 3) 4; A (qz 1) (qz 5) 6] in
  match huang_auction SS d with
  | Ok (tm, XHuang ps pb q) => map this [ps; pb; q; traded_surplus price d (tm_trans tm);
      welfare d price (amounts [(0, 4, qz 1); (1, 5, qz 1); (2, 6, qz 1)]%nat)] = [5; 7; 2; 13; 15]%Q
  | _ => False
  end.
Proof. vm_compute. reflexivity. Qed.

(** C68, refuted in general: with rationing the share of the welfare can be smaller than the share of the quantity.  The buyer that
    values the good most is among the winners and gets nothing, while a winner with a lower bid is served. *)
Theorem C68_huang_share_refuted :
  exists (d : df) tm ps pb q c x r1 r2, qty_pos d /\ price_nonneg d /\ labels_unique d /\ prices_distinct d /\ asks_pos d /\
    huang_auction SS d = Ok (tm, XHuang ps pb q) /\ Marginal d ps pb c /\ alloc_ok d x /\
    traded_surplus price d (tm_trans tm) * c < welfare d price x * bought d (tm_trans tm) /\
    In r1 d /\ In r2 d /\ buying r1 = true /\ buying r2 = true /\ price r2 < price r1 /\ wins ps pb r1 = true /\
    traded_by (lbl r1) (tm_trans tm) = 0 /\ 0 < traded_by (lbl r2) (tm_trans tm).
Proof. exact huang_ratio_fails. Qed.
Print Assumptions C68_huang_share_refuted.

(** C68. Each half of MUDA is efficient at its price: no allocation among the bids that accept the price has more welfare. *)
Theorem C68_muda_half :
  forall (S : sorter) (d : df) (fl : list bool) (tm : transmgr) (ex : extra), qty_nonneg d -> labels_unique d -> muda S d fl = Ok (tm, ex) ->
    forall h q, half_of ex d h (Fin q) -> forall x, alloc_ok h x ->
    (forall b s, In b (all_b h) -> In s (all_s h) -> price b < q \/ q < price s -> x (lbl b) (lbl s) = 0) ->
    welfare h price x <= traded_surplus price h (tm_trans tm).
Proof. exact half_welfare. Qed.
Print Assumptions C68_muda_half.

Example C68_muda_example :
  let d := frame [B (qz 2) (qz 10) 0; B (qz 1) (qz 8) 1; A (qz 2) (qz 1) 2; B (qz 1) (qz 7) 3; A (qz 1) (qz 3) 4] in
  match muda SS d [true; true; true; false; false] with
  | Ok (tm, XMuda l r pl pr f) => (l, show_num pr, this (traded_surplus price (rows_in l d) (tm_trans tm)),
      this (welfare (rows_in l d) price (amounts [(0, 2, qz 1); (1, 2, qz 1)]%nat))) = ([0; 1; 2]%nat, Some 5%Q, 18%Q, 16%Q)
  | _ => False
  end.
Proof. vm_compute. reflexivity. Qed.

(** C68, refuted for the whole of MUDA: both halves have a price and could trade by themselves, but nobody trades. *)
Theorem C68_muda_refuted :
  exists (d : df) (fl : list bool) tm l r pl pr f x, qty_pos d /\ price_nonneg d /\ labels_unique d /\
    muda SS d fl = Ok (tm, XMuda l r (Fin pl) (Fin pr) f) /\ tm_trans tm = [] /\ alloc_ok d x /\ 0 < welfare d price x.
Proof. exact muda_no_trade. Qed.
Print Assumptions C68_muda_refuted.

(** C68, refuted for peer to peer trading: half of the volume is guaranteed (C32) but no part of the welfare. *)
Theorem C68_p2p_refuted :
  exists (d : df) (r : nat -> nat) tm ex x, qty_pos d /\ price_nonneg d /\ map lbl d = seq 0 (length d) /\
    p2p_random d (qf 1 2) r = Ok (tm, ex) /\ traded_surplus price d (tm_trans tm) = 0 /\ alloc_ok d x /\ 0 < welfare d price x.
Proof. exact p2p_no_gain. Qed.
Print Assumptions C68_p2p_refuted.
