(** Property C77: buyers and sellers are treated alike. *)
From Verif Require Import QcTac Num ModelBase ModelCurves ModelHuang ModelMuda ModelP2P ModelUniform Spec SpecTrade SpecMuda SpecTables SpecDual
  Sorter Conform MudaWitness DualFacts DualHuang DualMuda DualP2P DualTop DualWitness.

(** C77. In the mirror image of a market buyers become sellers and a price [p] becomes [M - p], all prices being between 0 and
    [M].  The orders of equal prices must correspond, unless the prices of each side are different.
    The competitive price is the mirror image of the competitive price. *)
Theorem C77_price :
  forall (M : Qc) (S S' : sorter) (d : df), qty_nonneg d -> inside M d -> mirrored M S S' \/ prices_distinct d ->
    exists v, find_competitive_price S d = Ok v /\ find_competitive_price S' (map (flip M) d) = Ok (flip_num M v).
Proof. exact price_either. Qed.
Print Assumptions C77_price.

(** The Huang auction exchanges its two prices and makes the mirror images of the transactions. *)
Theorem C77_huang :
  forall (M : Qc) (S S' : sorter) (d : df), qty_nonneg d -> inside M d -> mirrored M S S' \/ prices_distinct d ->
    (huang_auction S d = Ok (tm_init, XEmpty) /\ huang_auction S' (map (flip M) d) = Ok (tm_init, XEmpty)) \/
    exists tm tm' ps pb q q', huang_auction S d = Ok (tm, XHuang ps pb q) /\ huang_auction S' (map (flip M) d) = Ok (tm', XHuang (M - pb) (M - ps) q') /\
      Permutation (tm_trans tm') (map (flip_trans M) (tm_trans tm)) /\ (tm_trans tm <> [] -> q' = q).
Proof. exact huang_either. Qed.
Print Assumptions C77_huang.
(** Without transactions the reported quantity depends on the side. *)
Theorem C77_huang_quantity_refuted :
  ~ forall (M : Qc) (S S' : sorter) (d : df), qty_nonneg d -> inside M d -> prices_distinct d ->
    forall tm tm' ps pb q ps' pb' q', huang_auction S d = Ok (tm, XHuang ps pb q) -> huang_auction S' (map (flip M) d) = Ok (tm', XHuang ps' pb' q') -> q' = q.
Proof. exact huang_quantity_refuted. Qed.
Print Assumptions C77_huang_quantity_refuted.

(** With the same flips MUDA makes the mirror images of the transactions at the mirror images of the prices.  If no half trades
    with both sides equally long, everything else is the same: order, fees and exceptions; for the fees it is enough that the
    right half is not such. *)
Theorem C77_muda :
  forall (M : Qc) (S S' : sorter) (d : df) (fl : list bool) (pl pr : num), let l := flipped true fl d in let r := flipped false fl d in
    qty_nonneg d -> inside M d -> mirrored M S S' \/ prices_distinct d -> labels_unique d -> length fl = length d ->
    find_competitive_price S l = Ok pl -> find_competitive_price S r = Ok pr ->
    (~ tied l pr -> ~ tied r pl ->
       match muda S d fl with
       | Ok (tm, XMuda l r pl pr f) => muda S' (map (flip M) d) fl = Ok (mkTM (n_trans tm) (map (flip_trans M) (tm_trans tm)), XMuda l r (flip_num M pl) (flip_num M pr) f)
       | Ok _ => False
       | Err e => muda S' (map (flip M) d) fl = Err e
       end) /\
    (forall tm ll rr a b f tm' ex', muda S d fl = Ok (tm, XMuda ll rr a b f) -> muda S' (map (flip M) d) fl = Ok (tm', ex') ->
       exists f', ex' = XMuda ll rr (flip_num M a) (flip_num M b) f' /\ Permutation (tm_trans tm') (map (flip_trans M) (tm_trans tm)) /\ (~ tied r pl -> f' = f)).
Proof. exact muda_dual. Qed.
Print Assumptions C77_muda.
(** With equally long sides the buyers count as the long side, and their fees are overwritten. *)
Theorem C77_muda_fees_refuted :
  ~ forall (M : Qc) (S S' : sorter) (d : df) (fl : list bool), qty_nonneg d -> inside M d -> prices_distinct d -> labels_unique d ->
    forall tm tm' l r pl pr l' r' pl' pr' f f', muda S d fl = Ok (tm, XMuda l r pl pr f) -> muda S' (map (flip M) d) fl = Ok (tm', XMuda l' r' pl' pr' f') -> f' = f.
Proof. exact muda_fees_refuted. Qed.
Print Assumptions C77_muda_fees_refuted.

(** The uniform price mechanism of the documentation. *)
Theorem C77_uniform :
  forall (M : Qc) (S S' : sorter) (d : df), qty_nonneg d -> inside M d -> mirrored M S S' \/ prices_distinct d ->
    (uniform_price_mechanism S d = Err TypeError /\ uniform_price_mechanism S' (map (flip M) d) = Err TypeError) \/
    exists tm tm' c p, uniform_price_mechanism S d = Ok (tm, XUniform (Fin c) (Fin p)) /\ uniform_price_mechanism S' (map (flip M) d) = Ok (tm', XUniform (Fin c) (Fin (M - p))) /\
      Permutation (tm_trans tm') (map (flip_trans M) (tm_trans tm)).
Proof. exact uniform_either. Qed.
Print Assumptions C77_uniform.

(** The peer to peer mechanism with the coefficient [1 - c]: the mirror image of any result is the result for some random
    sequence, whatever the prices. *)
Theorem C77_p2p :
  forall (M : Qc) (d : df) (c : Qc) (r : nat -> nat) (tm : transmgr) (gtl : list (list (nat * nat))), map lbl d = seq 0 (length d) -> qty_nonneg d ->
    p2p_random d c r = Ok (tm, XP2P gtl) ->
    exists r' tm', p2p_random (map (flip M) d) (1 - c) r' = Ok (tm', XP2P (map (map (fun p => (snd p, fst p))) gtl)) /\
      Permutation (tm_trans tm') (map (flip_meeting M d) (tm_trans tm)).
Proof. exact p2p_flip. Qed.
Print Assumptions C77_p2p.

(** Everybody gains the same with the mirror images of the transactions. *)
Theorem C77_profit :
  forall (M : Qc) (d : df) (u : Z) (tl tl' : list trans), Permutation tl' (map (flip_trans M) tl) -> profit (map (flip M) d) u tl' = profit d u tl.
Proof. exact profit_flip. Qed.
Print Assumptions C77_profit.
(** Every order of equal prices has a mirror image; that of the stable order is the stable order. *)
Theorem C77_orders :
  forall (M : Qc), (forall S : sorter, exists S', mirrored M S S') /\ mirrored M stable_sorter stable_sorter.
Proof. exact orders_mirror. Qed.
Print Assumptions C77_orders.

(** Buyers of 1 at 9, 2 at 8 and 1 at 5, sellers of 2 at 2, 1 at 7 and 1 at 4; in the mirror image bid 2 buys at 8. *)
Definition dual_bids : df := frame [B 1 (qz 9) 0; B (qz 2) (qz 8) 1; A (qz 2) (qz 2) 2; B 1 (qz 5) 3; A 1 (qz 7) 4; A 1 (qz 4) 5].
Notation image := (map (flip (qz 10)) dual_bids).
Example C77_example :
  map (fun r => (lbl r, this (price r), buying r)) image =
    [(0%nat, 1%Q, false); (1%nat, 2%Q, false); (2%nat, 8%Q, true); (3%nat, 5%Q, false); (4%nat, 3%Q, true); (5%nat, 6%Q, true)] /\
  show (huang_auction SS dual_bids) = Some ([(2%nat, 1%Q, 4%Q, (-1)%Z, false); (0%nat, 1%Q, 8%Q, (-1)%Z, false)], SH 4 8 1) /\
  show (huang_auction SS image) = Some ([(0%nat, 1%Q, 2%Q, (-1)%Z, false); (2%nat, 1%Q, 6%Q, (-1)%Z, false)], SH 2 6 1) /\
  show (muda SS dual_bids [true; false; true; false; false; true]) =
    Some ([(0%nat, 1%Q, 8%Q, (-1)%Z, false); (2%nat, 1%Q, 8%Q, (-1)%Z, false)], SM [0; 2; 5]%nat [1; 3; 4]%nat (Some 2%Q) (Some 8%Q) [0; 0; 4; 0; 0; 0]%Q) /\
  show (muda SS image [true; false; true; false; false; true]) =
    Some ([(0%nat, 1%Q, 2%Q, (-1)%Z, false); (2%nat, 1%Q, 2%Q, (-1)%Z, false)], SM [0; 2; 5]%nat [1; 3; 4]%nat (Some 8%Q) (Some 2%Q) [0; 0; 4; 0; 0; 0]%Q) /\
  option_map snd (show (p2p_random dual_bids (qf 3 4) (fun _ => 0%nat))) = Some (SP [[(0, 2); (1, 4); (3, 5)]; [(1, 2)]]%nat) /\
  option_map snd (show (p2p_random image (qf 1 4) (fun _ => 0%nat))) = Some (SP [[(2, 0); (4, 1); (5, 3)]; [(2, 1)]]%nat).
Proof. repeat split; vm_compute; reflexivity. Qed.
