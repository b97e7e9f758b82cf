(** Property C75: Market.run("huang") depends on the book only; splitting a bid changes nothing. *)
From Verif Require Import QcTac Num ModelBase ModelCurves ModelHuang ModelMerge ModelMarket Spec SpecTrade SpecMerge SpecBook Sorter Conform BookTop.

(** Two markets with bids at the same levels (side and rounded price), and the same total quantity at each level, either fail with
    the same exception or return the same prices and quantity, and in both a bid trades the same multiple of its quantity, which
    depends on its level only. No assumption is made about signs. *)
Theorem C75_book :
  forall (S S' : sorter) (m m' : market) (smp smp' : nat -> nat) (cnt cnt' : Z),
    let d := get_df (mk_bm m) in let d' := get_df (mk_bm m') in same_book d d' ->
    let run := snd (market_run S m (AHuang smp cnt)) in let run' := snd (market_run S' m' (AHuang smp' cnt')) in
    (exists e, run = Err e /\ run' = Err e) \/
    exists tm tm' ex unit, run = Ok (tm, ex) /\ run' = Ok (tm', ex) /\
      (forall x, In x d -> traded_by (lbl x) (tm_trans tm) = unit (buying x) (np_round 5 (price x)) * qty x) /\
      (forall x, In x d' -> traded_by (lbl x) (tm_trans tm') = unit (buying x) (np_round 5 (price x)) * qty x) /\
      (forall t x, In t (tm_trans tm) -> In x d -> lbl x = t_bid t -> exists ps pb q, ex = XHuang ps pb q /\ t_price t = if buying x then pb else ps) /\
      (forall t x, In t (tm_trans tm') -> In x d' -> lbl x = t_bid t -> exists ps pb q, ex = XHuang ps pb q /\ t_price t = if buying x then pb else ps).
Proof. exact market_book. Qed.
Print Assumptions C75_book.

(** A bid sent as several bids, of the same side and the same rounded price and with the same quantity in total: the others
    trade what they traded, and the pieces trade together what the bid traded, at the same prices. *)
Theorem C75_split :
  forall (S S' : sorter) (m m' : market) (smp smp' : nat -> nat) (cnt cnt' : Z) (l1 : list bid) (b : bid) (l2 ps : list bid),
    bm_bids (mk_bm m) = (l1 ++ b :: l2)%list -> bm_bids (mk_bm m') = (l1 ++ ps ++ l2)%list -> pieces b ps ->
    let run := snd (market_run S m (AHuang smp cnt)) in let run' := snd (market_run S' m' (AHuang smp' cnt')) in
    (exists e, run = Err e /\ run' = Err e) \/
    exists tm tm' ex, run = Ok (tm, ex) /\ run' = Ok (tm', ex) /\
      (forall k, (k < length l1)%nat -> traded_by k (tm_trans tm') = traded_by k (tm_trans tm)) /\
      qsumf (fun k => traded_by k (tm_trans tm')) (seq (length l1) (length ps)) = traded_by (length l1) (tm_trans tm) /\
      (forall k, (k < length l2)%nat -> traded_by (length l1 + length ps + k) (tm_trans tm') = traded_by (length l1 + 1 + k) (tm_trans tm)).
Proof. exact market_split. Qed.
Print Assumptions C75_split.

(** The seller of 2 at the price 1 sends 1/2 at 1, 1 at 1.000001 (rounded 1) and 1/2 at 1 instead; with 3 - 1 = 2 the result is the same too. *)
Definition book (l : list bid) : market :=
  fold_left (fun m b => fst (accept_bid m b)) (([B (qz 3) (qz 9) 0; B (qz 1) (qz 8) 1] ++ l ++ [A (qz 5) (qz 6) 3])%list) market_init.
Example C75_example :
  let r l := show (snd (market_run SS (book l) (AHuang (fun _ => 0%nat) 0))) in
  r [A (qz 2) (qz 1) 2] = Some ([(2%nat, 2, 6, (-1)%Z, false); (0%nat, 2, 8, (-1)%Z, false)], SH 6 8 2)%Q /\
  r [A (Q2Qc (1#2)) (qz 1) 2; A (qz 1) (Q2Qc (1000001#1000000)) 2; A (Q2Qc (1#2)) (qz 1) 2] =
    Some ([(2%nat, 1#2, 6, (-1)%Z, false); (3%nat, 1, 6, (-1)%Z, false); (4%nat, 1#2, 6, (-1)%Z, false); (0%nat, 2, 8, (-1)%Z, false)], SH 6 8 2)%Q /\
  r [A (qz 3) (qz 1) 2; A (qz (-1)) (qz 1) 2] =
    Some ([(2%nat, 3, 6, (-1)%Z, false); (3%nat, -1, 6, (-1)%Z, false); (0%nat, 2, 8, (-1)%Z, false)], SH 6 8 2)%Q.
Proof. vm_compute. repeat split. Qed.
