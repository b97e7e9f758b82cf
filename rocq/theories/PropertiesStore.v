(** Properties C01, C02: bids and transactions are append-only logs. *)
From Verif Require Import QcTac Num ModelBase ModelHuang ModelMarket ModelStats SpecMarket StoreFacts Sorter.

(** C01. After any sequence of accept_bid / run / statistics calls, a new bid gets as identifier the
    number of bids accepted before, and whatever is called later, that row of the table keeps exactly
    the submitted fields; the table has one row per accepted bid. *)
Theorem C01_bid_identifiers :
  forall (S : sorter) (sv : solver) (ops1 : list op) (b : bid) (ops2 : list op),
    let k := length (accepted ops1) in
    let final := session S sv market_init (ops1 ++ OAccept b :: ops2) in
    snd (accept_bid (session S sv market_init ops1) b) = k /\
    nth_error (get_df (mk_bm final)) k =
      Some (mkRow k (b_qty b) (b_price b) (b_user b) (b_buying b) (b_time b) (b_div b)) /\
    length (get_df (mk_bm final)) = length (accepted (ops1 ++ OAccept b :: ops2)).
Proof.
  exact (fun S sv ops1 b ops2 =>
    conj (accept_id S sv ops1 b) (conj (accepted_row S sv ops1 b ops2) (accepted_length S sv _))).
Qed.
Print Assumptions C01_bid_identifiers.

Example C01_example :
  map (fun r => (lbl r, user r, buying r)) (get_df (mk_bm (session stable_sorter (fun _ => None) market_init
    [OAccept (mkBid 1 1 7 true 0 true); ORun AUnknown; OAccept (mkBid 1 1 9 false 0 true);
     ORun (AMuda [true; false]); OStats None []; OAccept (mkBid 1 1 8 true 0 true)])))
  = [(0%nat, 7%Z, true); (1%nat, 9%Z, false); (2%nat, 8%Z, true)].
Proof. vm_compute. reflexivity. Qed.

(** C02. The transaction log. *)
Theorem C02_transaction_log :
  (forall (l : list trans) (t : trans),
     let m := add_all tm_init l in
     snd (add_transaction m t) = length l /\
     tm_trans (fst (add_transaction m t)) = l ++ [t] /\
     n_trans (fst (add_transaction m t)) = Datatypes.S (length l)) /\
  (forall l1 l2 : list trans,
     let m := tm_merge (add_all tm_init l1) (add_all tm_init l2) in
     tm_trans m = l1 ++ l2 /\ n_trans m = (length l1 + length l2)%nat).
Proof.
  exact (conj
    (fun l t => conj (eq_trans (add_transaction_index _ t) (add_all_n tm_init l))
      (conj (f_equal (fun x => x ++ [t]) (add_all_trans tm_init l))
            (f_equal Datatypes.S (add_all_n tm_init l))))
    (fun l1 l2 => conj
      (eq_trans (tm_merge_trans _ _) (f_equal2 (@app trans) (add_all_trans tm_init l1) (add_all_trans tm_init l2)))
      (eq_trans (tm_merge_n _ _)
        (f_equal2 Nat.add (f_equal (@length trans) (add_all_trans tm_init l1))
                          (f_equal (@length trans) (add_all_trans tm_init l2)))))).
Qed.
Print Assumptions C02_transaction_log.

Example C02_example :
  let t := fun i => mkTrans i 1 1 (-1) false in
  map t_bid (tm_trans (tm_merge (add_all tm_init [t 0; t 1]%nat) (add_all tm_init [t 5]%nat))) = [0; 1; 5]%nat.
Proof. reflexivity. Qed.
