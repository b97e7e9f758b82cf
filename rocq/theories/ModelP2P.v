(** Model of pymarket/mechanisms/p2p_random.py. *)
From Verif Require Import QcTac Num ModelBase ModelHuang.

(** p2p_random.py:84-93 [pairs_inv]: all (buyer, seller) label pairs. *)
Definition all_pairs (d : df) : list (nat * nat) :=
  flat_map (fun b => map (fun s => (lbl b, lbl s)) (sellers d)) (buyers d).

(** Row [b] of the matrix [pairs] (p2p_random.py:85-91): False where the pair involves [b]. *)
Definition pairs_row (ps : list (nat * nat)) (b : nat) : list bool :=
  map (fun p => negb (Nat.eqb (fst p) b || Nat.eqb (snd p) b)) ps.

(** elementwise [&=] *)
Definition mask_and (a b : list bool) : list bool := map (fun xy => fst xy && snd xy) (combine a b).

(** [np.where(tmp_active == 1)[0]] *)
Definition where_true (a : list bool) : list nat :=
  map fst (filter snd (combine (seq 0 (length a)) a)).

(** [r.choice(where)]: the generator is an oracle [nat -> nat]; its [k]-th answer selects an
    element of the (nonempty) array.  Every element can be selected. *)
Definition choose (r : nat -> nat) (k : nat) (w : list nat) : nat :=
  nth (Nat.modulo (r k) (length w)) w 0%nat.

(** p2p_random.py:102-109: select pairs for one round.  Returns the trading list, [active] and the
    number of random draws used so far. *)
Fixpoint pick_round (fuel : nat) (ps : list (nat * nat)) (r : nat -> nat) (k : nat)
  (active tmp : list bool) (trading : list (nat * nat))
  : res (list (nat * nat) * list bool * nat) :=
  match where_true tmp with
  | [] => Ok (trading, active, k)
  | w =>
      match fuel with
      | O => Err OutOfFuel
      | S n =>
          let x := choose r k w in
          match nth_error ps x with
          | None => Err IndexError
          | Some trade =>
              pick_round n ps r (S k) (set_nth x false active)
                (mask_and (mask_and tmp (pairs_row ps (fst trade))) (pairs_row ps (snd trade)))
                (trading ++ [trade])
          end
      end
  end.

(** p2p_random.py:113-124: the trade of one pair *)
Definition trade_pair (p_coef : Qc) (prices : list Qc) (st : list Qc * transmgr) (bs : nat * nat)
  : list Qc * transmgr :=
  let '(quantities, tm) := st in
  let '(b, s) := bs in
  let pb := nth b prices 0 in
  let ps := nth s prices 0 in
  let qb := nth b quantities 0 in
  let qs := nth s quantities 0 in
  if qleb ps pb then
    let q := qmin qb qs in
    let p := pb * p_coef + (1 - p_coef) * ps in
    let tb := mkTrans b q p (Z.of_nat s) (qltb 0 (qb - q)) in
    let ts := mkTrans s q p (Z.of_nat b) (qltb 0 (qs - q)) in
    let quantities1 := set_nth b (qb - q) quantities in
    let quantities2 := set_nth s (nth s quantities1 0 - q) quantities1 in
    (quantities2, add_all tm [tb; ts])
  else
    (quantities, add_all tm [mkTrans b 0 0 (Z.of_nat s) true; mkTrans s 0 0 (Z.of_nat b) true]).

(** p2p_random.py:126-131: pairs that may trade in the next round *)
Definition next_tmp (d : df) (ps : list (nat * nat)) (quantities : list Qc) (active : list bool)
  : list bool :=
  let inactive_buying := filter (fun b => qeqb (nth b quantities 0) 0) (map lbl (buyers d)) in
  let inactive_selling := filter (fun s => qeqb (nth s quantities 0) 0) (map lbl (sellers d)) in
  fold_left (fun a i => mask_and a (pairs_row ps i)) (inactive_buying ++ inactive_selling) active.

(** p2p_random.py:98-131: the outer [while] loop *)
Fixpoint p2p_loop (fuel : nat) (d : df) (ps : list (nat * nat)) (p_coef : Qc) (prices : list Qc)
  (r : nat -> nat) (k : nat) (active tmp : list bool) (quantities : list Qc) (tm : transmgr)
  (gtl : list (list (nat * nat))) : res (transmgr * list (list (nat * nat))) :=
  if qltb 0 (qsum quantities) && existsb (fun b => b) tmp then
    match fuel with
    | O => Err OutOfFuel
    | S n =>
        '(trading, active', k') <- pick_round (length ps) ps r k active tmp [] ;;
        let '(quantities', tm') := fold_left (trade_pair p_coef prices) trading (quantities, tm) in
        p2p_loop n d ps p_coef prices r k' active' (next_tmp d ps quantities' active')
          quantities' tm' (gtl ++ [trading])
    end
  else Ok (tm, gtl).

(** p2p_random.py:10-134 [p2p_random].  Labels are used as positions of the arrays [pairs],
    [quantities] and [prices]; a label outside the arrays raises IndexError. *)
Definition p2p_random (bids : df) (p_coef : Qc) (r : nat -> nat) : res (transmgr * extra) :=
  let ps := all_pairs bids in
  if forallb (fun p => Nat.ltb (fst p) (length bids) && Nat.ltb (snd p) (length bids)) ps then
    let active := repeat true (length ps) in
    '(tm, gtl) <- p2p_loop (length ps) bids ps p_coef (map price bids) r 0 active active
                    (map qty bids) tm_init [] ;;
    Ok (tm, XP2P gtl)
  else Err IndexError.
