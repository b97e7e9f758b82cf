(** pymarket/mechanisms/p2p_random.py once more, for any numbers.

    ModelP2P.v computes with rationals and ModelRound.v rounds every result.  A caller may also pass NaN or an
    infinite value; then the code goes on with what the comparisons and operations of the machine say.  Here the
    operations that the code uses are a record, and nothing is assumed about them.  Prices, quantities and the
    prices of transactions may be of different types.

    Simplification: the TransactionManager is the list of its transactions. *)
From Coq Require Import Floats.SpecFloat.
From Verif Require Import QcTac Num ModelBase ModelHuang ModelP2P ModelRound.

(** What p2p_random.py:98-131 does with numbers.  [o_more] is [quantities.sum() > 0] (line 100), [o_le s b] is
    [prices[b] >= prices[s]] (113), [o_min] is Python's [min] (114), [o_mix b s] the price (115), [o_sub] and [o_pos]
    are used in 116-119, [o_is0] is [== 0] (126-127), the zeros are the literals of 121-122. *)
Record ops (P Q X : Type) := mkOps {
  o_le : P -> P -> bool;
  o_mix : P -> P -> X;
  o_free : X;
  o_none : Q;
  o_min : Q -> Q -> Q;
  o_sub : Q -> Q -> Q;
  o_pos : Q -> bool;
  o_is0 : Q -> bool;
  o_more : list Q -> bool }.
Arguments o_le {P Q X}. Arguments o_mix {P Q X}. Arguments o_free {P Q X}. Arguments o_none {P Q X}.
Arguments o_min {P Q X}. Arguments o_sub {P Q X}. Arguments o_pos {P Q X}. Arguments o_is0 {P Q X}. Arguments o_more {P Q X}.
Arguments mkOps {P Q X}.

(** A row of the table of bids (bids.py:21-28); the mechanism does not read the other columns. *)
Record arow (P Q : Type) := mkARow { a_lbl : nat; a_qty : Q; a_price : P; a_buying : bool }.
Arguments mkARow {P Q}. Arguments a_lbl {P Q}. Arguments a_qty {P Q}. Arguments a_price {P Q}. Arguments a_buying {P Q}.
(** transactions.py:67 *)
Record atrans (Q X : Type) := mkATrans { x_bid : nat; x_qty : Q; x_price : X; x_source : Z; x_active : bool }.
Arguments mkATrans {Q X}. Arguments x_bid {Q X}. Arguments x_qty {Q X}. Arguments x_price {Q X}. Arguments x_source {Q X}. Arguments x_active {Q X}.

Section Any.
  Context {P Q X : Type}.
  Variable o : ops P Q X.

  (** p2p_random.py:74-75: the index of the two sides *)
  Definition a_buyers (d : list (arow P Q)) : list nat := map a_lbl (filter a_buying d).
  Definition a_sellers (d : list (arow P Q)) : list nat := map a_lbl (filter (fun x => negb (a_buying x)) d).
  (** p2p_random.py:84-93 *)
  Definition a_pairs (d : list (arow P Q)) : list (nat * nat) :=
    flat_map (fun b => map (fun s => (b, s)) (a_sellers d)) (a_buyers d).

  (** p2p_random.py:112-124.  The positions exist whenever a pair is traded, see [a_run]; the last case is never
      reached. *)
  Definition a_trade (prices : list P) (st : list Q * list (atrans Q X)) (bs : nat * nat) : list Q * list (atrans Q X) :=
    let '(quantities, tm) := st in
    let '(b, s) := bs in
    match nth_error prices b, nth_error prices s with
    | Some pb, Some ps =>
        let qb := nth b quantities (o_none o) in
        let qs := nth s quantities (o_none o) in
        if o_le o ps pb then
          let q := o_min o qb qs in
          let p := o_mix o pb ps in
          let tb := mkATrans b q p (Z.of_nat s) (o_pos o (o_sub o qb q)) in
          let ts := mkATrans s q p (Z.of_nat b) (o_pos o (o_sub o qs q)) in
          let quantities1 := set_nth b (o_sub o qb q) quantities in
          let quantities2 := set_nth s (o_sub o (nth s quantities1 (o_none o)) q) quantities1 in
          (quantities2, tm ++ [tb; ts])
        else
          (quantities, tm ++ [mkATrans b (o_none o) (o_free o) (Z.of_nat s) true; mkATrans s (o_none o) (o_free o) (Z.of_nat b) true])
    | _, _ => st
    end.

  (** p2p_random.py:126-131 *)
  Definition a_next (d : list (arow P Q)) (ps : list (nat * nat)) (quantities : list Q) (active : list bool) : list bool :=
    let inactive_buying := filter (fun b => o_is0 o (nth b quantities (o_none o))) (a_buyers d) in
    let inactive_selling := filter (fun s => o_is0 o (nth s quantities (o_none o))) (a_sellers d) in
    fold_left (fun a i => mask_and a (pairs_row ps i)) (inactive_buying ++ inactive_selling) active.

  (** p2p_random.py:98-131 *)
  Fixpoint a_loop (fuel : nat) (d : list (arow P Q)) (ps : list (nat * nat)) (prices : list P)
    (r : nat -> nat) (k : nat) (active tmp : list bool) (quantities : list Q) (tm : list (atrans Q X))
    (gtl : list (list (nat * nat))) : res (list (atrans Q X) * list (list (nat * nat))) :=
    if o_more o quantities && existsb (fun b => b) tmp then
      match fuel with
      | O => Err OutOfFuel
      | S n =>
          '(trading, active', k') <- pick_round (length ps) ps r k active tmp [] ;;
          let '(quantities', tm') := fold_left (a_trade prices) trading (quantities, tm) in
          a_loop n d ps prices r k' active' (a_next d ps quantities' active') quantities' tm' (gtl ++ [trading])
      end
    else Ok (tm, gtl).

  (** p2p_random.py:10-134 *)
  Definition a_run (d : list (arow P Q)) (r : nat -> nat) : res (list (atrans Q X) * list (list (nat * nat))) :=
    let ps := a_pairs d in
    if forallb (fun p => Nat.ltb (fst p) (length d) && Nat.ltb (snd p) (length d)) ps then
      let active := repeat true (length ps) in
      a_loop (length ps) d ps (map a_price d) r 0 active active (map a_qty d) [] []
    else Err IndexError.
End Any.

(** ** Sums of numpy with any addition, as in ModelRound.v *)
Section Sum.
  Context {T : Type}.
  Variable add : T -> T -> T.
  Variable zero : T.
  Definition any_seq (l : list T) : T := fold_left add l zero.
  Fixpoint any_every8 (j : nat) (l : list T) : list T :=
    match l with
    | [] => []
    | x :: r => match j with O => x :: any_every8 7 r | S k => any_every8 k r end
    end.
  Definition any_block (l : list T) : T :=
    if Nat.ltb (length l) 8 then any_seq l
    else
      let n := (length l - length l mod 8)%nat in
      let acc j := any_seq (any_every8 j (firstn n l)) in
      let s := add (add (add (acc 0%nat) (acc 1%nat)) (add (acc 2%nat) (acc 3%nat)))
                   (add (add (acc 4%nat) (acc 5%nat)) (add (acc 6%nat) (acc 7%nat))) in
      fold_left add (skipn n l) s.
  Fixpoint any_pair (fuel : nat) (l : list T) : T :=
    match fuel with
    | O => any_block l
    | S k =>
        if Nat.leb (length l) 128 then any_block l
        else add (any_pair k (firstn (np_half (length l)) l)) (any_pair k (skipn (np_half (length l)) l))
    end.
  Definition any_sum (l : list T) : T := any_pair (length l) l.
End Sum.

(** ** Four kinds of numbers *)
(** rounded rationals, as in ModelRound.v; [A] is the sum *)
Definition ops_r (R : rounding) (A : list Qc -> Qc) (c : Qc) : ops Qc Qc Qc :=
  mkOps qleb (fun pb ps => R (R (pb * c) + R (R (1 - c) * ps))) 0 0 qmin (fun x y => R (x - y)) (fun x => qltb 0 x)
    (fun x => qeqb x 0) (fun l => qltb 0 (A l)).
(** exact rationals *)
Definition ops_q (c : Qc) : ops Qc Qc Qc := ops_r exact qsum c.
(** rationals with infinities and NaN, see Num.v *)
Definition nsub (x y : num) : num := nadd x (nmul (Fin (-(1))) y).
Definition ops_n (c : num) : ops num num num :=
  mkOps nleb (fun pb ps => nadd (nmul pb c) (nmul (nsub (Fin 1) c) ps)) (Fin 0) (Fin 0)
    (fun a b => if nltb b a then b else a) nsub (fun x => nltb (Fin 0) x) (fun x => neqb x (Fin 0))
    (fun l => nltb (Fin 0) (any_sum nadd (Fin 0) l)).
(** IEEE 754 binary64 as in the library [Floats.SpecFloat]: rounding to nearest, subnormal numbers, overflow to
    infinity, signed zeros and NaN *)
Definition d_add : spec_float -> spec_float -> spec_float := SFadd 53 1024.
Definition d_sub : spec_float -> spec_float -> spec_float := SFsub 53 1024.
Definition d_mul : spec_float -> spec_float -> spec_float := SFmul 53 1024.
Definition d_zero : spec_float := S754_zero false.
Definition d_one : spec_float := binary_normalize 53 1024 1 0 false.
Definition ops_d (c : spec_float) : ops spec_float spec_float spec_float :=
  mkOps SFleb (fun pb ps => d_add (d_mul pb c) (d_mul (d_sub d_one c) ps)) d_zero d_zero
    (fun a b => if SFltb b a then b else a) d_sub (fun x => SFltb d_zero x) (fun x => SFeqb x d_zero)
    (fun l => SFltb d_zero (any_sum d_add d_zero l)).

(** the rows of a table of ModelBase.v, and transactions in its form *)
Definition arow_of (x : row) : arow Qc Qc := mkARow (lbl x) (qty x) (price x) (buying x).
Definition trans_of (t : atrans Qc Qc) : trans := mkTrans (x_bid t) (x_qty t) (x_price t) (x_source t) (x_active t).
