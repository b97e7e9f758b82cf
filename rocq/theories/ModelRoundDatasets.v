(** Model of pymarket/datasets/uniform_bidders.py in rounded arithmetic. *)
From Coq Require Import QArith.Qround.
From Verif Require Import QcTac Num ModelBase ModelHuang ModelDatasets ModelRound.

Section Rounded.
  Variable R : rounding.
  (** [np.arange(0, 1, eps)] (uniform_bidders.py:63) in numpy: [ceil((1 - 0) / eps)] entries, the division rounded;
      entry [i] is [0 + i * eps], the product rounded.  Positions are exact (they are below 2^53). *)
  Definition arange_len_r (eps : Qc) : nat := Z.to_nat (Qceiling (this (R (1 / eps)))).
  Definition arange_at_r (eps : Qc) (i : nat) : Qc := R (qnat i * eps).

  (** uniform_bidders.py:62-69, one side: [range_ + o_] rounds once more *)
  Definition gen_side_r (r : chooser) (eps : Qc) (k : nat) (o : Qc) (q : nat) (buys : bool) (u0 : Z) : res (list bid) :=
    let n := arange_len_r eps in
    if Nat.leb q n then
      let qs := map (arange_at_r eps) (ch r k n q) in
      let vs := map (fun i => R (arange_at_r eps i + o)) (ch r (S k) n q) in
      Ok (map (fun jqv => mkBid (fst (snd jqv)) (snd (snd jqv)) (u0 + Z.of_nat (fst jqv))%Z buys 0 true)
              (combine (seq 0 q) (combine qs vs)))
    else Err ValueError.

  (** uniform_bidders.py:4-70 [generate]: [max(quantities) > (1 / eps)] compares an integer with a float exactly,
      [1 / max(quantities) / 2] rounds twice. *)
  Definition generate_r (cant_buyers cant_sellers : nat) (offset_sellers offset_buyers : Qc) (r : chooser) (eps : Qc) : res (list bid) :=
    let mx := Nat.max cant_buyers cant_sellers in
    if qeqb eps 0 then Err ZeroDivisionError
    else
      eps' <- (if qltb (R (1 / eps)) (qnat mx)
               then (if Nat.eqb mx 0 then Err ZeroDivisionError else Ok (R (R (1 / qnat mx) / qz 2)))
               else Ok eps) ;;
      bs <- gen_side_r r eps' 0 offset_buyers cant_buyers true 0 ;;
      ss <- gen_side_r r eps' 2 offset_sellers cant_sellers false (Z.of_nat cant_buyers) ;;
      Ok (bs ++ ss).
End Rounded.
