(** Model of pymarket/datasets/uniform_bidders.py. *)
From Coq Require Import QArith.Qround.
From Verif Require Import QcTac Num ModelBase ModelHuang.

(** [r.choice(a, q, replace=False)] draws [q] different positions of an array of length [n];
    the generator is an oracle: call number, [n], [q] to positions. *)
Record chooser := mkChooser {
  ch : nat -> nat -> nat -> list nat;
  ch_len : forall k n q, (q <= n)%nat -> length (ch k n q) = q;
  ch_nodup : forall k n q, (q <= n)%nat -> NoDup (ch k n q);
  ch_range : forall k n q i, (q <= n)%nat -> In i (ch k n q) -> (i < n)%nat }.

(** [np.arange(0, 1, eps)] has [ceil(1/eps)] entries (none if negative) and entry [i] is [i*eps] *)
Definition arange_len (eps : Qc) : nat := Z.to_nat (Qceiling (this (1 / eps))).
Definition arange_at (eps : Qc) (i : nat) : Qc := qnat i * eps.

(** uniform_bidders.py:61-69, one side: [o_] is the offset, [u0] the first user *)
Definition gen_side (r : chooser) (eps : Qc) (k : nat) (o : Qc) (q : nat) (buys : bool) (u0 : Z)
  : res (list bid) :=
  let n := arange_len eps in
  if Nat.leb q n then
    let qs := map (arange_at eps) (ch r k n q) in
    let vs := map (fun i => arange_at eps i + o) (ch r (S k) n q) in
    Ok (map (fun jqv => mkBid (fst (snd jqv)) (snd (snd jqv)) (u0 + Z.of_nat (fst jqv))%Z buys 0 true)
            (combine (seq 0 q) (combine qs vs)))
  else Err ValueError.

(** uniform_bidders.py:4-70 [generate].  [1/eps] and [1/max(quantities)] raise on zero. *)
Definition generate (cant_buyers cant_sellers : nat) (offset_sellers offset_buyers : Qc)
  (r : chooser) (eps : Qc) : res (list bid) :=
  let mx := Nat.max cant_buyers cant_sellers in
  if qeqb eps 0 then Err ZeroDivisionError
  else
    eps' <- (if qltb (1 / eps) (qnat mx)
             then (if Nat.eqb mx 0 then Err ZeroDivisionError else Ok (1 / qnat mx / qz 2))
             else Ok eps) ;;
    bs <- gen_side r eps' 0 offset_buyers cant_buyers true 0 ;;
    ss <- gen_side r eps' 2 offset_sellers cant_sellers false (Z.of_nat cant_buyers) ;;
    Ok (bs ++ ss).
