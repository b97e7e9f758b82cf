(** What the mechanisms do in rounded arithmetic, stated on transactions. *)
From Verif Require Import QcTac ModelBase Spec SpecTrade ModelRound.

(** every quantity / every price of the table is a machine number *)
Definition machine_qty (R : rounding) (d : df) : Prop := forall x, In x d -> machine R (qty x).
Definition machine_price (R : rounding) (d : df) : Prop := forall x, In x d -> machine R (price x).
(** the result of a rounding differs from its argument by at most [u] times the argument *)
Definition rel_error (R : rounding) (u : Qc) : Prop := 0 <= u /\ forall x, qabs (R x - x) <= u * qabs x.
(** one is a machine number and so is the half of every machine number *)
Definition halves (R : rounding) : Prop := machine R 1 /\ forall x, machine R x -> machine R (x * qf 1 2).

(** what bid [x] has left after the transactions [tl]: its quantity minus one transaction after the
    other, every difference rounded *)
Definition rest_r (R : rounding) (x : row) (tl : list trans) : Qc :=
  fold_left (fun a t => if Nat.eqb (t_bid t) (lbl x) then R (a - t_qty t) else a) tl (qty x).
(** what the meeting of buyer [x] and seller [y] adds to the transactions [tl] *)
Definition deal_r (R : rounding) (c : Qc) (x y : row) (tl : list trans) : list trans :=
  if qleb (price y) (price x) then
    let q := qmin (rest_r R x tl) (rest_r R y tl) in
    let p := R (R (price x * c) + R (R (1 - c) * price y)) in
    [mkTrans (lbl x) q p (Z.of_nat (lbl y)) (qltb 0 (R (rest_r R x tl - q)));
     mkTrans (lbl y) q p (Z.of_nat (lbl x)) (qltb 0 (R (rest_r R y tl - q)))]
  else
    [mkTrans (lbl x) 0 0 (Z.of_nat (lbl y)) true; mkTrans (lbl y) 0 0 (Z.of_nat (lbl x)) true].
(** the meetings [L], held one after the other, lead from the transactions [tl] to [tl'] *)
Inductive Deals_r (R : rounding) (d : df) (c : Qc) : list trans -> list (nat * nat) -> list trans -> Prop :=
| Dr_nil tl : Deals_r R d c tl [] tl
| Dr_cons tl x y L tl' : In x d -> In y d -> buying x = true -> buying y = false ->
    Deals_r R d c (tl ++ deal_r R c x y tl) L tl' -> Deals_r R d c tl ((lbl x, lbl y) :: L) tl'.
(** how many transactions bid [x] has *)
Definition count_of (x : row) (tl : list trans) : nat := length (filter (fun t => Nat.eqb (t_bid t) (lbl x)) tl).
