(** What the peer to peer mechanism does, stated on its transactions: meetings, rounds and
    schedules.  Independent of the masks, arrays and random draws of the implementation. *)
From Verif Require Import QcTac ModelBase Spec SpecTrade.

(** what bid [x] has left after the transactions [tl] *)
Definition rest (x : row) (tl : list trans) : Qc := qty x - traded_by (lbl x) tl.

(** what the meeting of buyer [x] and seller [y] adds to the transactions [tl] *)
Definition deal (c : Qc) (x y : row) (tl : list trans) : list trans :=
  if qleb (price y) (price x) then
    let q := qmin (rest x tl) (rest y tl) in
    let p := price x * c + (1 - c) * price y in
    [mkTrans (lbl x) q p (Z.of_nat (lbl y)) (qltb q (rest x tl));
     mkTrans (lbl y) q p (Z.of_nat (lbl x)) (qltb q (rest y tl))]
  else
    [mkTrans (lbl x) 0 0 (Z.of_nat (lbl y)) true; mkTrans (lbl y) 0 0 (Z.of_nat (lbl x)) true].

(** the meetings [L], held one after the other, lead from the transactions [tl] to [tl'] *)
Inductive Deals (d : df) (c : Qc) : list trans -> list (nat * nat) -> list trans -> Prop :=
| Deals_nil tl : Deals d c tl [] tl
| Deals_cons tl x y L tl' : In x d -> In y d -> buying x = true -> buying y = false ->
    Deals d c (tl ++ deal c x y tl) L tl' -> Deals d c tl ((lbl x, lbl y) :: L) tl'.

(** [(b, s)] may meet after the meetings [met] and the transactions [tl]: a buyer and a seller of the
    table that did not meet yet; from the second round on both must have something left *)
Definition may_meet (d : df) (met : list (nat * nat)) (tl : list trans) (p : nat * nat) : Prop :=
  exists x y, In x d /\ In y d /\ buying x = true /\ buying y = false /\ p = (lbl x, lbl y) /\
    ~ In p met /\ (met = [] \/ rest x tl <> 0 /\ rest y tl <> 0).

(** one round: a nonempty maximal set of disjoint pairs that may meet *)
Record Round (d : df) (met : list (nat * nat)) (tl : list trans) (T : list (nat * nat)) : Prop := {
  rd_some : T <> [];
  rd_disjoint : NoDup (flat_map (fun p => [fst p; snd p]) T);
  rd_allowed : forall p, In p T -> may_meet d met tl p;
  rd_maximal : forall p, may_meet d met tl p -> exists p', In p' T /\ (fst p' = fst p \/ snd p' = snd p) }.

(** rounds held one after the other, each while some bid has something left *)
Inductive Schedule (d : df) (c : Qc) : list (list (nat * nat)) -> list trans -> Prop :=
| Sch_nil : Schedule d c [] []
| Sch_round gtl tl T tl' : Schedule d c gtl tl -> (exists x, In x d /\ 0 < rest x tl) ->
    Round d (concat gtl) tl T -> Deals d c tl T tl' -> Schedule d c (gtl ++ [T]) tl'.

(** the schedule can not be continued *)
Definition Stopped (d : df) (gtl : list (list (nat * nat))) (tl : list trans) : Prop :=
  (forall x, In x d -> rest x tl = 0) \/ (forall p, ~ may_meet d (concat gtl) tl p).
