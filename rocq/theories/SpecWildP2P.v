(** What is said about peer to peer trading with infinite and NaN prices. *)
From Verif Require Import QcTac Num ModelBase ModelHuang ModelAny ModelWild ModelWildP2P Spec SpecWild.

(** The buyer [x] and the seller [y] meet: each has one transaction, with the same quantity and price.  They deal, at the mixed price,
    exactly if the buyer offers at least what the seller asks; otherwise quantity and price are 0. *)
Definition w_meet (c : Qc) (x y : wrow) (t u : atrans Qc num) : Prop :=
  x_bid t = w_lbl x /\ x_bid u = w_lbl y /\ x_source t = Z.of_nat (w_lbl y) /\ x_source u = Z.of_nat (w_lbl x) /\
  x_qty u = x_qty t /\ x_price u = x_price t /\ 0 <= x_qty t /\
  if nleb (w_price y) (w_price x) then x_price t = w_mix c (w_price x) (w_price y)
  else x_qty t = 0 /\ x_price t = Fin 0 /\ x_active t = true /\ x_active u = true.
(** the transactions of a run, meeting by meeting *)
Inductive meetings (c : Qc) (d : wdf) : list (nat * nat) -> list (atrans Qc num) -> Prop :=
| m_none : meetings c d [] []
| m_more x y t u L T : In x d -> In y d -> w_buying x = true -> w_buying y = false -> w_meet c x y t u -> meetings c d L T ->
    meetings c d ((w_lbl x, w_lbl y) :: L) (t :: u :: T).

(** the money of a transaction is a number *)
Definition paid_number (t : atrans Qc num) : bool := match nmul (x_price t) (Fin (x_qty t)) with Fin _ => true | _ => false end.
(** the value is infinite *)
Definition infinite (a : num) : Prop := a = PInf \/ a = NInf.
(** the same transaction except for the price *)
Definition same_but_price (t : atrans Qc num) (u : trans) : Prop :=
  t_bid u = x_bid t /\ t_qty u = x_qty t /\ t_source u = x_source t /\ t_active u = x_active t.
