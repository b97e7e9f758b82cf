(** A run of peer to peer trading on doubles that has the values of a run on rationals. *)
From Coq Require Import Floats.SpecFloat.
From Verif Require Import QcTac ModelBase ModelHuang ModelP2P ModelAny SpecDouble SpecIeee.

(** the double [x] has the value [q] *)
Definition dval (q : Qc) (x : spec_float) : Prop := proper x /\ fval x = q.
(** the same row; a quantity that is not negative, a price that is not larger than [2^1022] *)
Definition double_row (x : row) (y : arow spec_float spec_float) : Prop :=
  a_lbl y = lbl x /\ a_buying y = buying x /\ dval (qty x) (a_qty y) /\ 0 <= qty x /\ dval (price x) (a_price y) /\ qabs (price x) <= pow2 1022.
Definition double_trans (t : trans) (u : atrans spec_float spec_float) : Prop :=
  x_bid u = t_bid t /\ x_source u = t_source t /\ x_active u = t_active t /\ dval (t_qty t) (x_qty u) /\ dval (t_price t) (x_price u).
(** the same meetings and transactions, or the same exception *)
Definition double_result (a : res (transmgr * extra)) (b : res (list (atrans spec_float spec_float) * list (list (nat * nat)))) : Prop :=
  match a, b with
  | Ok (tm, XP2P g), Ok (T, g') => Forall2 double_trans (tm_trans tm) T /\ g = g'
  | Err e, Err e' => e = e'
  | _, _ => False
  end.
