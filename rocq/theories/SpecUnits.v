(** The same market in other units, and results in other units. *)
From Verif Require Import QcTac Num ModelBase ModelHuang.

(** [r'] is the bid [r] with quantities multiplied by [a] and prices by [b].  Nothing is said about
    the user, the time and the divisible flag. *)
Definition same_bid (a b : Qc) (r r' : row) : Prop :=
  lbl r' = lbl r /\ qty r' = a * qty r /\ price r' = b * price r /\ buying r' = buying r.
(** the same with the user *)
Definition same_offer (a b : Qc) (r r' : row) : Prop := same_bid a b r r' /\ user r' = user r.

(** a number in other units *)
Definition in_units (a : Qc) (x : num) : num := match x with Fin q => Fin (a * q) | _ => x end.
(** a transaction in other units *)
Definition trans_units (a b : Qc) (t : trans) : trans := mkTrans (t_bid t) (a * t_qty t) (b * t_price t) (t_source t) (t_active t).
(** the additional information in other units *)
Definition extra_units (a b : Qc) (x : extra) : extra :=
  match x with
  | XEmpty => XEmpty
  | XHuang ps pb q => XHuang (b * ps) (b * pb) (a * q)
  | XMuda l r pl pr f => XMuda l r (in_units b pl) (in_units b pr) (map (Qcmult (a * b)) f)
  | XP2P g => XP2P g
  | XUniform q p => XUniform (in_units a q) (in_units b p)
  end.
(** a result in other units; the same exception *)
Definition result_units (a b : Qc) (x : res (transmgr * extra)) : res (transmgr * extra) :=
  match x with
  | Ok (tm, e) => Ok (mkTM (n_trans tm) (map (trans_units a b) (tm_trans tm)), extra_units a b e)
  | Err e => Err e
  end.

(** [sort_values] orders the rows by comparing prices only: two tables whose prices compare in the same
    way are rearranged in the same way *)
Definition compares_prices (S : sorter) : Prop :=
  forall (R : row -> row -> Prop) (d d' : df), Forall2 R d d' ->
    (forall x y x' y', In x d -> In y d -> R x x' -> R y y' -> qleb (price x') (price y') = qleb (price x) (price y)) ->
    Forall2 R (s_asc S d) (s_asc S d') /\ Forall2 R (s_desc S d) (s_desc S d').

(** The bid [r'] has the terms of [r]; the time and the divisible flag may differ. *)
Definition same_terms (r r' : row) : Prop :=
  lbl r' = lbl r /\ qty r' = qty r /\ price r' = price r /\ buying r' = buying r /\ user r' = user r.
(** the user may differ too *)
Definition same_terms_anon (r r' : row) : Prop :=
  lbl r' = lbl r /\ qty r' = qty r /\ price r' = price r /\ buying r' = buying r.

(** some bid that must not be split is neither traded in full nor left alone by one transaction *)
Definition splits_indivisible (d : df) (ts : list trans) : Prop :=
  exists r t, In r d /\ divisible r = false /\ In t ts /\ t_bid t = lbl r /\ 0 < t_qty t /\ t_qty t < qty r /\
    forall t', In t' ts -> t_bid t' = lbl r -> t' = t.
