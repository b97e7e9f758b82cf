(** A table of doubles that are not too large. *)
From Verif Require Import QcTac ModelBase ModelRound ModelBounded SpecDouble.

(** quantities of at most [2^a], prices of at most [2^b], not more than [2^40] rows *)
Definition double_table (a b : Z) (d : df) : Prop :=
  (forall r, In r d -> machine binary64 (qty r) /\ qabs (qty r) <= pow2 a /\ machine binary64 (price r) /\ qabs (price r) <= pow2 b) /\
  (Z.of_nat (length d) <= 2 ^ 40)%Z.
(** the powers leave room for products of sums *)
Definition room (a b : Z) : Prop := (0 <= a /\ 0 <= b /\ a + b <= 800)%Z.
(** transactions of such sizes *)
Definition double_trades (a b : Z) (ts : list trans) : Prop :=
  (forall t, In t ts -> machine binary64 (t_qty t) /\ qabs (t_qty t) <= pow2 a /\ machine binary64 (t_price t) /\ qabs (t_price t) <= pow2 b) /\
  (Z.of_nat (length ts) <= 2 ^ 40)%Z.
(** numbers of at most [2^e] *)
Definition double_list (e : Z) (l : list Qc) : Prop :=
  (forall x, In x l -> machine binary64 x /\ qabs x <= pow2 e) /\ (Z.of_nat (length l) <= 2 ^ 40)%Z.
(** room for a whole run: merging, clearing, splitting and the statistics *)
Definition wide_room (a b : Z) : Prop := (0 <= a /\ 0 <= b /\ a + b <= 500)%Z.
