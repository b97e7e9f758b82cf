(** Rounding to nearest, ties to even, as in IEEE 754: independent of the way the roundings of the model compute. *)
From Verif Require Import QcTac.

(** [2^e] *)
Definition pow2 (e : Z) : Qc := if (0 <=? e)%Z then qz (2 ^ e) else 1 / qz (2 ^ (- e)).
(** a number with 53 significant bits and an exponent of the allowed ones *)
Definition number (E : Z -> Prop) (x : Qc) : Prop := exists m e, E e /\ (Z.abs m < 2 ^ 53)%Z /\ x = qz m * pow2 e.
(** one whose last significant bit is 0 *)
Definition even_number (E : Z -> Prop) (x : Qc) : Prop := exists m e, E e /\ (Z.abs m < 2 ^ 53)%Z /\ Z.even m = true /\ x = qz m * pow2 e.
(** the finite numbers of binary64 (IEEE 754-2008, 3.3: emax = 1023, p = 53), and those with unbounded exponents *)
Definition bounded (e : Z) : Prop := (-1074 <= e <= 971)%Z.
Definition free (e : Z) : Prop := True.
(** the result is a number, none is nearer, and of two that are nearest it is the even one *)
Definition rounds (E : Z -> Prop) (R : Qc -> Qc) : Prop :=
  (forall x, number E (R x)) /\ (forall x y, number E y -> qabs (R x - x) <= qabs (y - x)) /\
  (forall x y, number E y -> y <> R x -> qabs (y - x) = qabs (R x - x) -> even_number E (R x)).
