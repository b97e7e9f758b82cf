(** What IEEE 754 binary64 says about the result of an operation, in terms of the exact result.  The floats are those of
    the library [Floats.SpecFloat]. *)
From Coq Require Import Floats.SpecFloat.
From Verif Require Import QcTac ModelRound ModelBounded SpecDouble.

(** the value of a finite float *)
Definition fval (x : spec_float) : Qc :=
  match x with
  | S754_finite s m e => qz (if s then Z.neg m else Z.pos m) * pow2 e
  | _ => 0
  end.
(** neither infinite nor NaN, and written in the one way the format allows: at most 53 significant bits, the least
    exponent possible *)
Definition proper (x : spec_float) : Prop :=
  valid_binary 53 1024 x = true /\ match x with S754_zero _ => True | S754_finite _ _ _ => True | _ => False end.
(** IEEE 754-2008, 7.4: the result is infinite if the exact one is at least [2^1024 - 2^970] *)
Definition overflow : Qc := pow2 1024 - pow2 970.
(** [z] is the float for the exact result [v] *)
Definition float_of (v : Qc) (z : spec_float) : Prop :=
  (qabs v < overflow -> proper z /\ fval z = binary64 v) /\
  (overflow <= qabs v -> z = S754_infinity (qltb v 0)).
