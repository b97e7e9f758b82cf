(** Prices far enough from zero for binary64: zero, or at least twice the smallest normal number. *)
From Verif Require Import QcTac ModelBounded.

Definition price_normal (x : Qc) : Prop := x = 0 \/ normal + normal <= x.
