(** Who is charged a fee by MUDA, and which positions a list of fees has. *)
From Verif Require Import QcTac Num ModelBase Spec SpecTrade SpecMuda.

(** [u] trades on the long side of the half [h] at the price [p] *)
Definition charged (h : df) (p : num) (tl : list trans) (u : Z) : Prop :=
  match p with Fin q => trades_on (long_side h q) h tl u | _ => False end.
(** [u] is a valid index of a list of length [n]; negative ones count from the end *)
Definition valid_index (n : nat) (u : Z) : Prop := (- Z.of_nat n <= u < Z.of_nat n)%Z.
