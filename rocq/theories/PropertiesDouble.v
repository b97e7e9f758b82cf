(** Property C91: the roundings of the model are rounding to nearest, ties to even. *)
From Coq Require Import Floats.SpecFloat.
From Verif Require Import QcTac ModelRound ModelFloat SpecDouble DoubleFacts ModelBounded.

(** C91. [binary64] rounds to the nearest of the finite numbers of IEEE 754 binary64, of two to the even one. *)
Theorem C91_binary64 : rounds bounded binary64.
Proof. exact binary64_rounds. Qed.
Print Assumptions C91_binary64.
(** [f64] does so for unbounded exponents. *)
Theorem C91_f64 : rounds free f64.
Proof. exact f64_rounds. Qed.
Print Assumptions C91_f64.
(** This determines the rounding, whatever the exponents. *)
Theorem C91_unique : forall (E : Z -> Prop) (R R' : Qc -> Qc), rounds E R -> rounds E R' -> forall x, R x = R' x.
Proof. exact rounds_unique. Qed.
Print Assumptions C91_unique.
(** The values that a rounding does not change are the numbers of the format. *)
Theorem C91_machine : forall (E : Z -> Prop) (R : Qc -> Qc), rounds E R -> forall x, R x = x <-> number E x.
Proof. exact rounds_machine. Qed.
Print Assumptions C91_machine.

(** The double of one tenth; of two doubles at the same distance the even one. *)
Example C91_tenth : binary64 (qf 1 10) = qz 3602879701896397 * pow2 (-55) /\ binary64 (qz (2 ^ 53 + 1)) = qz (2 ^ 53) /\ binary64 (qz (2 ^ 53 + 3)) = qz (2 ^ 53 + 4).
Proof. repeat split; apply Qc_is_canon; vm_compute; reflexivity. Qed.

(** The arithmetic of the library [Floats.SpecFloat], an independent account of binary64, on some numbers: sums, differences, products and quotients. *)
Definition value (x : spec_float) : option Qc :=
  match x with
  | S754_zero _ => Some 0
  | S754_finite s m e => Some (qz (if s then Z.neg m else Z.pos m) * pow2 e)
  | _ => None
  end.
Definition of_int (z k : Z) : spec_float := binary_normalize 53 1024 z k false.
Definition alike (o : option Qc) (x : Qc) : bool := match o with Some y => qeqb y x | None => false end.
Definition same_as (x y : spec_float) : bool :=
  match value x, value y with
  | Some a, Some b =>
      alike (value (SFadd 53 1024 x y)) (binary64 (a + b)) && alike (value (SFsub 53 1024 x y)) (binary64 (a - b)) &&
      alike (value (SFmul 53 1024 x y)) (binary64 (a * b)) && (qeqb b 0 || alike (value (SFdiv 53 1024 x y)) (binary64 (a / b)))
  | _, _ => false
  end.
Definition some_numbers : list spec_float :=
  [of_int 0 0; of_int 1 0; of_int (-3) 0; of_int 3602879701896397 (-55); of_int (2 ^ 53 - 1) 0; of_int (- (2 ^ 53 - 1)) (-53); of_int 1 (-537); of_int (2 ^ 53 - 1) (-590); of_int (2 ^ 52 + 1) 400; of_int 7 (-60)].
Example C91_library : forallb (fun x => forallb (same_as x) some_numbers) some_numbers = true.
Proof. vm_compute. reflexivity. Qed.
