(** Floating point values as they occur in curves and clearing prices:
    exact rationals extended with the IEEE special values that the code can
    produce ([np.inf] in pymarket/bids/demand_curves.py:74,148 and whatever arithmetic
    makes of it).  Simplification: no rounding, no signed zero. *)
From Verif Require Import QcTac.

Inductive num := Fin (q : Qc) | PInf | NInf | NaN.

(** IEEE comparisons: any comparison with NaN is false. *)
Definition nleb (a b : num) : bool :=
  match a, b with
  | NaN, _ | _, NaN => false
  | NInf, _ | _, PInf => true
  | PInf, _ | _, NInf => false
  | Fin x, Fin y => qleb x y
  end.
Definition nltb (a b : num) : bool :=
  match a, b with
  | NaN, _ | _, NaN => false
  | NInf, NInf | PInf, PInf => false
  | NInf, _ | _, PInf => true
  | PInf, _ | _, NInf => false
  | Fin x, Fin y => qltb x y
  end.
Definition neqb (a b : num) : bool :=
  match a, b with
  | Fin x, Fin y => qeqb x y
  | PInf, PInf | NInf, NInf => true
  | _, _ => false
  end.

(** [np.max] / [np.min] of two values propagate NaN. *)
Definition nmax (a b : num) : num :=
  match a, b with
  | NaN, _ | _, NaN => NaN
  | _, _ => if nleb a b then b else a
  end.
Definition nmin (a b : num) : num :=
  match a, b with
  | NaN, _ | _, NaN => NaN
  | _, _ => if nleb a b then a else b
  end.

Definition nadd (a b : num) : num :=
  match a, b with
  | NaN, _ | _, NaN => NaN
  | PInf, NInf | NInf, PInf => NaN
  | PInf, _ | _, PInf => PInf
  | NInf, _ | _, NInf => NInf
  | Fin x, Fin y => Fin (x + y)
  end.

(** sign of an infinite product *)
Definition ninf_times (pos : bool) (x : Qc) : num :=
  if qeqb x 0 then NaN
  else if qltb 0 x then (if pos then PInf else NInf)
  else (if pos then NInf else PInf).

Definition nmul (a b : num) : num :=
  match a, b with
  | NaN, _ | _, NaN => NaN
  | PInf, PInf | NInf, NInf => PInf
  | PInf, NInf | NInf, PInf => NInf
  | PInf, Fin x | Fin x, PInf => ninf_times true x
  | NInf, Fin x | Fin x, NInf => ninf_times false x
  | Fin x, Fin y => Fin (x * y)
  end.
