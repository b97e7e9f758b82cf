(** What is said about the bounds of the traded volume with infinite and NaN prices. *)
From Verif Require Import QcTac Num ModelBase ModelStats ModelAny ModelWild ModelWildVolume.

(** the ratio that [percentage_traded] returns is between 0 and 1, if it is a number *)
Definition within (d : wdf) (sv : solver) (T : list (atrans Qc num)) : Prop := forall x, w_percentage sv d T = Ok (Some x) -> 0 <= x /\ x <= 1.
