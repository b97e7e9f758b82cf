(** Specifications for what the helper functions raise in rounded arithmetic. *)
From Verif Require Import QcTac Num ModelBase ModelHuang ModelRound.

Section SpecRoundErrors.
  Variable R : rounding.
  Variable A : adder R.

  (** subtracting equal shares of [gap] from the quantities [l], smallest first, uses up all of them: the smallest is
      below its rounded share, and so on for the rest and what remains of the gap *)
  Inductive used_up : Qc -> list Qc -> Prop :=
  | uu_nil gap : used_up gap []
  | uu_cons gap v l : v < R (gap / qnat (length (v :: l))) -> used_up (R (gap - v)) l -> used_up gap (v :: l).

  (** splitting the transaction [t] raises [e]: as [split_fails] of SpecErrors.v without fees, with a sum that may
      be rounded to 0 *)
  Inductive split_fails_r (d : df) (mp : list (list nat)) (t : trans) : exn -> Prop :=
  | sfr_key : nth_error mp (t_bid t) = None -> split_fails_r d mp t KeyError
  | sfr_index rows i : nth_error mp (t_bid t) = Some rows -> In i rows -> (length d <= i)%nat -> split_fails_r d mp t IndexError
  | sfr_nan rows rs : nth_error mp (t_bid t) = Some rows -> map (nth_error d) rows = map Some rs -> rows <> [] ->
      A (map qty rs) = 0 -> split_fails_r d mp t NaNProduced.
End SpecRoundErrors.
