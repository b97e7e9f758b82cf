(** Specifications for what the helper functions raise. *)
From Verif Require Import QcTac Num ModelBase ModelCurves ModelMerge.

(** the abscissae of two curves *)
Definition abscissae (f g : curve) : list num := map fst f ++ map fst g.

(** splitting the transaction [t] raises [e]: its bid is not in the mapping; a mapped row is not in the
    table; there are fees and the group has two or more bids; the group has no quantity *)
Inductive split_fails (d : df) (mp : list (list nat)) (fees : option (list (Z * Qc))) (t : trans) : exn -> Prop :=
| sf_key : nth_error mp (t_bid t) = None -> split_fails d mp fees t KeyError
| sf_index rows i : nth_error mp (t_bid t) = Some rows -> In i rows -> (length d <= i)%nat -> split_fails d mp fees t IndexError
| sf_fees rows : nth_error mp (t_bid t) = Some rows -> (forall i, In i rows -> (i < length d)%nat) -> (1 < length rows)%nat -> fees <> None ->
    split_fails d mp fees t AttributeError
| sf_nan rows rs : nth_error mp (t_bid t) = Some rows -> map (nth_error d) rows = map Some rs -> rows <> [] ->
    ((length rows <= 1)%nat \/ fees = None) -> qsumf qty rs = 0 -> split_fails d mp fees t NaNProduced.

(** the entry of an array of length [n] that python writes to at the index [u] *)
Definition entry (n : nat) (u : Z) : nat := Z.to_nat (if (u <? 0)%Z then Z.of_nat n + u else u).
Definition in_range (n : nat) (u : Z) : Prop := (- Z.of_nat n <= u < Z.of_nat n)%Z.
