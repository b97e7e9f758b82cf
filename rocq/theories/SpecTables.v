(** Specifications for tables whose quantities can have any sign and whose users can be any integers. *)
From Verif Require Import QcTac Num ModelBase Spec SpecMuda SpecErrors.

(** the quantities of some first rows of the list add up to less than 0 *)
Definition overdrawn_list (l : df) : Prop := exists l1 l2, l = l1 ++ l2 /\ qsumf qty l1 < 0.
(** this happens to the buyers, from the highest price on, or to the sellers, from the lowest price on *)
Definition overdrawn (S : sorter) (d : df) : Prop :=
  overdrawn_list (s_desc S (filter buying d)) \/ overdrawn_list (s_asc S (filter (fun r => negb (buying r)) d)).

(** the rows whose flip came up and those whose flip did not *)
Definition flipped (b : bool) (fl : list bool) (d : df) : df := map snd (filter (fun x => Bool.eqb (fst x) b) (combine fl d)).

(** the rows of side [b] that are willing to trade at [q], in the order in which they trade *)
Definition queue (S : sorter) (b : bool) (q : Qc) (h : df) : df :=
  if b then s_desc S (filter (fun r => buying r && qleb q (price r)) h)
  else s_asc S (filter (fun r => negb (buying r) && qleb (price r) q) h).
(** [r] trades if [Q] is to be traded: all rows do if they have at most [Q] together, otherwise those that come before
    the quantities have reached [Q] *)
Definition reached (l : df) (Q : Qc) (r : row) : Prop :=
  exists l1 l2, l = l1 ++ r :: l2 /\ (qsumf qty l <= Q \/ forall a b, l1 = a ++ b -> a <> [] -> qsumf qty a < Q).
(** [u] has to pay a fee in the half [h] at the price [p]: something is traded and [u] trades on the long side *)
Definition pays (S : sorter) (h : df) (p : num) (u : Z) : Prop :=
  match p with
  | Fin q => 0 < volume h p /\ exists r, user r = u /\ reached (queue S (long_side h q) q h) (volume h p) r
  | _ => False
  end.
