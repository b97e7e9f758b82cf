(** The mirror image of a market: buyers become sellers and the price [p] becomes [M - p].  Only bid rows, transactions and
    sorting orders occur here. *)
From Verif Require Import QcTac Num ModelBase ModelHuang Spec SpecTrade SpecMuda.

Definition flip (M : Qc) (r : row) : row :=
  mkRow (lbl r) (qty r) (M - price r) (user r) (negb (buying r)) (time r) (divisible r).
Definition flip_trans (M : Qc) (t : trans) : trans := mkTrans (t_bid t) (t_qty t) (M - t_price t) (t_source t) (t_active t).
Definition flip_num (M : Qc) (v : num) : num := match v with Fin p => Fin (M - p) | _ => v end.
(** all prices are between 0 and [M] *)
Definition inside (M : Qc) (d : df) : Prop := forall r, In r d -> 0 < price r /\ price r < M.
(** [S'] orders equal prices of the mirror image as [S] orders those of the market *)
Definition mirrored (M : Qc) (S S' : sorter) : Prop :=
  forall l, s_desc S' (map (flip M) l) = map (flip M) (s_asc S l) /\ s_asc S' (map (flip M) l) = map (flip M) (s_desc S l).
(** the rows [h] offer exactly what they demand at [p], and not nothing *)
Definition tied (h : df) (p : num) : Prop :=
  match p with Fin q => demand_at h q = supply_at h q /\ 0 < demand_at h q | _ => False end.
(** the two bids of a transaction between two bids agree on a price *)
Definition agreed (d : df) (t : trans) : bool :=
  existsb (fun x => existsb (fun y => Nat.eqb (lbl x) (t_bid t) && (Z.of_nat (lbl y) =? t_source t)%Z &&
    (if buying x then qleb (price y) (price x) else qleb (price x) (price y))) d) d.
(** mirror image of a transaction of the peer to peer mechanism, where meetings without a deal have price 0 *)
Definition flip_meeting (M : Qc) (d : df) (t : trans) : trans := if agreed d t then flip_trans M t else t.
