(** Property C71: what the helper functions raise outside their preconditions, and exactly when. *)
From Verif Require Import QcTac Num NumFacts ModelBase ModelCurves ModelHuang ModelMuda ModelMerge ModelStats ModelDatasets Spec SpecErrors Sorter Conform ErrorFacts.

(** [update_quantity] returns exactly when there are quantities and the gap is at most their sum (of any sign);
    otherwise it raises ValueError. *)
Theorem C71_update_quantity :
  forall (Q : list Qc) (gap : Qc),
    (Q <> [] /\ gap <= qsum Q -> exists Q', update_quantity Q gap = Ok Q' /\ length Q' = length Q) /\
    (Q = [] \/ qsum Q < gap -> update_quantity Q gap = Err ValueError).
Proof. exact update_quantity_full. Qed.
Print Assumptions C71_update_quantity.

(** [intersect_stepwise] on any two arrays without NaN in the first column, sorted or not: ValueError if one is
    empty, otherwise TypeError if an abscissa is negative, otherwise it returns. *)
Theorem C71_intersect :
  forall (f g : curve) (k : Qc), (forall x, In x (abscissae f g) -> ok x) ->
    (f = [] \/ g = [] -> intersect_stepwise f g k = Err ValueError) /\
    (f <> [] -> g <> [] -> (exists x, In x (abscissae f g) /\ nlt x (Fin 0)) -> intersect_stepwise f g k = Err TypeError) /\
    (f <> [] -> g <> [] -> (forall x, In x (abscissae f g) -> nle (Fin 0) x) -> exists r, intersect_stepwise f g k = Ok r).
Proof. exact intersect_full. Qed.
Print Assumptions C71_intersect.

(** Writing the fees of a half of MUDA: it raises IndexError exactly when the number of a user is not an index of the
    fee array, in the sense of python, where -1 is the last entry.  The entry of a user then holds its fee, unless a
    user that comes later has the same entry. *)
Theorem C71_fees :
  forall (long_side : df) (l_index : nat) (total p : Qc) (us : list Z) (fees : list Qc),
    ((forall u, In u us -> in_range (length fees) u) ->
       exists fees', charge_users long_side l_index total p us fees = Ok fees' /\ length fees' = length fees /\
         forall i, (i < length fees)%nat ->
           ((forall u, In u us -> entry (length fees) u <> i) -> nth i fees' 0 = nth i fees 0) /\
           (forall l1 u l2, us = l1 ++ u :: l2 -> entry (length fees) u = i -> (forall w, In w l2 -> entry (length fees) w <> i) ->
              nth i fees' 0 = compute_fee (indexed long_side) l_index u total p)) /\
    (forall u, In u us -> ~ in_range (length fees) u -> charge_users long_side l_index total p us fees = Err IndexError).
Proof. exact charge_full. Qed.
Print Assumptions C71_fees.

(** Splitting raises what the first transaction that cannot be split raises. *)
Theorem C71_split :
  forall (d : df) (mp : list (list nat)) (tm : transmgr) (fees : option (list (Z * Qc))) (e : exn),
    split_transactions_merged_players tm d mp fees = Err e <->
    exists l1 t l2, tm_trans tm = l1 ++ t :: l2 /\ (forall t', In t' l1 -> forall e', ~ split_fails d mp fees t' e') /\ split_fails d mp fees t e.
Proof. exact split_raises. Qed.
Print Assumptions C71_split.

(** The two linear programs read the bids by position although they iterate over labels: they raise IndexError exactly
    when a label is not a position. *)
Theorem C71_programs :
  (forall (sv : solver) (d : df),
    ((forall r, In r d -> (lbl r < length d)%nat) -> exists r, maximum_traded_volume sv d = Ok r) /\
    ((exists r, In r d /\ (length d <= lbl r)%nat) -> maximum_traded_volume sv d = Err IndexError)) /\
  (forall (sv : solver) (d : df) (rp : option dict),
    ((forall r, In r d -> (lbl r < length d)%nat) -> exists r, maximum_aggregated_utility sv d rp = Ok r) /\
    ((exists r, In r d /\ (length d <= lbl r)%nat) -> maximum_aggregated_utility sv d rp = Err IndexError)).
Proof. exact (conj volume_full welfare_full). Qed.
Print Assumptions C71_programs.

(** [generate] divides by zero exactly when the step is zero, or negative with no bids asked for; with a negative step it
    does what it does with the step it computes itself. *)
Theorem C71_generate :
  forall (nb ns : nat) (os ob : Qc) (r : chooser) (eps : Qc), let mx := Nat.max nb ns in
    ((eps = 0 \/ mx = 0%nat /\ eps < 0) -> generate nb ns os ob r eps = Err ZeroDivisionError) /\
    (eps <> 0 -> (mx <> 0%nat \/ 0 < eps) ->
       exists bs, generate nb ns os ob r eps = Ok bs /\ (eps < 0 -> generate nb ns os ob r eps = generate nb ns os ob r (1 / (qz 2 * qnat mx)))).
Proof. exact generate_full. Qed.
Print Assumptions C71_generate.

(** Taking 7 from 1, 2 and 3 raises, taking 6 leaves nothing, and a table whose only row is labelled 1 has no
    maximum volume. *)
Example C71_example :
  update_quantity [qz 1; qz 2; qz 3] (qz 7) = Err ValueError /\
  option_map (map this) (match update_quantity [qz 1; qz 2; qz 3] (qz 6) with Ok l => Some l | Err _ => None end) = Some [0; 0; 0]%Q /\
  intersect_stepwise [(Fin (- (1)), Fin 1); (PInf, Fin 0)] [(PInf, PInf)] (qf 1 2) = Err TypeError /\
  maximum_traded_volume (fun _ => None) [mkRow 1 1 1 0 true 0 true] = Err IndexError.
Proof. repeat split; vm_compute; reflexivity. Qed.
(** two users, -1 and 1, share the last entry *)
Example C71_fees_example :
  option_map (map this) (match charge_users [mkRow 0 1 1 (-1) false 0 true; mkRow 1 1 (qz 2) 1 false 0 true; mkRow 2 1 (qz 3) 2 false 0 true] 1 (qz 2) (qf 5 2) [(-1)%Z; 1%Z] [0; 0] with Ok l => Some l | Err _ => None end) =
  Some [0; (1 # 2)]%Q.
Proof. vm_compute. reflexivity. Qed.
