(** When splitting the transactions of merged bids returns. *)
From Verif Require Import QcTac Num ModelBase ModelMerge Spec ListFacts.

Lemma iloc_ok d rows : (exists rs, iloc d rows = Ok rs) <-> forall i, In i rows -> (i < length d)%nat.
Proof.
  induction rows as [|i rows IH]; [split; [intros _ i []|intros _; exists []; reflexivity]|]. cbn [iloc]. split.
  - intros (rs & E) j [<-|Hj]; destruct (nth_error d i) as [x|] eqn:N; try discriminate.
    + apply nth_error_Some. congruence.
    + apply IH; [|exact Hj]. destruct (iloc d rows) as [xs|] eqn:F; [exists xs; reflexivity|discriminate].
  - intro H. destruct (nth_error d i) as [x|] eqn:N; [|exfalso; apply nth_error_None in N; specialize (H i (or_introl eq_refl)); lia].
    destruct (proj2 IH) as (rs & ->); [intros j Hj; apply H; right; exact Hj|]. exists (x :: rs). reflexivity.
Qed.
Lemma iloc_nth d rows rs : iloc d rows = Ok rs -> map (fun i => nth_error d i) rows = map Some rs.
Proof.
  revert rs. induction rows as [|i rows IH]; intros rs E; cbn [iloc] in E; [injection E as <-; reflexivity|]. destruct (nth_error d i) as [x|] eqn:N; [|discriminate].
  destruct (iloc d rows) as [xs|]; [|discriminate]. injection E as <-. cbn [map]. rewrite N, (IH xs) by reflexivity. reflexivity.
Qed.
Lemma split_list_ok d mp fee ts : forall acc, (exists tm, split_list d mp fee ts acc = Ok tm) <-> forall t, In t ts -> exists l, split_one d mp fee t = Ok l.
Proof.
  induction ts as [|t ts IH]; intro acc; [split; [intros _ t []|intros _; exists acc; reflexivity]|]. cbn [split_list]. split.
  - intros (tm & E) s [<-|Hs]; destruct (split_one d mp fee t) as [l|] eqn:F; try discriminate; [exists l; reflexivity|]. cbn [bind] in E.
    apply (IH (add_all acc l)); [exists tm; exact E | exact Hs].
  - intro H. destruct (H t (or_introl eq_refl)) as (l & ->). cbn [bind]. apply IH. intros s Hs. apply H. right. exact Hs.
Qed.
(** total quantity of the bids at given positions *)
Definition group_total (d : df) (rows : list nat) : Qc := qsumf (fun i => match nth_error d i with Some r => qty r | None => 0 end) rows.
Lemma iloc_total d rows rs : iloc d rows = Ok rs -> qsum (map qty rs) = group_total d rows.
Proof.
  revert rs. induction rows as [|i rows IH]; intros rs E; cbn [iloc] in E; [injection E as <-; reflexivity|]. destruct (nth_error d i) as [x|] eqn:N; [|discriminate].
  destruct (iloc d rows) as [xs|]; [|discriminate]. injection E as <-. unfold group_total. rewrite qsumf_cons, N. cbn [map qsum]. rewrite (IH xs) by reflexivity. reflexivity.
Qed.
Theorem split_returns d mp tm fees : (exists r, split_transactions_merged_players tm d mp fees = Ok r) <->
  forall t, In t (tm_trans tm) -> exists rows, nth_error mp (t_bid t) = Some rows /\ (forall i, In i rows -> (i < length d)%nat) /\
    (rows = [] \/ group_total d rows <> 0) /\ (fees <> None -> (length rows <= 1)%nat).
Proof.
  unfold split_transactions_merged_players. set (fee := match fees with Some _ => true | None => false end).
  assert (F : fee = true <-> fees <> None) by (unfold fee; destruct fees; split; congruence).
  transitivity (exists r, split_list d mp fee (tm_trans tm) tm_init = Ok r).
  { split; [intros (r & E); destruct (split_list d mp fee (tm_trans tm) tm_init) as [x|]; [exists x; reflexivity|discriminate] | intros (r & ->); eexists; reflexivity]. }
  rewrite split_list_ok. split; intros H t Ht; specialize (H t Ht); unfold split_one in *; destruct (nth_error mp (t_bid t)) as [rows|].
  - destruct H as (l & E). exists rows. split; [reflexivity|]. destruct (iloc d rows) as [rs|] eqn:I; [|discriminate]. cbn [bind] in E.
    split; [apply iloc_ok; exists rs; exact I|]. rewrite (iloc_total _ _ _ I) in E. destruct (Nat.ltb 1 (length rows)) eqn:L; cbn [andb] in E.
    + destruct fee; [discriminate|]. apply Nat.ltb_lt in L. split.
      * right. intro Z. rewrite Z in E. destruct rows; [cbn in L; lia|discriminate E].
      * intro N. apply F in N. discriminate.
    + apply Nat.ltb_ge in L. split; [|intros _; exact L]. destruct (qeqb (group_total d rows) 0) eqn:Z; [|right; apply qeqb_neq, Z]. destruct rows; [left; reflexivity|discriminate].
  - destruct H as (l & E). discriminate.
  - destruct H as (rows' & E & Hi & T & L). injection E as <-. destruct (proj2 (iloc_ok d rows) Hi) as (rs & I). rewrite I. cbn [bind]. rewrite (iloc_total _ _ _ I).
    replace (Nat.ltb 1 (length rows) && fee) with false.
    + destruct (qeqb (group_total d rows) 0) eqn:Z; [|eexists; reflexivity]. apply qeqb_eq in Z. destruct T as [->|T]; [eexists; reflexivity | contradiction].
    + symmetry. destruct fee; [|apply andb_false_r]. rewrite andb_true_r. apply Nat.ltb_ge, L, F. reflexivity.
  - destruct H as (rows' & E & _). discriminate.
Qed.
Theorem split_fees_kept d mp tm fees tm' fees' : split_transactions_merged_players tm d mp fees = Ok (tm', fees') -> fees' = fees.
Proof. unfold split_transactions_merged_players. destruct (split_list _ _ _ _ _); [|discriminate]. cbn [bind]. congruence. Qed.
