(** One half of the MUDA market, cleared at an exogenous price. *)
From Verif Require Import QcTac Num ModelBase ModelCurves ModelHuang ModelMuda ListFacts StoreFacts
  FillFacts Spec SpecTrade SpecMuda TradeFacts MudaSide.

Lemma sorted_impl_in {A} (R R' : A -> A -> Prop) l : StronglySorted R l ->
  (forall x y, In x l -> In y l -> R x y -> R' x y) -> StronglySorted R' l.
Proof.
  induction 1 as [|a l H IH Ha]; intro Hi; constructor.
  - apply IH. intros x y Hx Hy. apply Hi; right; assumption.
  - rewrite Forall_forall in *. intros y Hy. apply Hi; [left; reflexivity | right; exact Hy | apply Ha, Hy].
Qed.
Lemma NoDup_perm_map {A B} (f : A -> B) l l' : Permutation l l' -> NoDup (map f l) -> NoDup (map f l').
Proof. intro P. apply Permutation_NoDup, Permutation_map, P. Qed.

(** ** Best gains *)
Lemma fill_attain (p : Qc) (L : df) : (forall r, In r L -> 0 <= qty r) -> NoDup (map lbl L) -> forall Q, 0 <= Q ->
  exists y, (forall r, In r L -> 0 <= y (lbl r) /\ y (lbl r) <= qty r) /\ qsumf (fun r => y (lbl r)) L <= Q /\
    qsumf (fun r => gain p r * y (lbl r)) L = fillsum qty (gain p) Q L /\ forall i, ~ In i (map lbl L) -> y i = 0.
Proof.
  induction L as [|x L IH]; intros H0 Hn Q HQ.
  - exists (fun _ => 0). repeat split; try contradiction. exact HQ.
  - simpl in Hn. inversion_clear Hn as [|? ? Hn1 Hn2]. set (m := qmin (qty x) Q).
    assert (Hx : 0 <= qty x) by (apply H0; left; reflexivity).
    assert (M : 0 <= m /\ m <= qty x /\ m <= Q) by (unfold m; destruct (qmin_case (qty x) Q) as [[-> ?]|[-> ?]]; repeat split; qlra).
    destruct (IH (fun r Hr => H0 r (or_intror Hr)) Hn2 (Q - m) ltac:(qlra)) as (y & Y1 & Y2 & Y3 & Y4).
    set (y' := fun i => if Nat.eqb i (lbl x) then m else y i).
    assert (Ex : y' (lbl x) = m) by (unfold y'; rewrite Nat.eqb_refl; reflexivity).
    assert (Eo : forall r, In r L -> y' (lbl r) = y (lbl r)).
    { intros r Hr. unfold y'. destruct (Nat.eqb_spec (lbl r) (lbl x)) as [E|]; [|reflexivity]. exfalso. apply Hn1. rewrite <- E. apply in_map, Hr. }
    exists y'. split; [|split; [|split]].
    + intros r [<-|Hr]; [rewrite Ex; tauto | rewrite Eo by exact Hr; apply Y1, Hr].
    + rewrite qsumf_cons, Ex. rewrite (qsumf_ext _ (fun r => y (lbl r))) by exact Eo. qlra.
    + rewrite qsumf_cons, Ex. cbn [fillsum]. fold m. rewrite <- Y3. f_equal. apply qsumf_ext. intros r Hr. rewrite Eo by exact Hr. reflexivity.
    + intros i Hi. unfold y'. simpl in Hi. destruct (Nat.eqb_spec i (lbl x)) as [->|Hne]; [exfalso; apply Hi; left; reflexivity|]. apply Y4. tauto.
Qed.
Lemma best_fill (p Q : Qc) (e L : df) : (forall r, In r e -> 0 <= qty r) -> NoDup (map lbl e) -> 0 <= Q ->
  Permutation L (filter (fun r => qleb 0 (gain p r)) e) -> StronglySorted (fun a b => gain p b <= gain p a) L ->
  best_gain e p Q (fillsum qty (gain p) Q L).
Proof.
  intros H0 Hn HQ P Hs.
  assert (HL : forall r, In r L <-> In r e /\ 0 <= gain p r).
  { intro r. split.
    - intro H. apply (Permutation_in _ P), filter_In in H. destruct H as [H1 H2]. split; [exact H1|]. exact (proj1 (qleb_le _ _) H2).
    - intros [H1 H2]. apply (Permutation_in _ (Permutation_sym P)), filter_In. split; [exact H1 | apply qleb_le, H2]. }
  assert (Lq : forall r, In r L -> 0 <= qty r) by (intros r Hr; apply H0, HL, Hr).
  assert (Ln : NoDup (map lbl L)) by (apply (NoDup_perm_map lbl _ _ (Permutation_sym P)), NoDup_filter_map, Hn).
  split.
  - destruct (fill_attain p L Lq Ln Q HQ) as (y & Y1 & Y2 & Y3 & Y4).
    assert (Yz : forall r, In r e -> gain p r < 0 -> y (lbl r) = 0).
    { intros r Hr Hg. apply Y4. intro Hi. apply in_map_iff in Hi. destruct Hi as (r' & E & Hr'). apply HL in Hr'.
      assert (r' = r) by (apply (NoDup_map_in lbl e); tauto). subst r'. destruct Hr' as [_ Hr']. qlra. }
    exists y. split; [split|].
    + intros r Hr. destruct (Qclt_le_dec (gain p r) 0) as [Lt|Le].
      * rewrite Yz by assumption. specialize (H0 r Hr). split; qlra.
      * apply Y1, HL. auto.
    + rewrite (qsumf_filter_split _ (fun r => qleb 0 (gain p r))). rewrite (qsumf_zero _ (filter (fun r => negb _) e)).
      * rewrite <- (qsumf_perm _ _ _ P). rewrite Qcplus_0_r. exact Y2.
      * intros r Hr. apply filter_In in Hr. destruct Hr as [Hr1 Hr2]. apply Yz; [exact Hr1|]. apply negb_true_iff in Hr2. exact (proj1 (qleb_gt _ _) Hr2).
    + unfold fill_gain. rewrite (qsumf_filter_split _ (fun r => qleb 0 (gain p r))). rewrite (qsumf_zero _ (filter (fun r => negb _) e)).
      * rewrite <- (qsumf_perm _ _ _ P). rewrite Qcplus_0_r. exact Y3.
      * intros r Hr. apply filter_In in Hr. destruct Hr as [Hr1 Hr2]. rewrite Yz; [ring | exact Hr1|]. apply negb_true_iff in Hr2. exact (proj1 (qleb_gt _ _) Hr2).
  - intros y [Y1 Y2]. unfold fill_gain. rewrite (qsumf_filter_split _ (fun r => qleb 0 (gain p r))).
    assert (N : qsumf (fun r => gain p r * y (lbl r)) (filter (fun r => negb (qleb 0 (gain p r))) e) <= 0).
    { rewrite <- (Qcopp_involutive (qsumf _ _)). rewrite <- qsumf_opp. assert (0 <= qsumf (fun r => - (gain p r * y (lbl r))) (filter (fun r => negb (qleb 0 (gain p r))) e)); [|qlra].
      apply qsumf_nonneg. intros r Hr. apply filter_In in Hr. destruct Hr as [Hr1 Hr2]. apply negb_true_iff in Hr2. apply (proj1 (qleb_gt _ _)) in Hr2.
      replace (- (gain p r * y (lbl r))) with ((- gain p r) * y (lbl r)) by ring. apply qmult_nonneg; [qlra | apply Y1, Hr1]. }
    assert (Y3 : qsumf (fun r => y (lbl r)) L <= Q).
    { rewrite (qsumf_perm _ _ _ P). rewrite (qsumf_filter_split _ (fun r => qleb 0 (gain p r))) in Y2.
      assert (0 <= qsumf (fun r => y (lbl r)) (filter (fun r => negb (qleb 0 (gain p r))) e)); [|qlra].
      apply qsumf_nonneg. intros r Hr. apply filter_In in Hr. apply Y1, Hr. }
    assert (O : qsumf (fun r => gain p r * y (lbl r)) L <= fillsum qty (gain p) Q L).
    { apply (fill_opt qty (gain p) L Lq (fun r Hr => proj2 (proj1 (HL r) Hr)) Hs Q (fun r => y (lbl r))); [|exact Y3].
      intros r Hr. apply Y1, HL, Hr. }
    rewrite <- (qsumf_perm _ _ _ P). qlra.
Qed.
Lemma best_unique e p Q v v' : best_gain e p Q v -> best_gain e p Q v' -> v = v'.
Proof.
  intros [(y & Y1 & <-) H] [(y' & Y1' & <-) H']. apply Qcle_antisym; [apply H', Y1 | apply H, Y1'].
Qed.
Lemma best_sub e P p Q v v' : (forall r, In r e -> 0 <= qty r) -> labels_unique e ->
  best_gain e p Q v -> best_gain (filter P e) p Q v' -> v' <= v.
Proof.
  intros H0 Hu [_ H] [(y & [Y1 Y2] & <-) _].
  set (y' := fun i => if existsb (fun r => Nat.eqb (lbl r) i && P r) e then y i else 0).
  assert (E : forall r, In r e -> y' (lbl r) = if P r then y (lbl r) else 0).
  { intros r Hr. unfold y'. destruct (existsb _ e) eqn:Ex.
    - apply existsb_exists in Ex. destruct Ex as (r' & Hr' & Ex). apply andb_true_iff in Ex. destruct Ex as [Ex1 Ex2]. apply Nat.eqb_eq in Ex1.
      assert (r' = r) by (apply (NoDup_map_in lbl e); assumption). subst r'. rewrite Ex2. reflexivity.
    - destruct (P r) eqn:EP; [|reflexivity]. exfalso. assert (existsb (fun r0 => Nat.eqb (lbl r0) (lbl r) && P r0) e = true); [|congruence].
      apply existsb_exists. exists r. rewrite Nat.eqb_refl, EP. auto. }
  apply Qcle_trans with (fill_gain e p y').
  - unfold fill_gain. rewrite qsumf_filter. apply qsumf_le. intros r Hr. rewrite E by exact Hr. destruct (P r); [apply Qcle_refl|].
    replace (gain p r * 0) with 0 by ring. apply Qcle_refl.
  - apply H. split.
    + intros r Hr. rewrite E by exact Hr. destruct (P r) eqn:EP; [apply Y1, filter_In; auto|]. specialize (H0 r Hr). split; qlra.
    + rewrite qsumf_filter in Y2. rewrite (qsumf_ext _ (fun r => if P r then y (lbl r) else 0)) by exact E. exact Y2.
Qed.

(** ** From rows to transactions *)
Definition mk (p : Qc) (r : row) : trans := mkTrans (lbl r) (qty r) p (-1) false.
Lemma pick_sum (d : df) x (f : row -> Qc) : labels_unique d -> In x d -> qsumf (fun r => if Nat.eqb (lbl r) (lbl x) then f r else 0) d = f x.
Proof.
  unfold labels_unique. induction d as [|a d IH]; [contradiction|]. simpl. intros Hn. inversion_clear Hn as [|? ? Hn1 Hn2]. intros [->|Hx]; rewrite qsumf_cons.
  - rewrite Nat.eqb_refl, qsumf_zero; [ring|]. intros r Hr. destruct (Nat.eqb_spec (lbl r) (lbl x)) as [E|]; [|reflexivity].
    exfalso. apply Hn1. rewrite <- E. apply in_map, Hr.
  - rewrite IH by assumption. destruct (Nat.eqb_spec (lbl a) (lbl x)) as [E|]; [|ring]. exfalso. apply Hn1. rewrite E. apply in_map, Hx.
Qed.
Lemma traded_mk p i w : traded_by i (map (mk p) w) = qsumf (fun r => if Nat.eqb (lbl r) i then qty r else 0) w.
Proof. unfold traded_by. rewrite filter_map, qsumf_map. simpl. rewrite qsumf_filter. reflexivity. Qed.
Lemma bridge (d w : df) p (f : row -> Qc) : labels_unique d ->
  (forall y, In y w -> exists x, In x d /\ lbl x = lbl y /\ f x = f y) ->
  qsumf (fun x => f x * traded_by (lbl x) (map (mk p) w)) d = qsumf (fun y => f y * qty y) w.
Proof.
  intros Hu H. rewrite (qsumf_ext _ (fun x => qsumf (fun y => (if Nat.eqb (lbl x) (lbl y) then f x else 0) * qty y) w)).
  - rewrite qsumf_swap. apply qsumf_ext. intros y Hy. rewrite qsumf_scale_r. destruct (H y Hy) as (x & Hx & E1 & E2).
    rewrite <- E1, <- E2. rewrite pick_sum by assumption. reflexivity.
  - intros x _. rewrite traded_mk, <- qsumf_scale. apply qsumf_ext. intros y _. rewrite Nat.eqb_sym. destruct (Nat.eqb (lbl x) (lbl y)); ring.
Qed.

(** ** Charging *)
Lemma set_fee_ok fees u f : (0 <= u)%Z -> (u < Z.of_nat (length fees))%Z -> set_fee fees u f = Ok (set_nth (Z.to_nat u) f fees).
Proof. intros H1 H2. unfold set_fee. rewrite (proj2 (Z.leb_le _ _) H1), (proj2 (Z.ltb_lt _ _) H2). reflexivity. Qed.
Lemma set_fee_inv fees u f fees' : (0 <= u)%Z -> set_fee fees u f = Ok fees' ->
  (u < Z.of_nat (length fees))%Z /\ fees' = set_nth (Z.to_nat u) f fees.
Proof.
  intros H1. unfold set_fee. rewrite (proj2 (Z.leb_le _ _) H1). destruct (Z.ltb_spec u (Z.of_nat (length fees))) as [L|L]; simpl.
  - intro E. injection E as <-. auto.
  - destruct (Z.ltb_spec u 0); [lia|]. rewrite andb_false_r. discriminate.
Qed.
Lemma set_fee_err fees u f e : set_fee fees u f = Err e -> e = IndexError.
Proof. unfold set_fee. destruct (_ && _); [discriminate|]. destruct (_ && _); [discriminate|]. congruence. Qed.
Lemma set_nth_length {A} i (v : A) l : length (set_nth i v l) = length l.
Proof. revert i; induction l as [|x l IH]; intros [|i]; simpl; auto. Qed.
Lemma set_nth_same {A} i (v : A) l d : (i < length l)%nat -> nth i (set_nth i v l) d = v.
Proof. revert i; induction l as [|x l IH]; intros [|i] H; simpl in *; try lia; [reflexivity|]. apply IH. lia. Qed.
Lemma set_nth_other {A} i j (v : A) l d : i <> j -> nth j (set_nth i v l) d = nth j l d.
Proof. revert i j; induction l as [|x l IH]; intros [|i] [|j] H; simpl; try reflexivity; try congruence. apply IH. congruence. Qed.

Lemma charge_spec ls li Q p us : (forall u, In u us -> (0 <= u)%Z) -> forall fees fees', charge_users ls li Q p us fees = Ok fees' ->
  length fees' = length fees /\
  (forall u, In u us -> (u < Z.of_nat (length fees))%Z /\ fee_of fees' u = compute_fee (indexed ls) li u Q p) /\
  (forall u, (0 <= u)%Z -> ~ In u us -> fee_of fees' u = fee_of fees u).
Proof.
  induction us as [|v us IH]; intros Hu fees fees' E; simpl in E.
  - injection E as <-. repeat split; auto; contradiction.
  - destruct (set_fee fees v _) as [f1|] eqn:E1; [|discriminate]. simpl in E.
    assert (Hv : (0 <= v)%Z) by (apply Hu; left; reflexivity).
    apply set_fee_inv in E1; [|exact Hv]. destruct E1 as [Lv ->].
    destruct (IH (fun u H => Hu u (or_intror H)) _ _ E) as (I1 & I2 & I3). rewrite set_nth_length in *.
    split; [exact I1|]. split.
    + intros u Hin. destruct (in_dec Z.eq_dec u us) as [Hi|Hi]; [apply I2, Hi|].
      destruct Hin as [<-|Hin]; [|contradiction]. split; [exact Lv|]. rewrite I3 by assumption. unfold fee_of. apply set_nth_same. lia.
    + intros u Hu0 Hn. rewrite I3; [|exact Hu0 | intro; apply Hn; right; assumption]. unfold fee_of. apply set_nth_other.
      intro Eq. apply Hn. left. lia.
Qed.
Lemma charge_ok ls li Q p us : forall fees, (forall u, In u us -> (0 <= u)%Z /\ (u < Z.of_nat (length fees))%Z) ->
  exists fees', charge_users ls li Q p us fees = Ok fees'.
Proof.
  induction us as [|v us IH]; intros fees H; simpl; [eauto|].
  rewrite set_fee_ok by (apply H; left; reflexivity). simpl. apply IH. intros u Hu. rewrite set_nth_length. apply H. right; exact Hu.
Qed.
Lemma charge_err ls li Q p us e : forall fees, charge_users ls li Q p us fees = Err e -> e = IndexError.
Proof.
  induction us as [|v us IH]; intros fees H; simpl in H; [discriminate|].
  destruct (set_fee fees v _) as [f1|e1] eqn:E1; simpl in H; [eapply IH, H|]. injection H as <-. apply set_fee_err in E1. exact E1.
Qed.
Lemma uniqueZ_In x l : In x (uniqueZ l) <-> In x l.
Proof.
  induction l as [|a l IH]; simpl; [tauto|]. rewrite filter_In, IH. destruct (Z.eq_dec a x) as [->|Hn]; [tauto|].
  split; [tauto|]. intros [E|H]; [contradiction|]. right. split; [exact H|]. apply negb_true_iff, Z.eqb_neq. congruence.
Qed.
Lemma uniqueZ_NoDup l : NoDup (uniqueZ l).
Proof.
  induction l as [|a l IH]; simpl; constructor.
  - intro H. apply filter_In in H. rewrite Z.eqb_refl in H. destruct H; discriminate.
  - apply NoDup_filter, IH.
Qed.
