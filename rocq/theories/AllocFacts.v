(** Optimal allocations: welfare through a clearing price, volume through a cover. *)
From Verif Require Import QcTac Num ModelBase ListFacts Spec SpecAlloc.

Lemma qinv_pos a : 0 < a -> 0 < / a.
Proof.
  intro H. destruct (Qclt_le_dec 0 (/ a)) as [|L]; [assumption|]. exfalso.
  assert (E : a * / a = 1) by (apply Qcmult_inv_r; intro Z; subst; revert H; apply Qcle_not_lt, Qcle_refl). qnra.
Qed.

Lemma volume_swap d x : volume d x = qsumf (fun s => qsumf (fun b => x (lbl b) (lbl s)) (all_b d)) (all_s d).
Proof. unfold volume. apply (qsumf_swap (fun b s => x (lbl b) (lbl s))). Qed.

Lemma alloc_ok_ext d x y : (forall b s, In b (all_b d) -> In s (all_s d) -> x (lbl b) (lbl s) = y (lbl b) (lbl s)) ->
  alloc_ok d x -> alloc_ok d y.
Proof.
  intros E (H0 & Hb & Hs). split; [|split].
  - intros b s H1 H2. rewrite <- E by assumption. apply H0; assumption.
  - intros b H. rewrite <- (qsumf_ext (fun s => x (lbl b) (lbl s))) by (intros s Hss; apply E; assumption). apply Hb, H.
  - intros s H. rewrite <- (qsumf_ext (fun b => x (lbl b) (lbl s))) by (intros b Hbb; apply E; assumption). apply Hs, H.
Qed.
Lemma volume_ext d x y : (forall b s, In b (all_b d) -> In s (all_s d) -> x (lbl b) (lbl s) = y (lbl b) (lbl s)) -> volume d x = volume d y.
Proof. intro E. apply qsumf_ext. intros b Hb. apply qsumf_ext. intros s Hs. apply E; assumption. Qed.
Lemma welfare_ext d v x y : (forall b s, In b (all_b d) -> In s (all_s d) -> x (lbl b) (lbl s) = y (lbl b) (lbl s)) -> welfare d v x = welfare d v y.
Proof. intro E. apply qsumf_ext. intros b Hb. apply qsumf_ext. intros s Hs. rewrite E by assumption. reflexivity. Qed.
Lemma welfare_vext d v w x : (forall r, In r d -> v r = w r) -> welfare d v x = welfare d w x.
Proof.
  intro E. apply qsumf_ext. intros b Hb. apply qsumf_ext. intros s Hs. apply filter_In in Hb, Hs. rewrite !E by tauto. reflexivity.
Qed.

(** welfare in terms of what each bid trades *)
Lemma welfare_sums d v x : welfare d v x =
  qsumf (fun b => v b * qsumf (fun s => x (lbl b) (lbl s)) (all_s d)) (all_b d) -
  qsumf (fun s => v s * qsumf (fun b => x (lbl b) (lbl s)) (all_b d)) (all_s d).
Proof.
  unfold welfare.
  rewrite (qsumf_ext _ (fun b => qsumf (fun s => v b * x (lbl b) (lbl s)) (all_s d) - qsumf (fun s => v s * x (lbl b) (lbl s)) (all_s d))).
  2:{ intros b _. rewrite <- qsumf_minus. apply qsumf_ext. intros s _. ring. }
  rewrite qsumf_minus. f_equal.
  - apply qsumf_ext. intros b _. apply qsumf_scale.
  - rewrite (qsumf_swap (fun b s => v s * x (lbl b) (lbl s))). apply qsumf_ext. intros s _. apply qsumf_scale.
Qed.

(** ** From amounts to an allocation *)
(** [t b] bought, [t s] sold, same totals: share proportionally *)
Definition shared (t : nat -> Qc) (total : Qc) : alloc := fun b s => if qeqb total 0 then 0 else t b * t s / total.

Section Shared.
  Variables (d : df) (t : nat -> Qc).
  Hypothesis Ht0 : forall r, In r d -> 0 <= t (lbl r).
  Let TB := qsumf (fun b => t (lbl b)) (all_b d).
  Let TS := qsumf (fun s => t (lbl s)) (all_s d).
  Hypothesis Hbal : TB = TS.
  Let x := shared t TB.
  Lemma in_b b : In b (all_b d) -> In b d. Proof. intro H. apply filter_In in H. tauto. Qed.
  Lemma in_s s : In s (all_s d) -> In s d. Proof. intro H. apply filter_In in H. tauto. Qed.
  Lemma tot_zero : TB = 0 -> forall r, In r d -> t (lbl r) = 0.
  Proof.
    intros Z r Hr. destruct (buying r) eqn:B.
    - assert (I : In r (all_b d)) by (apply filter_In; auto).
      pose proof (qsumf_in_le (fun b => t (lbl b)) (all_b d) r (fun y Hy => Ht0 y (in_b y Hy)) I) as H. simpl in H. fold TB in H.
      pose proof (Ht0 r Hr). qlra.
    - assert (I : In r (all_s d)) by (apply filter_In; rewrite B; auto).
      pose proof (qsumf_in_le (fun b => t (lbl b)) (all_s d) r (fun y Hy => Ht0 y (in_s y Hy)) I) as H. simpl in H. fold TS in H.
      pose proof (Ht0 r Hr). rewrite <- Hbal in H. qlra.
  Qed.
  Lemma shared_rows b : In b (all_b d) -> qsumf (fun s => x (lbl b) (lbl s)) (all_s d) = t (lbl b).
  Proof.
    intro Hb. unfold x, shared. destruct (qeq_spec TB 0) as [Z|N].
    - rewrite qsumf_zero by reflexivity. rewrite (tot_zero Z) by (apply in_b, Hb). reflexivity.
    - rewrite (qsumf_ext _ (fun s => (t (lbl b) / TB) * t (lbl s))) by (intros; field; exact N).
      rewrite qsumf_scale. fold TS. rewrite <- Hbal. field. exact N.
  Qed.
  Lemma shared_cols s : In s (all_s d) -> qsumf (fun b => x (lbl b) (lbl s)) (all_b d) = t (lbl s).
  Proof.
    intro Hs. unfold x, shared. destruct (qeq_spec TB 0) as [Z|N].
    - rewrite qsumf_zero by reflexivity. rewrite (tot_zero Z) by (apply in_s, Hs). reflexivity.
    - rewrite (qsumf_ext _ (fun b => (t (lbl s) / TB) * t (lbl b))) by (intros; field; exact N).
      rewrite qsumf_scale. fold TB. field. exact N.
  Qed.
  Lemma TB_nonneg : 0 <= TB.
  Proof. apply qsumf_nonneg. intros r Hr. apply Ht0, in_b, Hr. Qed.
  Lemma shared_nonneg b s : In b d -> In s d -> 0 <= x (lbl b) (lbl s).
  Proof.
    intros Hb Hs. unfold x, shared. destruct (qeq_spec TB 0) as [Z|N]; [qlra|].
    pose proof TB_nonneg. assert (P : 0 < TB) by (destruct (Qclt_le_dec 0 TB); [assumption | exfalso; apply N; qlra]).
    unfold Qcdiv. apply qmult_nonneg; [apply qmult_nonneg; auto|].
    pose proof (qinv_pos TB P). qlra.
  Qed.
  Lemma shared_pos b s : In b d -> In s d -> x (lbl b) (lbl s) <> 0 -> t (lbl b) <> 0 /\ t (lbl s) <> 0.
  Proof.
    intros Hb Hs. unfold x, shared. destruct (qeqb TB 0); [congruence|].
    intro H. split; intro Z; apply H; rewrite Z; unfold Qcdiv; ring.
  Qed.
  Lemma shared_ok : (forall r, In r d -> t (lbl r) <= qty r) -> alloc_ok d x.
  Proof.
    intro Hc. split; [|split].
    - intros b s Hb Hs. apply shared_nonneg; [apply in_b, Hb | apply in_s, Hs].
    - intros b Hb. rewrite shared_rows by exact Hb. apply Hc, in_b, Hb.
    - intros s Hs. rewrite shared_cols by exact Hs. apply Hc, in_s, Hs.
  Qed.
  Lemma shared_volume : volume d x = TB.
  Proof. unfold volume. apply qsumf_ext. intros b Hb. apply shared_rows, Hb. Qed.
  Lemma shared_welfare v : welfare d v x =
    qsumf (fun b => v b * t (lbl b)) (all_b d) - qsumf (fun s => v s * t (lbl s)) (all_s d).
  Proof.
    rewrite welfare_sums. f_equal; apply qsumf_ext; intros r Hr; f_equal; [apply shared_rows | apply shared_cols]; exact Hr.
  Qed.
End Shared.

(** ** Welfare: weak duality *)
Lemma welfare_le_surplus d v x p : alloc_ok d x -> welfare d v x <= surplus d v p.
Proof.
  intros (H0 & Hb & Hs). rewrite welfare_sums. unfold surplus.
  set (XB := fun b => qsumf (fun s => x (lbl b) (lbl s)) (all_s d)).
  set (XS := fun s => qsumf (fun b => x (lbl b) (lbl s)) (all_b d)).
  change (qsumf (fun b => v b * XB b) (all_b d) - qsumf (fun s => v s * XS s) (all_s d) <= qsumf (fun b => qty b * qmax 0 (v b - p)) (all_b d) + qsumf (fun s => qty s * qmax 0 (p - v s)) (all_s d)).
  assert (E : qsumf XB (all_b d) = qsumf XS (all_s d)) by apply (volume_swap d x).
  assert (B : qsumf (fun b => v b * XB b - p * XB b) (all_b d) <= qsumf (fun b => qty b * qmax 0 (v b - p)) (all_b d)).
  { apply qsumf_le. intros b Ib. assert (0 <= XB b) by (apply qsumf_nonneg; intros s Is; apply H0; assumption).
    pose proof (Hb b Ib : XB b <= qty b). destruct (qmax_case 0 (v b - p)) as [[-> ?]|[-> ?]]; qnra. }
  assert (C : qsumf (fun s => p * XS s - v s * XS s) (all_s d) <= qsumf (fun s => qty s * qmax 0 (p - v s)) (all_s d)).
  { apply qsumf_le. intros s Is. assert (0 <= XS s) by (apply qsumf_nonneg; intros b Ib; apply H0; assumption).
    pose proof (Hs s Is : XS s <= qty s). destruct (qmax_case 0 (p - v s)) as [[-> ?]|[-> ?]]; qnra. }
  rewrite qsumf_minus, qsumf_scale in B. rewrite qsumf_minus, qsumf_scale in C. rewrite E in B. qlra.
Qed.

(** ** Welfare: the optimum at a clearing price *)
Definition look (d : df) (f : row -> Qc) (i : nat) : Qc :=
  match find (fun r => Nat.eqb (lbl r) i) d with Some r => f r | None => 0 end.
Lemma look_lbl d f r : labels_unique d -> In r d -> look d f (lbl r) = f r.
Proof.
  intros Hu Hr. unfold look. destruct (find _ d) as [r'|] eqn:E.
  - apply find_some in E. destruct E as [I E]. apply Nat.eqb_eq in E. f_equal. apply (NoDup_map_in lbl d); auto.
  - apply find_none with (x := r) in E; [|exact Hr]. rewrite Nat.eqb_refl in E. discriminate.
Qed.

(** fill quantity [T] from the rows [l]: completely where [full], proportionally where [part] *)
Lemma fill_exists (l : df) (full part : row -> bool) (T : Qc) :
  (forall r, In r l -> 0 <= qty r) -> (forall r, full r = true -> part r = false) ->
  qsumf qty (filter full l) <= T -> T <= qsumf qty (filter (fun r => full r || part r) l) ->
  exists f : row -> Qc, (forall r, In r l -> 0 <= f r /\ f r <= qty r) /\ qsumf f l = T /\
    (forall r, In r l -> full r = true -> f r = qty r) /\ (forall r, In r l -> full r = false -> part r = false -> f r = 0).
Proof.
  intros Hq Hd H1 H2. set (F := qsumf qty (filter full l)) in *. set (P := qsumf qty (filter part l)).
  assert (E : qsumf qty (filter (fun r => full r || part r) l) = F + P).
  { unfold F, P. clear - Hd. induction l as [|r l IH]; [simpl; rewrite !qsumf_nil; ring|]. simpl.
    pose proof (Hd r). destruct (full r) eqn:E1, (part r) eqn:E2; simpl; rewrite ?qsumf_cons; rewrite ?IH; try ring.
    specialize (H eq_refl). discriminate. }
  rewrite E in H2.
  assert (P0 : 0 <= P) by (apply qsumf_nonneg; intros r Hr; apply filter_In in Hr; apply Hq; tauto).
  set (th := if qeqb P 0 then 0 else (T - F) / P).
  assert (Th : 0 <= th /\ th <= 1 /\ th * P = T - F).
  { unfold th. destruct (qeq_spec P 0) as [Z|N].
    - rewrite Z in *. split; [qlra|]. split; [qlra|]. assert (T = F) by qlra. subst T. ring.
    - assert (Pp : 0 < P) by (destruct (Qclt_le_dec 0 P); [assumption | exfalso; apply N; qlra]).
      pose proof (qinv_pos P Pp) as Hi. assert (Ei : P * / P = 1) by (apply Qcmult_inv_r; exact N).
      unfold Qcdiv. split; [apply qmult_nonneg; qlra|]. split.
      + assert ((T - F) * / P <= P * / P) by (apply qmult_le_r; qlra). rewrite Ei in H. exact H.
      + field. exact N. }
  destruct Th as (T0 & T1 & TP).
  exists (fun r => if full r then qty r else if part r then th * qty r else 0). split; [|split; [|split]].
  - intros r Hr. pose proof (Hq r Hr). destruct (full r); [split; qlra|]. destruct (part r); [|split; qlra].
    split; [apply qmult_nonneg; assumption | qnra].
  - transitivity (F + th * P); [|rewrite TP; ring]. unfold F, P. rewrite <- qsumf_scale, !qsumf_filter, <- qsumf_plus.
    apply qsumf_ext. intros r Hr. pose proof (Hd r). destruct (full r) eqn:E1, (part r) eqn:E2; try ring.
    specialize (H eq_refl). discriminate.
  - intros r _ ->. reflexivity.
  - intros r _ -> ->. reflexivity.
Qed.

Theorem clearing_optimum d v p : labels_unique d -> qty_nonneg d -> clearing d v p ->
  exists x, alloc_ok d x /\ welfare d v x = surplus d v p.
Proof.
  intros Hu Hq [C1 C2].
  assert (A0 : wanted_above d v p <= wanted_at d v p).
  { unfold wanted_above, wanted_at. rewrite !qsumf_filter. apply qsumf_le. intros r Hr. apply filter_In in Hr.
    assert (0 <= qty r) by (apply Hq; tauto). destruct (qlt_spec p (v r)), (qle_spec p (v r)); try qlra. }
  assert (B0 : offered_below d v p <= offered_at d v p).
  { unfold offered_below, offered_at. rewrite !qsumf_filter. apply qsumf_le. intros r Hr. apply filter_In in Hr.
    assert (0 <= qty r) by (apply Hq; tauto). destruct (qlt_spec (v r) p), (qle_spec (v r) p); try qlra. }
  set (T := qmax (wanted_above d v p) (offered_below d v p)).
  destruct (fill_exists (all_b d) (fun r => qltb p (v r)) (fun r => qeqb p (v r)) T) as (fb & Fb1 & Fb2 & Fb3 & Fb4).
  { intros r Hr. apply Hq, in_b, Hr. }
  { intros r H. destruct (qlt_spec p (v r)); [|discriminate]. apply qeqb_neq. intro Z. rewrite <- Z in H0. revert H0. apply Qcle_not_lt, Qcle_refl. }
  { apply qmax_l. }
  { replace (qsumf qty _) with (wanted_at d v p).
    - unfold T. destruct (qmax_case (wanted_above d v p) (offered_below d v p)) as [[-> ?]|[-> ?]]; assumption.
    - unfold wanted_at. f_equal. apply filter_ext. intro r. destruct (qle_spec p (v r)), (qlt_spec p (v r)), (qeq_spec p (v r)); simpl; try reflexivity; exfalso; try qlra.
      apply H1. qlra. }
  destruct (fill_exists (all_s d) (fun r => qltb (v r) p) (fun r => qeqb p (v r)) T) as (fs & Fs1 & Fs2 & Fs3 & Fs4).
  { intros r Hr. apply Hq, in_s, Hr. }
  { intros r H. destruct (qlt_spec (v r) p); [|discriminate]. apply qeqb_neq. intro Z. rewrite <- Z in H0. revert H0. apply Qcle_not_lt, Qcle_refl. }
  { apply qmax_r. }
  { replace (qsumf qty _) with (offered_at d v p).
    - unfold T. destruct (qmax_case (wanted_above d v p) (offered_below d v p)) as [[-> ?]|[-> ?]]; assumption.
    - unfold offered_at. f_equal. apply filter_ext. intro r. destruct (qle_spec (v r) p), (qlt_spec (v r) p), (qeq_spec p (v r)); simpl; try reflexivity; exfalso; try qlra.
      apply H1. qlra. }
  set (t := look d (fun r => if buying r then fb r else fs r)).
  assert (tb : forall b, In b (all_b d) -> t (lbl b) = fb b).
  { intros b Hb. unfold t. rewrite look_lbl; [|exact Hu | apply in_b, Hb]. apply filter_In in Hb. destruct Hb as [_ ->]. reflexivity. }
  assert (ts : forall s, In s (all_s d) -> t (lbl s) = fs s).
  { intros s Hs. unfold t. rewrite look_lbl; [|exact Hu | apply in_s, Hs]. apply filter_In in Hs. destruct Hs as [_ Hs]. apply negb_true_iff in Hs. rewrite Hs. reflexivity. }
  assert (TB : qsumf (fun b => t (lbl b)) (all_b d) = T) by (rewrite <- Fb2; apply qsumf_ext, tb).
  assert (TS : qsumf (fun s => t (lbl s)) (all_s d) = T) by (rewrite <- Fs2; apply qsumf_ext, ts).
  assert (Side : forall r, In r d -> In r (all_b d) \/ In r (all_s d)).
  { intros r Hr. destruct (buying r) eqn:B; [left | right]; apply filter_In; rewrite B; auto. }
  assert (t0 : forall r, In r d -> 0 <= t (lbl r)).
  { intros r Hr. destruct (Side r Hr) as [H|H]; [rewrite tb by exact H; apply Fb1, H | rewrite ts by exact H; apply Fs1, H]. }
  assert (tq : forall r, In r d -> t (lbl r) <= qty r).
  { intros r Hr. destruct (Side r Hr) as [H|H]; [rewrite tb by exact H; apply Fb1, H | rewrite ts by exact H; apply Fs1, H]. }
  assert (Hbal : qsumf (fun b => t (lbl b)) (all_b d) = qsumf (fun s => t (lbl s)) (all_s d)) by congruence.
  exists (shared t (qsumf (fun b => t (lbl b)) (all_b d))). split; [apply shared_ok; assumption|].
  rewrite shared_welfare by assumption. unfold surplus.
  assert (EB : qsumf (fun b => qty b * qmax 0 (v b - p)) (all_b d) = qsumf (fun b => v b * t (lbl b)) (all_b d) - p * T).
  { rewrite <- TB, <- qsumf_scale, <- qsumf_minus. apply qsumf_ext. intros b Hb. rewrite tb by exact Hb.
    destruct (qlt_spec p (v b)) as [L|L].
    - rewrite (Fb3 b Hb) by (apply qltb_lt, L). destruct (qmax_case 0 (v b - p)) as [[-> ?]|[-> ?]]; [exfalso; qlra | ring].
    - destruct (qmax_case 0 (v b - p)) as [[-> ?]|[-> ?]].
      + destruct (qeq_spec p (v b)) as [Ee|Ne]; [rewrite <- Ee; ring|].
        rewrite (Fb4 b Hb); [ring | apply qltb_ge, L | apply qeqb_neq, Ne].
      + assert (Z : v b = p) by qlra. rewrite Z. ring. }
  assert (ES : qsumf (fun s => qty s * qmax 0 (p - v s)) (all_s d) = p * T - qsumf (fun s => v s * t (lbl s)) (all_s d)).
  { rewrite <- TS, <- qsumf_scale, <- qsumf_minus. apply qsumf_ext. intros b Hb. rewrite ts by exact Hb.
    destruct (qlt_spec (v b) p) as [L|L].
    - rewrite (Fs3 b Hb) by (apply qltb_lt, L). destruct (qmax_case 0 (p - v b)) as [[-> ?]|[-> ?]]; [exfalso; qlra | ring].
    - destruct (qmax_case 0 (p - v b)) as [[-> ?]|[-> ?]].
      + destruct (qeq_spec p (v b)) as [Ee|Ne]; [rewrite <- Ee; ring|].
        rewrite (Fs4 b Hb); [ring | apply qltb_ge, L | apply qeqb_neq, Ne].
      + assert (Z : v b = p) by qlra. rewrite Z. ring. }
  rewrite EB, ES. ring.
Qed.

(** ** A clearing price exists *)
Lemma min_sat (P : Qc -> bool) l : (exists x, In x l /\ P x = true) -> exists x, In x l /\ P x = true /\ forall y, In y l -> P y = true -> x <= y.
Proof.
  induction l as [|a l IH]; intros (x & Hx & Px); [contradiction|].
  destruct (existsb P l) eqn:E.
  - apply existsb_exists in E. destruct (IH E) as (m & Hm & Pm & Mm).
    destruct (P a) eqn:Pa; [destruct (Qclt_le_dec a m) as [L|L]|].
    + exists a. split; [left; reflexivity|]. split; [exact Pa|]. intros y [<-|Hy] Py; [qlra|]. specialize (Mm y Hy Py). qlra.
    + exists m. split; [right; exact Hm|]. split; [exact Pm|]. intros y [<-|Hy] Py; [exact L | apply Mm; assumption].
    + exists m. split; [right; exact Hm|]. split; [exact Pm|]. intros y [<-|Hy] Py; [congruence | apply Mm; assumption].
  - assert (N : forall y, In y l -> P y = true -> False).
    { intros y Hy Py. apply not_true_iff_false in E. apply E. apply existsb_exists. eauto. }
    destruct Hx as [->|Hx]; [|exfalso; eapply N; eauto].
    exists x. split; [left; reflexivity|]. split; [exact Px|]. intros y [<-|Hy] Py; [qlra | exfalso; eapply N; eauto].
Qed.
Lemma max_sat (P : Qc -> bool) l : (exists x, In x l /\ P x = true) -> exists x, In x l /\ P x = true /\ forall y, In y l -> P y = true -> y <= x.
Proof.
  intros (x & Hx & Px). destruct (min_sat (fun y => P (- y)) (map Qcopp l)) as (m & Hm & Pm & Mm).
  { exists (- x). split; [apply in_map, Hx|]. rewrite Qcopp_involutive. exact Px. }
  apply in_map_iff in Hm. destruct Hm as (z & <- & Hz). rewrite Qcopp_involutive in Pm. exists z. split; [exact Hz|]. split; [exact Pm|].
  intros y Hy Py. specialize (Mm (- y) (in_map _ _ _ Hy)). rewrite Qcopp_involutive in Mm. specialize (Mm Py). qlra.
Qed.

Theorem clearing_exists d v : qty_nonneg d -> exists p, clearing d v p.
Proof.
  intro Hq. destruct d as [|r0 d0].
  { exists 0. unfold clearing, wanted_above, offered_at, offered_below, wanted_at. simpl. rewrite !qsumf_nil. split; qlra. }
  set (d := r0 :: d0) in *. set (l := map v d).
  set (P := fun p => qleb (wanted_above d v p) (offered_at d v p)).
  assert (O0 : forall p, 0 <= offered_at d v p).
  { intro p. apply qsumf_nonneg. intros r Hr. apply filter_In in Hr. destruct Hr as [Hr _]. apply filter_In in Hr. apply Hq; tauto. }
  assert (W0 : forall p, 0 <= wanted_at d v p).
  { intro p. apply qsumf_nonneg. intros r Hr. apply filter_In in Hr. destruct Hr as [Hr _]. apply filter_In in Hr. apply Hq; tauto. }
  destruct (max_sat (fun _ => true) l) as (M & HM & _ & MM); [exists (v r0); split; [left; reflexivity | reflexivity]|].
  destruct (min_sat P l) as (p & Hp & Pp & Mp).
  { exists M. split; [exact HM|]. unfold P. apply qleb_le.
    assert (Z : wanted_above d v M = 0); [|rewrite Z; apply O0].
    unfold wanted_above. rewrite filter_none; [reflexivity|]. intros r Hr. apply qltb_ge. apply MM; [|reflexivity]. apply in_map, in_b, Hr. }
  exists p. split; [apply qleb_le, Pp|].
  destruct (existsb (fun y => qltb y p) l) eqn:Ex.
  - apply existsb_exists in Ex. destruct (max_sat (fun y => qltb y p) l Ex) as (p' & Hp' & Lp' & Mp').
    apply (proj1 (qltb_lt _ _)) in Lp'.
    assert (F : P p' = false) by (destruct (P p') eqn:F; [specialize (Mp p' Hp' F); exfalso; qlra | reflexivity]).
    unfold P in F. apply (proj1 (qleb_gt _ _)) in F.
    assert (E1 : offered_below d v p = offered_at d v p').
    { unfold offered_below, offered_at. f_equal. apply filter_ext_in'. intros r Hr.
      assert (I : In (v r) l) by (apply in_map, in_s, Hr).
      destruct (qlt_spec (v r) p) as [L|L].
      - symmetry. apply qleb_le. apply Mp'; [exact I | apply qltb_lt, L].
      - symmetry. apply qleb_gt. qlra. }
    assert (E2 : wanted_at d v p = wanted_above d v p').
    { unfold wanted_at, wanted_above. f_equal. apply filter_ext_in'. intros r Hr.
      assert (I : In (v r) l) by (apply in_map, in_b, Hr).
      destruct (qle_spec p (v r)) as [L|L].
      - symmetry. apply qltb_lt. qlra.
      - symmetry. apply qltb_ge. apply Mp'; [exact I | apply qltb_lt, L]. }
    rewrite E1, E2. qlra.
  - assert (Z : offered_below d v p = 0); [|rewrite Z; apply W0].
    unfold offered_below. rewrite filter_none; [reflexivity|]. intros r Hr. apply qltb_ge.
    destruct (Qclt_le_dec (v r) p) as [L|L]; [|exact L]. exfalso.
    apply not_true_iff_false in Ex. apply Ex. apply existsb_exists. exists (v r). split; [apply in_map, in_s, Hr | apply qltb_lt, L].
Qed.
