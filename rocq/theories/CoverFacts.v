(** The largest volume that compatible bids can trade: a cover attains it. *)
From Verif Require Import QcTac Num ModelBase ListFacts Spec SpecAlloc AllocFacts.

Lemma sum_indicator (l : df) (r0 : row) (m : Qc) (p : row -> bool) : NoDup (map lbl l) -> In r0 l ->
  qsumf (fun r => if Nat.eqb (lbl r) (lbl r0) then m else 0) (filter p l) = if p r0 then m else 0.
Proof.
  intros N I. induction l as [|a l IH]; [contradiction|]. simpl in N. inversion_clear N as [|? ? N1 N2].
  assert (Z : forall l', (forall r, In r l' -> In r l) -> ~ In r0 l -> lbl a = lbl r0 -> qsumf (fun r => if Nat.eqb (lbl r) (lbl r0) then m else 0) l' = 0).
  { intros l' Hl' Hn E. apply qsumf_zero. intros r Hr. destruct (Nat.eqb (lbl r) (lbl r0)) eqn:Er; [|reflexivity].
    apply Nat.eqb_eq in Er. exfalso. apply N1. rewrite E, <- Er. apply in_map, Hl', Hr. }
  destruct I as [->|I].
  - assert (Hn : ~ In r0 l) by (intro H; apply N1, in_map, H).
    simpl. destruct (p r0) eqn:Ep; [rewrite qsumf_cons, Nat.eqb_refl|]; rewrite Z; auto; try ring; intros r Hr; apply filter_In in Hr; tauto.
  - assert (Ne : Nat.eqb (lbl a) (lbl r0) = false) by (apply Nat.eqb_neq; intro H; apply N1; rewrite H; apply in_map, I).
    simpl. destruct (p a); [rewrite qsumf_cons, Ne, IH by assumption; ring | apply IH; assumption].
Qed.
Lemma filter_true {A} (l : list A) : filter (fun _ => true) l = l.
Proof. apply filter_all. reflexivity. Qed.

Section Cover.
  Variables (B S : df).
  Hypothesis NB : NoDup (map lbl B).
  Hypothesis NS : NoDup (map lbl S).

  Definition upd (Q : nat -> Qc) (i : nat) (v : Qc) : nat -> Qc := fun j => if Nat.eqb j i then v else Q j.
  Lemma sum_upd l Q r0 m p : NoDup (map lbl l) -> In r0 l ->
    qsumf (fun r => upd Q (lbl r0) (Q (lbl r0) - m) (lbl r)) (filter p l) = qsumf (fun r => Q (lbl r)) (filter p l) - (if p r0 then m else 0).
  Proof.
    intros N I. rewrite <- (sum_indicator l r0 m p N I), <- qsumf_minus. apply qsumf_ext. intros r _. unfold upd.
    destruct (Nat.eqb (lbl r) (lbl r0)) eqn:E; [apply Nat.eqb_eq in E; rewrite E; ring | ring].
  Qed.

  Definition npos (l : df) (Q : nat -> Qc) : nat := length (filter (fun r => qltb 0 (Q (lbl r))) l).
  Lemma npos_upd l Q r0 v : In r0 l -> 0 < Q (lbl r0) -> (forall r, In r l -> 0 <= Q (lbl r)) -> v <= Q (lbl r0) ->
    (npos l (upd Q (lbl r0) v) <= npos l Q)%nat /\ (v = 0 -> (npos l (upd Q (lbl r0) v) < npos l Q)%nat).
  Proof.
    intros I P0 _ Hv. unfold npos.
    assert (M : forall l, (length (filter (fun r => qltb 0 (upd Q (lbl r0) v (lbl r))) l) <= length (filter (fun r => qltb 0 (Q (lbl r))) l))%nat).
    { clear I l. induction l as [|a l IH]; simpl; [lia|]. unfold upd at 1. destruct (Nat.eqb (lbl a) (lbl r0)) eqn:E.
      - apply Nat.eqb_eq in E. rewrite E. rewrite (proj2 (qltb_lt 0 (Q (lbl r0))) P0). destruct (qltb 0 v); simpl; lia.
      - destruct (qltb 0 (Q (lbl a))); simpl; lia. }
    split; [apply M|]. intros ->.
    induction l as [|a l IH]; [contradiction|]. simpl. unfold upd at 1.
    destruct (Nat.eqb (lbl a) (lbl r0)) eqn:E.
    - apply Nat.eqb_eq in E. rewrite E. rewrite (proj2 (qltb_lt 0 (Q (lbl r0))) P0).
      replace (qltb 0 0) with false by reflexivity. simpl. specialize (M l). lia.
    - destruct I as [->|I]; [rewrite Nat.eqb_refl in E; discriminate|]. specialize (IH I).
      destruct (qltb 0 (Q (lbl a))); simpl; lia.
  Qed.

  Definition vol (x : alloc) : Qc := qsumf (fun b => qsumf (fun s => x (lbl b) (lbl s)) S) B.
  Definition cap (QB QS : nat -> Qc) (t : Qc) : Qc :=
    qsumf (fun b => QB (lbl b)) (filter (fun b => qltb t (price b)) B) + qsumf (fun s => QS (lbl s)) (filter (fun s => qleb (price s) t) S).
  Record good (QB QS : nat -> Qc) (x : alloc) : Prop := {
    g0 : forall i j, 0 <= x i j;
    gb : forall b, In b B -> qsumf (fun s => x (lbl b) (lbl s)) S <= QB (lbl b);
    gs : forall s, In s S -> qsumf (fun b => x (lbl b) (lbl s)) B <= QS (lbl s);
    gc : forall b s, In b B -> In s S -> price b < price s -> x (lbl b) (lbl s) = 0 }.

  (** weak duality *)
  Lemma vol_le_cap QB QS x t : (forall b s, In b B -> In s S -> 0 <= x (lbl b) (lbl s)) ->
    (forall b, In b B -> qsumf (fun s => x (lbl b) (lbl s)) S <= QB (lbl b)) ->
    (forall s, In s S -> qsumf (fun b => x (lbl b) (lbl s)) B <= QS (lbl s)) ->
    (forall b s, In b B -> In s S -> price b < price s -> x (lbl b) (lbl s) = 0) ->
    vol x <= cap QB QS t.
  Proof.
    intros H0 Hb Hs Hc. unfold vol, cap.
    apply Qcle_trans with (qsumf (fun b => qsumf (fun s => (if qltb t (price b) then x (lbl b) (lbl s) else 0) + (if qleb (price s) t then x (lbl b) (lbl s) else 0)) S) B).
    - apply qsumf_le. intros b Ib. apply qsumf_le. intros s Is. pose proof (H0 b s Ib Is).
      destruct (qlt_spec t (price b)); [destruct (qleb (price s) t); qlra|].
      destruct (qle_spec (price s) t); [qlra|]. rewrite (Hc b s Ib Is) by qlra. qlra.
    - rewrite (qsumf_ext _ (fun b => qsumf (fun s => if qltb t (price b) then x (lbl b) (lbl s) else 0) S + qsumf (fun s => if qleb (price s) t then x (lbl b) (lbl s) else 0) S))
        by (intros; apply qsumf_plus).
      rewrite qsumf_plus, (qsumf_swap (fun b s => if qleb (price s) t then x (lbl b) (lbl s) else 0)), !qsumf_filter.
      assert (A : forall a b c e, a <= c -> b <= e -> a + b <= c + e) by (intros; qlra). apply A; apply qsumf_le; intros z Hz.
      + destruct (qltb t (price z)); [apply Hb, Hz | rewrite qsumf_zero by reflexivity; qlra].
      + destruct (qleb (price z) t); [apply Hs, Hz | rewrite qsumf_zero by reflexivity; qlra].
  Qed.

  Lemma low_price : exists t0, (forall b, In b B -> t0 < price b) /\ (forall s, In s S -> t0 < price s).
  Proof.
    destruct (B ++ S) as [|r l] eqn:E.
    - apply app_eq_nil in E. destruct E as [-> ->]. exists 0. split; contradiction.
    - destruct (min_sat (fun _ => true) (map price (B ++ S))) as (m & _ & _ & Hm).
      { exists (price r). split; [rewrite E; left; reflexivity | reflexivity]. }
      exists (m - 1). split; intros z Hz; assert (m <= price z) by (apply Hm; [apply in_map, in_or_app; auto | reflexivity]); qlra.
  Qed.

  (** a cover with all buyers *)
  Lemma cap_low QB QS t0 : (forall b, In b B -> t0 < price b) -> (forall s, In s S -> t0 < price s) ->
    cap QB QS t0 = qsumf (fun b => QB (lbl b)) B.
  Proof.
    intros Hb Hs. unfold cap. rewrite filter_all by (intros b H; apply qltb_lt, Hb, H).
    rewrite filter_none by (intros s H; apply qleb_gt, Hs, H). rewrite qsumf_nil. ring.
  Qed.

  Theorem cover_exists n : forall QB QS, (npos B QB + npos S QS <= n)%nat ->
    (forall b, In b B -> 0 <= QB (lbl b)) -> (forall s, In s S -> 0 <= QS (lbl s)) ->
    exists x t, good QB QS x /\ vol x = cap QB QS t.
  Proof.
    induction n as [n IH] using lt_wf_ind; intros QB QS Hn PB PS.
    destruct low_price as (t0 & LB & LS).
    destruct (existsb (fun b => qltb 0 (QB (lbl b))) B) eqn:EB.
    2:{ (* nobody buys *)
      assert (ZB : forall b, In b B -> QB (lbl b) = 0).
      { intros b Hb. pose proof (PB b Hb). destruct (Qclt_le_dec 0 (QB (lbl b))) as [L|L]; [|qlra]. exfalso.
        apply not_true_iff_false in EB. apply EB, existsb_exists. exists b. split; [exact Hb | apply qltb_lt, L]. }
      exists (fun _ _ => 0), t0. split.
      - constructor; intros; try qlra; rewrite ?qsumf_zero by reflexivity; auto.
      - rewrite cap_low by assumption. unfold vol. rewrite !qsumf_zero; auto. intros b _. apply qsumf_zero. reflexivity. }
    (* the buyer with the lowest bid *)
    assert (Hmin : exists b, In b B /\ 0 < QB (lbl b) /\ forall b', In b' B -> 0 < QB (lbl b') -> price b <= price b').
    { apply existsb_exists in EB. destruct EB as (b1 & I1 & P1).
      destruct (min_sat (fun _ => true) (map price (filter (fun b => qltb 0 (QB (lbl b))) B))) as (m & Hm & _ & Mm).
      { exists (price b1). split; [apply in_map, filter_In; auto | reflexivity]. }
      apply in_map_iff in Hm. destruct Hm as (b & <- & Hb). apply filter_In in Hb. destruct Hb as [Hb Pb].
      exists b. split; [exact Hb|]. split; [apply qltb_lt, Pb|]. intros b' I' P'. apply Mm; [|reflexivity].
      apply in_map, filter_In. split; [exact I' | apply qltb_lt, P']. }
    destruct Hmin as (b & Ib & Pb & Mb).
    destruct (existsb (fun s => qltb 0 (QS (lbl s)) && qleb (price s) (price b)) S) eqn:ES.
    - (* trade with a compatible seller *)
      apply existsb_exists in ES. destruct ES as (s & Is & Hs). apply andb_true_iff in Hs. destruct Hs as [Ps Hc].
      apply (proj1 (qltb_lt _ _)) in Ps. apply (proj1 (qleb_le _ _)) in Hc.
      set (m := qmin (QB (lbl b)) (QS (lbl s))).
      assert (Hm : 0 < m /\ m <= QB (lbl b) /\ m <= QS (lbl s)).
      { unfold m. destruct (qmin_case (QB (lbl b)) (QS (lbl s))) as [[-> ?]|[-> ?]]; repeat split; qlra. }
      destruct Hm as (M0 & MB & MS).
      set (QB' := upd QB (lbl b) (QB (lbl b) - m)). set (QS' := upd QS (lbl s) (QS (lbl s) - m)).
      assert (LT : (npos B QB' + npos S QS' < npos B QB + npos S QS)%nat).
      { destruct (npos_upd B QB b (QB (lbl b) - m) Ib Pb PB ltac:(qlra)) as [U1 U2].
        destruct (npos_upd S QS s (QS (lbl s) - m) Is Ps PS ltac:(qlra)) as [V1 V2].
        fold QB' in U1, U2. fold QS' in V1, V2.
        destruct (qmin_case (QB (lbl b)) (QS (lbl s))) as [[Em _]|[Em _]]; fold m in Em.
        - assert (Z : QB (lbl b) - m = 0) by (rewrite Em; ring). specialize (U2 Z). lia.
        - assert (Z : QS (lbl s) - m = 0) by (rewrite Em; ring). specialize (V2 Z). lia. }
      assert (PB' : forall b', In b' B -> 0 <= QB' (lbl b')).
      { intros b' Hb'. unfold QB', upd. destruct (Nat.eqb (lbl b') (lbl b)); [qlra | apply PB, Hb']. }
      assert (PS' : forall s', In s' S -> 0 <= QS' (lbl s')).
      { intros s' Hs'. unfold QS', upd. destruct (Nat.eqb (lbl s') (lbl s)); [qlra | apply PS, Hs']. }
      destruct (IH (npos B QB' + npos S QS')%nat ltac:(lia) QB' QS' (le_n _) PB' PS') as (x & t & G & V).
      set (e := fun i j => if Nat.eqb i (lbl b) then (if Nat.eqb j (lbl s) then m else 0) else 0).
      exists (fun i j => x i j + e i j).
      assert (Er : forall b', qsumf (fun s' => e (lbl b') (lbl s')) S = if Nat.eqb (lbl b') (lbl b) then m else 0).
      { intro b'. unfold e. destruct (Nat.eqb (lbl b') (lbl b)); [|apply qsumf_zero; reflexivity].
        pose proof (sum_indicator S s m (fun _ => true) NS Is) as H. rewrite filter_true in H. exact H. }
      assert (Ec : forall s', qsumf (fun b' => e (lbl b') (lbl s')) B = if Nat.eqb (lbl s') (lbl s) then m else 0).
      { intro s'. unfold e.
        pose proof (sum_indicator B b (if Nat.eqb (lbl s') (lbl s) then m else 0) (fun _ => true) NB Ib) as H. rewrite filter_true in H. exact H. }
      assert (GG : good QB QS (fun i j => x i j + e i j)).
      { constructor.
        - intros i j. pose proof (g0 _ _ _ G i j). unfold e. destruct (Nat.eqb i (lbl b)), (Nat.eqb j (lbl s)); qlra.
        - intros b' Hb'. rewrite qsumf_plus, Er. pose proof (gb _ _ _ G b' Hb') as H. unfold QB', upd in H.
          destruct (Nat.eqb (lbl b') (lbl b)) eqn:E; [apply Nat.eqb_eq in E; rewrite E in *; qlra | qlra].
        - intros s' Hs'. rewrite qsumf_plus, Ec. pose proof (gs _ _ _ G s' Hs') as H. unfold QS', upd in H.
          destruct (Nat.eqb (lbl s') (lbl s)) eqn:E; [apply Nat.eqb_eq in E; rewrite E in *; qlra | qlra].
        - intros b' s' Hb' Hs' L. rewrite (gc _ _ _ G b' s' Hb' Hs' L). unfold e.
          destruct (Nat.eqb (lbl b') (lbl b)) eqn:E1; [|ring]. destruct (Nat.eqb (lbl s') (lbl s)) eqn:E2; [|ring].
          apply Nat.eqb_eq in E1, E2. assert (b' = b) by (apply (NoDup_map_in lbl B); auto). assert (s' = s) by (apply (NoDup_map_in lbl S); auto).
          subst. exfalso. qlra. }
      assert (VV : vol (fun i j => x i j + e i j) = vol x + m).
      { unfold vol. rewrite (qsumf_ext _ (fun b' => qsumf (fun s' => x (lbl b') (lbl s')) S + (if Nat.eqb (lbl b') (lbl b) then m else 0))).
        2:{ intros b' _. rewrite qsumf_plus, Er. reflexivity. }
        rewrite qsumf_plus. pose proof (sum_indicator B b m (fun _ => true) NB Ib) as H. rewrite filter_true in H. rewrite H. reflexivity. }
      assert (CC : forall t, cap QB' QS' t = cap QB QS t - (if qltb t (price b) then m else 0) - (if qleb (price s) t then m else 0)).
      { intro t'. unfold cap, QB', QS'. rewrite !sum_upd by assumption. ring. }
      assert (Low : price s <= t /\ t < price b -> cap QB QS t0 <= vol x + m).
      { intros [L1 L2]. rewrite cap_low by assumption. rewrite V.
        assert (A : qsumf (fun b' => QB (lbl b')) B - m = qsumf (fun b' => QB' (lbl b')) B).
        { pose proof (sum_upd B QB b m (fun _ => true) NB Ib) as H. rewrite filter_true in H. symmetry. exact H. }
        assert (A2 : qsumf (fun b' => QB' (lbl b')) B <= cap QB' QS' t); [|qlra]. unfold cap.
        assert (A3 : qsumf (fun b' => QB' (lbl b')) (filter (fun b' => qltb t (price b')) B) = qsumf (fun b' => QB' (lbl b')) B).
        { rewrite qsumf_filter. apply qsumf_ext. intros b' Hb'. destruct (qlt_spec t (price b')) as [|L]; [reflexivity|].
          destruct (Qclt_le_dec 0 (QB (lbl b'))) as [Q|Q]; [specialize (Mb b' Hb' Q); exfalso; qlra|].
          pose proof (PB b' Hb'). pose proof (PB' b' Hb'). unfold QB', upd in *. destruct (Nat.eqb (lbl b') (lbl b)) eqn:E; [apply Nat.eqb_eq in E; rewrite E in *|]; qlra. }
        rewrite A3. assert (0 <= qsumf (fun s' => QS' (lbl s')) (filter (fun s' => qleb (price s') t) S)); [|qlra].
        apply qsumf_nonneg. intros s' Hs'. apply filter_In in Hs'. apply PS', Hs'. }
      specialize (CC t).
      destruct (qle_spec (price s) t) as [L1|L1]; destruct (qlt_spec t (price b)) as [L2|L2].
      + exists t0. split; [exact GG|]. specialize (Low (conj L1 L2)). rewrite VV. apply Qcle_antisym; [|exact Low].
        rewrite <- VV. apply vol_le_cap; apply GG || (intros; apply GG).
      + exists t. split; [exact GG|]. rewrite VV, V, CC. ring.
      + exists t. split; [exact GG|]. rewrite VV, V, CC. ring.
      + exfalso. qlra.
    - (* nobody can sell to this buyer *)
      assert (ZS : forall s, In s S -> price s <= price b -> QS (lbl s) = 0).
      { intros s Hs Hc. pose proof (PS s Hs). destruct (Qclt_le_dec 0 (QS (lbl s))) as [L|L]; [|qlra]. exfalso.
        apply not_true_iff_false in ES. apply ES, existsb_exists. exists s. split; [exact Hs|]. apply andb_true_iff. split; [apply qltb_lt, L | apply qleb_le, Hc]. }
      set (QB' := upd QB (lbl b) (QB (lbl b) - QB (lbl b))).
      assert (LT : (npos B QB' < npos B QB)%nat) by (apply npos_upd; auto; qlra).
      assert (PB' : forall b', In b' B -> 0 <= QB' (lbl b') /\ QB' (lbl b') <= QB (lbl b')).
      { intros b' Hb'. pose proof (PB b' Hb'). unfold QB', upd. destruct (Nat.eqb (lbl b') (lbl b)) eqn:E; [apply Nat.eqb_eq in E; rewrite E in *|]; split; qlra. }
      destruct (IH (npos B QB' + npos S QS)%nat ltac:(lia) QB' QS (le_n _) (fun b' H => proj1 (PB' b' H)) PS) as (x & t & G & V).
      assert (GG : good QB QS x).
      { constructor; try apply G. intros b' Hb'. pose proof (gb _ _ _ G b' Hb'). pose proof (PB' b' Hb'). qlra. }
      exists x. destruct (qlt_spec t (price b)) as [L|L].
      + exists (price b). split; [exact GG|]. apply Qcle_antisym; [apply vol_le_cap; apply GG || (intros; apply GG)|].
        rewrite V. unfold cap.
        assert (Z1 : qsumf (fun s => QS (lbl s)) (filter (fun s => qleb (price s) (price b)) S) = 0).
        { apply qsumf_zero. intros s Hs. apply filter_In in Hs. apply ZS; [tauto|]. apply qleb_le. tauto. }
        rewrite Z1. assert (0 <= qsumf (fun s => QS (lbl s)) (filter (fun s => qleb (price s) t) S)) by (apply qsumf_nonneg; intros s Hs; apply filter_In in Hs; apply PS, Hs).
        assert (Z2 : qsumf (fun b' => QB (lbl b')) (filter (fun b' => qltb (price b) (price b')) B) <= qsumf (fun b' => QB' (lbl b')) (filter (fun b' => qltb t (price b')) B)); [|qlra].
        rewrite !qsumf_filter. apply qsumf_le. intros b' Hb'. pose proof (PB' b' Hb').
        destruct (qlt_spec (price b) (price b')) as [L2|L2]; [|destruct (qltb t (price b')); qlra].
        destruct (qlt_spec t (price b')); [|exfalso; qlra]. unfold QB', upd.
        destruct (Nat.eqb (lbl b') (lbl b)) eqn:E; [|qlra]. apply Nat.eqb_eq in E. assert (b' = b) by (apply (NoDup_map_in lbl B); auto). subst. exfalso. qlra.
      + exists t. split; [exact GG|]. rewrite V. unfold cap. f_equal. apply qsumf_ext. intros b' Hb'. apply filter_In in Hb'. destruct Hb' as [Hb' Lb'].
        apply (proj1 (qltb_lt _ _)) in Lb'. unfold QB', upd. destruct (Nat.eqb (lbl b') (lbl b)) eqn:E; [|reflexivity].
        apply Nat.eqb_eq in E. assert (b' = b) by (apply (NoDup_map_in lbl B); auto). subst. exfalso. qlra.
  Qed.
End Cover.

Lemma volume_le_cover d x t : alloc_ok d x -> alloc_compat d x -> labels_unique d ->
  volume d x <= wanted_above d price t + offered_at d price t.
Proof.
  intros (H0 & Hb & Hs) Hc Hu.
  pose proof (vol_le_cap (all_b d) (all_s d) (look d qty) (look d qty) x t H0) as H. unfold vol, cap in H.
  rewrite (qsumf_ext (fun b => look d qty (lbl b)) qty) in H.
  2:{ intros r Hr. apply filter_In in Hr. apply look_lbl; [exact Hu | apply in_b; tauto]. }
  rewrite (qsumf_ext (fun s => look d qty (lbl s)) qty) in H.
  2:{ intros r Hr. apply filter_In in Hr. apply look_lbl; [exact Hu | apply in_s; tauto]. }
  apply H; auto; intros r Hr; rewrite look_lbl; auto; first [apply in_b, Hr | apply in_s, Hr].
Qed.
Theorem volume_optimum d : labels_unique d -> qty_nonneg d ->
  exists x t, alloc_ok d x /\ alloc_compat d x /\ volume d x = wanted_above d price t + offered_at d price t.
Proof.
  intros Hu Hq.
  assert (NB : NoDup (map lbl (all_b d))) by apply NoDup_filter_map, Hu.
  assert (NS : NoDup (map lbl (all_s d))) by apply NoDup_filter_map, Hu.
  assert (LB : forall r, In r (all_b d) -> look d qty (lbl r) = qty r) by (intros r Hr; apply look_lbl; [exact Hu | apply in_b, Hr]).
  assert (LS : forall r, In r (all_s d) -> look d qty (lbl r) = qty r) by (intros r Hr; apply look_lbl; [exact Hu | apply in_s, Hr]).
  destruct (cover_exists (all_b d) (all_s d) NB NS _ (look d qty) (look d qty) (le_n _)) as (x & t & G & V).
  { intros b Hb. rewrite LB by exact Hb. apply Hq, in_b, Hb. }
  { intros b Hb. rewrite LS by exact Hb. apply Hq, in_s, Hb. }
  exists x, t. split; [|split].
  - split; [intros; apply G|]. split; intros r Hr; [rewrite <- LB by exact Hr | rewrite <- LS by exact Hr]; apply G, Hr.
  - exact (gc _ _ _ _ _ G).
  - unfold volume. fold (vol (all_b d) (all_s d) x). rewrite V. unfold cap, wanted_above, offered_at.
    f_equal; apply qsumf_ext; intros r Hr; apply filter_In in Hr; [apply LB | apply LS]; tauto.
Qed.
