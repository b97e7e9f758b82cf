(** Facts about [a_run]: its results are exactly the runs of SpecAny.v. *)
From Verif Require Import QcTac Num ModelBase ModelHuang ModelP2P ModelRound ModelAny ListFacts StoreFacts P2PFacts P2PSchedule SpecAny.

Section AnyRun.
  Context {P Q X : Type}.
  Variable o : ops P Q X.
  Variable d : list (arow P Q).
  Hypothesis Hl : map a_lbl d = seq 0 (length d).
  Let ps := a_pairs d.
  Let prices := map a_price d.

  (** ** Labels and pairs *)
  Definition bare (x : arow P Q) : row := mkRow (a_lbl x) 0 0 0%Z (a_buying x) 0 true.
  Lemma filter_bare (f : row -> bool) (g : arow P Q -> bool) l : (forall x, f (bare x) = g x) -> filter f (map bare l) = map bare (filter g l).
  Proof. intro H. induction l as [|x l IH]; [reflexivity|]. cbn [map filter]. rewrite H, IH. destruct (g x); reflexivity. Qed.
  Lemma pairs_bare : ps = all_pairs (map bare d).
  Proof.
    unfold ps, a_pairs, all_pairs, a_buyers, a_sellers, buyers, sellers.
    rewrite (filter_bare buying a_buying) by reflexivity. rewrite (filter_bare (fun r => negb (buying r)) (fun x => negb (a_buying x))) by reflexivity.
    rewrite !flat_map_concat_map, !map_map. f_equal. apply map_ext. intro b. rewrite !map_map. reflexivity.
  Qed.
  Lemma bare_labels : map lbl (map bare d) = seq 0 (length (map bare d)).
  Proof. rewrite map_map, map_length. exact Hl. Qed.
  Lemma any_NoDup : NoDup ps.
  Proof. rewrite pairs_bare. apply ps_NoDup, bare_labels. Qed.
  Lemma any_good p : In p ps -> good_pair (length d) p.
  Proof. rewrite pairs_bare. intro H. apply (pair_good (map bare d) bare_labels) in H. rewrite map_length in H. exact H. Qed.
  Lemma any_ne p : In p ps -> fst p <> snd p.
  Proof. intro H. apply (any_good p H). Qed.
  Lemma any_pair_iff p : In p ps <-> (exists x, In x d /\ a_buying x = true /\ a_lbl x = fst p) /\ (exists y, In y d /\ a_buying y = false /\ a_lbl y = snd p).
  Proof.
    unfold ps, a_pairs, a_buyers, a_sellers. rewrite in_flat_map. split.
    - intros (b & Hb & H). apply in_map_iff in Hb. destruct Hb as (x & <- & Hx). apply filter_In in Hx. destruct Hx as [Hx Bx].
      apply in_map_iff in H. destruct H as (s & <- & Hs). apply in_map_iff in Hs. destruct Hs as (y & <- & Hy). apply filter_In in Hy.
      destruct Hy as [Hy By]. apply negb_true_iff in By. simpl. eauto 10.
    - intros [(x & Hx & Bx & Ex) (y & Hy & By & Ey)]. exists (fst p). split.
      + apply in_map_iff. exists x. split; [exact Ex|]. apply filter_In. auto.
      + apply in_map_iff. exists (snd p). split; [symmetry; apply surjective_pairing|]. apply in_map_iff. exists y. split; [exact Ey|]. apply filter_In. rewrite By. auto.
  Qed.
  Lemma any_row x : In x d -> nth_error d (a_lbl x) = Some x.
  Proof.
    intro H. apply In_nth_error in H. destruct H as (i & H). pose proof (map_nth_error a_lbl _ _ H) as H2. rewrite Hl in H2.
    assert (L : (i < length d)%nat) by (apply nth_error_Some; congruence).
    rewrite (nth_error_nth' _ 0%nat) in H2 by (rewrite seq_length; exact L). rewrite seq_nth in H2 by exact L.
    simpl in H2. injection H2 as <-. exact H.
  Qed.
  Lemma any_same x y : In x d -> In y d -> a_lbl x = a_lbl y -> x = y.
  Proof. intros Hx Hy E. apply any_row in Hx, Hy. congruence. Qed.
  Lemma any_len x : In x d -> (a_lbl x < length d)%nat.
  Proof. intro H. apply any_row in H. apply nth_error_Some. congruence. Qed.
  Lemma price_at x : In x d -> nth_error prices (a_lbl x) = Some (a_price x).
  Proof. intro H. unfold prices. apply map_nth_error, any_row, H. Qed.

  (** ** Quantities as a function of the label *)
  Definition at_ (q : list Q) (i : nat) : Q := nth i q (o_none o).
  Lemma at_labels q : length q = length d -> map (at_ q) (map a_lbl d) = q.
  Proof.
    intro L. rewrite Hl. apply (nth_ext _ _ (o_none o) (o_none o)); [rewrite map_length, seq_length; lia|].
    intros i Hi. rewrite map_length, seq_length in Hi.
    rewrite (nth_indep _ (o_none o) (at_ q 0%nat)) by (rewrite map_length, seq_length; exact Hi).
    rewrite map_nth, seq_nth by exact Hi. reflexivity.
  Qed.

  (** ** Trading the pairs of a round *)
  Lemma deals_ext q L T q' : deals o d q L T q' -> forall q2, (forall i, q2 i = q i) -> deals o d q2 L T q'.
  Proof.
    induction 1 as [q q' E | q x y L T q1 q' Hx Hy Hle E H IH | q x y L T q' Hx Hy Hle H IH]; intros q2 E2.
    - apply d_end. intro i. rewrite E, E2. reflexivity.
    - rewrite <- !E2. apply d_deal; auto. intro i. rewrite E, !E2. reflexivity.
    - apply d_pass; auto.
  Qed.
  Lemma deals_det q L T q' : deals o d q L T q' -> forall T2 q2', deals o d q L T2 q2' -> T2 = T /\ forall i, q2' i = q' i.
  Proof.
    induction 1 as [q q' E | q x y L T q1 q' Hx Hy Hle E H IH | q x y L T q' Hx Hy Hle H IH]; intros T2 q2' H2.
    - inversion H2; subst. split; [reflexivity|]. intro i. congruence.
    - inversion H2 as [|a x2 y2 b c q12 e Hx2 Hy2 Hle2 E2 H2'|a x2 y2 b c e Hx2 Hy2 Hle2 H2']; subst.
      + assert (x2 = x) by (apply any_same; assumption). assert (y2 = y) by (apply any_same; assumption). subst x2 y2.
        assert (Eq : forall i, q1 i = q12 i) by (intro i; rewrite E, E2; reflexivity).
        destruct (IH _ _ (deals_ext _ _ _ _ H2' q1 Eq)) as [-> E3]. split; [|exact E3]. rewrite !Eq. reflexivity.
      + assert (x2 = x) by (apply any_same; assumption). assert (y2 = y) by (apply any_same; assumption). congruence.
    - inversion H2 as [|a x2 y2 b c q12 e Hx2 Hy2 Hle2 E2 H2'|a x2 y2 b c e Hx2 Hy2 Hle2 H2']; subst.
      + assert (x2 = x) by (apply any_same; assumption). assert (y2 = y) by (apply any_same; assumption). congruence.
      + destruct (IH _ _ H2') as [-> E3]. auto.
  Qed.
  Lemma trade_deals L : (forall p, In p L -> In p ps) -> forall q tm, length q = length d ->
    exists q' T, fold_left (a_trade o prices) L (q, tm) = (q', tm ++ T) /\ length q' = length d /\ deals o d (at_ q) L T (at_ q').
  Proof.
    induction L as [|[b s] L IH]; intros HL q tm Lq.
    - exists q, []. rewrite app_nil_r. repeat split; auto. apply d_end. reflexivity.
    - assert (Hp : In (b, s) ps) by (apply HL; left; reflexivity). pose proof (any_good _ Hp) as (N & Lb & Ls). cbn [fst snd] in N, Lb, Ls.
      apply any_pair_iff in Hp. destruct Hp as [(x & Hx & Bx & Ex) (y & Hy & By & Ey)]. cbn [fst snd] in Ex, Ey. subst b s.
      assert (HL' : forall p, In p L -> In p ps) by (intros p Hp; apply HL; right; exact Hp).
      cbn [fold_left]. unfold a_trade at 2. rewrite !price_at by assumption.
      destruct (o_le o (a_price y) (a_price x)) eqn:Ele.
      + fold (at_ q (a_lbl x)) (at_ q (a_lbl y)).
        set (m := o_min o (at_ q (a_lbl x)) (at_ q (a_lbl y))).
        set (q1 := set_nth (a_lbl x) (o_sub o (at_ q (a_lbl x)) m) q).
        set (q2 := set_nth (a_lbl y) (o_sub o (nth (a_lbl y) q1 (o_none o)) m) q1).
        assert (G1 : forall i, nth i q1 (o_none o) = if Nat.eqb (a_lbl x) i then o_sub o (at_ q (a_lbl x)) m else at_ q i).
        { intro i. unfold q1. apply nth_set_nth. rewrite Lq. exact Lb. }
        assert (G2 : forall i, at_ q2 i = if Nat.eqb i (a_lbl x) || Nat.eqb i (a_lbl y) then o_sub o (at_ q i) m else at_ q i).
        { intro i. unfold at_ at 1, q2. rewrite nth_set_nth by (unfold q1; rewrite set_nth_len, Lq; exact Ls). rewrite !G1.
          replace (Nat.eqb (a_lbl x) (a_lbl y)) with false by (symmetry; apply Nat.eqb_neq; exact N).
          rewrite (Nat.eqb_sym i (a_lbl x)), (Nat.eqb_sym i (a_lbl y)).
          destruct (Nat.eqb (a_lbl y) i) eqn:E1, (Nat.eqb (a_lbl x) i) eqn:E2; simpl; auto.
          - apply Nat.eqb_eq in E1. congruence.
          - apply Nat.eqb_eq in E1. congruence.
          - apply Nat.eqb_eq in E2. congruence. }
        destruct (IH HL' q2 (tm ++ [mkATrans (a_lbl x) m (o_mix o (a_price x) (a_price y)) (Z.of_nat (a_lbl y)) (o_pos o (o_sub o (at_ q (a_lbl x)) m));
           mkATrans (a_lbl y) m (o_mix o (a_price x) (a_price y)) (Z.of_nat (a_lbl x)) (o_pos o (o_sub o (at_ q (a_lbl y)) m))])) as (q' & T & E & L' & D).
        { unfold q2, q1. rewrite !set_nth_len. exact Lq. }
        rewrite <- app_assoc in E. exists q'. eexists. split; [exact E|]. split; [exact L'|].
        replace (o_sub o (at_ q (a_lbl x)) m) with (at_ q2 (a_lbl x)) by (rewrite G2, Nat.eqb_refl; reflexivity).
        replace (o_sub o (at_ q (a_lbl y)) m) with (at_ q2 (a_lbl y)) by (rewrite G2, Nat.eqb_refl, orb_true_r; reflexivity).
        apply d_deal; auto.
      + destruct (IH HL' q (tm ++ [mkATrans (a_lbl x) (o_none o) (o_free o) (Z.of_nat (a_lbl y)) true; mkATrans (a_lbl y) (o_none o) (o_free o) (Z.of_nat (a_lbl x)) true]) Lq) as (q' & T & E & L' & D).
        rewrite <- app_assoc in E. exists q'. eexists. split; [exact E|]. split; [exact L'|]. apply d_pass; auto.
  Qed.

  (** ** The pairs that may meet *)
  Lemma a_next_get q active i p : length active = length ps -> nth_error ps i = Some p ->
    bget (a_next o d ps q active) i = bget active i && negb (o_is0 o (at_ q (fst p))) && negb (o_is0 o (at_ q (snd p))).
  Proof.
    intros La Hp. unfold a_next.
    assert (F : forall l a, length a = length ps ->
      bget (fold_left (fun a i => mask_and a (pairs_row ps i)) l a) i = bget a i && forallb (fun b => negb (involves b p)) l).
    { induction l as [|b l IH]; intros a Ha; simpl; [rewrite andb_true_r; auto|].
      rewrite (IH (mask_and a (pairs_row ps b))); [|rewrite mask_and_len; rewrite ?pairs_row_len; auto].
      rewrite bget_mask by (rewrite pairs_row_len; exact Ha).
      rewrite (bget_row ps b i p Hp). unfold involves. rewrite andb_assoc. reflexivity. }
    match goal with |- context [fold_left _ ?l active] => set (inact := l) end.
    rewrite (F inact active La), <- andb_assoc. f_equal.
    pose proof (nth_error_In _ _ Hp) as Hin. apply any_pair_iff in Hin.
    destruct Hin as [(x & Hx & Bx & Ex) (y & Hy & By & Ey)].
    assert (InB : forall z, In z inact <-> o_is0 o (at_ q z) = true /\ exists w, In w d /\ a_lbl w = z).
    { intro z. unfold inact, a_buyers, a_sellers. rewrite in_app_iff, !filter_In, !in_map_iff. split.
      - intros [[(w & E & Hw) Hz]|[(w & E & Hw) Hz]]; (split; [exact Hz|]); exists w; apply filter_In in Hw; tauto.
      - intros [Hz (w & Hw & E)]. destruct (a_buying w) eqn:Ew; [left | right]; (split; [|exact Hz]); exists w; (split; [exact E|]);
        apply filter_In; rewrite Ew; auto. }
    destruct (o_is0 o (at_ q (fst p))) eqn:Qb; simpl.
    - apply not_true_iff_false. intro Fb. rewrite forallb_forall in Fb. specialize (Fb (fst p)).
      rewrite InB in Fb. specialize (Fb (conj Qb (ex_intro _ x (conj Hx Ex)))). unfold involves in Fb.
      rewrite Nat.eqb_refl in Fb. discriminate.
    - destruct (o_is0 o (at_ q (snd p))) eqn:Qs; simpl.
      + apply not_true_iff_false. intro Fb. rewrite forallb_forall in Fb. specialize (Fb (snd p)).
        rewrite InB in Fb. specialize (Fb (conj Qs (ex_intro _ y (conj Hy Ey)))). unfold involves in Fb.
        rewrite Nat.eqb_refl, orb_true_r in Fb. discriminate.
      + apply forallb_forall. intros z Hz. apply InB in Hz. destruct Hz as [Hz _]. unfold involves.
        destruct (Nat.eqb (fst p) z) eqn:E1; [apply Nat.eqb_eq in E1; congruence|].
        destruct (Nat.eqb (snd p) z) eqn:E2; [apply Nat.eqb_eq in E2; congruence|]. reflexivity.
  Qed.
  Lemma a_next_len q active : length active = length ps -> length (a_next o d ps q active) = length ps.
  Proof.
    unfold a_next. generalize (filter (fun b => o_is0 o (nth b q (o_none o))) (a_buyers d) ++ filter (fun s => o_is0 o (nth s q (o_none o))) (a_sellers d)).
    intro l. revert active. induction l as [|x l IHl]; intros a H; simpl; [exact H|]. apply IHl. rewrite mask_and_len; rewrite ?pairs_row_len; auto.
  Qed.

  Definition masks (first : bool) (met : list (nat * nat)) (q : nat -> Q) (active tmp : list bool) : Prop :=
    length active = length ps /\ length tmp = length ps /\
    forall i p, nth_error ps i = Some p -> (bget active i = true <-> ~ In p met) /\ (bget tmp i = true <-> may_meet o d first met q p).

  Lemma masks_init q : masks true [] q (repeat true (length ps)) (repeat true (length ps)).
  Proof.
    split; [apply repeat_length|]. split; [apply repeat_length|]. intros i p Hi.
    assert (Gt : bget (repeat true (length ps)) i = true).
    { assert (L : (i < length ps)%nat) by (apply nth_error_Some; congruence). unfold bget.
      assert (I : In (nth i (repeat true (length ps)) false) (repeat true (length ps))) by (apply nth_In; rewrite repeat_length; exact L).
      apply repeat_spec in I. exact I. }
    rewrite Gt. split; [simpl; tauto|]. split; [|reflexivity]. intros _. apply nth_error_In, any_pair_iff in Hi. unfold may_meet.
    destruct Hi as [H1 H2]. split; [exact H1|]. split; [exact H2|]. split; [simpl; tauto|]. discriminate.
  Qed.
  Lemma masks_next first met q q1 active tmp active' L : masks first met q active tmp -> length active' = length ps ->
    (forall i p, nth_error ps i = Some p -> (bget active' i = true <-> bget active i = true /\ ~ In p L)) ->
    masks false (met ++ L) (at_ q1) active' (a_next o d ps q1 active').
  Proof.
    intros (La & Lt & M) La' A. split; [exact La'|]. split; [apply a_next_len, La'|]. intros i p Hi. destruct (M i p Hi) as [M1 _].
    assert (E : bget active' i = true <-> ~ In p (met ++ L)) by (rewrite (A i p Hi), M1, in_app_iff; tauto).
    split; [exact E|]. rewrite (a_next_get q1 active' i p La' Hi), !andb_true_iff, !negb_true_iff, E. unfold may_meet.
    apply nth_error_In, any_pair_iff in Hi. destruct Hi as [H1 H2]. split.
    - intros [[Z1 Z2] Z3]. split; [exact H1|]. split; [exact H2|]. split; [exact Z1|]. auto.
    - intros (_ & _ & Z1 & Z2). destruct (Z2 eq_refl). auto.
  Qed.
  Lemma masks_some first met q active tmp : masks first met q active tmp -> (existsb (fun b => b) tmp = true <-> exists p, may_meet o d first met q p).
  Proof.
    intros (La & Lt & M). rewrite existsb_bget. split.
    - intros (i & Hi). assert (L : (i < length ps)%nat) by (rewrite <- Lt; apply bget_len, Hi).
      destruct (nth_error ps i) as [p|] eqn:Ep; [|apply nth_error_None in Ep; lia]. exists p. apply (M i p Ep), Hi.
    - intros (p & Hp). assert (I : In p ps) by (apply any_pair_iff; destruct Hp as (H1 & H2 & _); auto).
      apply In_nth_error in I. destruct I as (i & Hi). exists i. apply (M i p Hi), Hp.
  Qed.
  Lemma may_pair first met q p : may_meet o d first met q p -> In p ps.
  Proof. intros (H1 & H2 & _). apply any_pair_iff. auto. Qed.
  Lemma share_involves p p' : In p ps -> In p' ps -> (involves (fst p') p = true \/ involves (snd p') p = true <-> share p p').
  Proof.
    intros Hp Hp'. unfold involves, share. rewrite !orb_true_iff, !Nat.eqb_eq. split; [|intuition].
    apply any_pair_iff in Hp, Hp'. destruct Hp as [(x & Hx & Bx & Ex) (y & Hy & By & Ey)]. destruct Hp' as [(x' & Hx' & Bx' & Ex') (y' & Hy' & By' & Ey')].
    intros [[E|E]|[E|E]]; auto; exfalso.
    - assert (y = x') by (apply any_same; congruence). congruence.
    - assert (x = y') by (apply any_same; congruence). congruence.
  Qed.

  (** ** The loop *)
  Lemma loop_any r fuel : forall k active tmp q tm gtl first met,
    masks first met (at_ q) active tmp -> length q = length d -> (cnt active <= fuel)%nat ->
    exists g T q', a_loop o fuel d ps prices r k active tmp q tm gtl = Ok (tm ++ T, gtl ++ g) /\ length q' = length d /\
      rounds o d first met (at_ q) g T (at_ q').
  Proof.
    induction fuel as [|fuel IH]; intros k active tmp q tm gtl first met M Lq Hc.
    - assert (N : existsb (fun b => b) tmp = false).
      { apply not_true_iff_false. intro H. pose proof H as H0. apply existsb_bget in H. destruct H as (i & Hi). destruct M as (La & Lt & M).
        assert (L : (i < length ps)%nat) by (rewrite <- Lt; apply bget_len, Hi).
        destruct (nth_error ps i) as [p|] eqn:Ep; [|apply nth_error_None in Ep; lia].
        destruct (M i p Ep) as [M1 M2]. assert (Hai : bget active i = true) by (apply M1; apply M2 in Hi; apply Hi).
        assert (In true (filter (fun b => b) active)).
        { apply filter_In. split; [|reflexivity]. rewrite <- Hai. apply nth_In, bget_len, Hai. }
        unfold cnt in Hc. destruct (filter (fun b => b) active); [contradiction | simpl in Hc; lia]. }
      cbn [a_loop]. rewrite N, andb_false_r. exists [], [], q. rewrite !app_nil_r. repeat split; auto. apply r_end; [|reflexivity].
      right. intros p Hp. apply not_true_iff_false in N. apply N, (masks_some _ _ _ _ _ M). eauto.
    - cbn [a_loop]. destruct (o_more o q) eqn:Em; cbn [andb].
      2:{ exists [], [], q. rewrite !app_nil_r. repeat split; auto. apply r_end; [|reflexivity]. left. rewrite at_labels by exact Lq. exact Em. }
      destruct (existsb (fun b => b) tmp) eqn:Ex.
      2:{ exists [], [], q. rewrite !app_nil_r. repeat split; auto. apply r_end; [|reflexivity].
          right. intros p Hp. apply not_true_iff_false in Ex. apply Ex, (masks_some _ _ _ _ _ M). eauto. }
      pose proof M as (La & Lt & M0).
      destruct (pick_round_spec ps any_NoDup any_ne r (length ps) k active tmp [] La Lt) as
        (L & active' & k' & Ek & A1 & A2 & A3 & A4 & A5 & A6).
      { rewrite <- Lt. apply cnt_le. }
      simpl app in Ek. rewrite Ek. cbn [bind].
      assert (LP : forall p, In p L -> may_meet o d first met (at_ q) p).
      { intros p Hp. destruct (A2 p Hp) as (x & Hx & Hxt). apply (M0 x p Hx), Hxt. }
      destruct (trade_deals L (fun p Hp => may_pair _ _ _ _ (LP p Hp)) q tm Lq) as (q1 & T & Ef & Lq1 & D). rewrite Ef.
      assert (NE : L <> []) by (apply A5, existsb_bget, Ex).
      assert (M' : masks false (met ++ L) (at_ q1) active' (a_next o d ps q1 active')) by (eapply masks_next; eauto).
      destruct (IH k' active' (a_next o d ps q1 active') q1 (tm ++ T) (gtl ++ [L]) false (met ++ L) M' Lq1) as (g & T' & q' & El & Lq' & R).
      { destruct L as [|p0 L0]; [congruence|].
        destruct (A2 p0 (or_introl eq_refl)) as (x & Hx & Hxt).
        assert (Hxa : bget active x = true) by (apply (M0 x p0 Hx); apply (M0 x p0 Hx) in Hxt; apply Hxt).
        assert (Sub : forall i, bget active' i = true -> bget active i = true).
        { intros i Hi. assert (Ln : (i < length ps)%nat) by (rewrite <- A1; apply bget_len, Hi).
          destruct (nth_error ps i) as [p|] eqn:Ep; [|apply nth_error_None in Ep; lia]. apply (A4 i p Ep) in Hi. tauto. }
        assert (Hxf : bget active' x = false).
        { apply not_true_iff_false. intro H. apply (A4 x p0 Hx) in H. destruct H as [_ H]. apply H. left; reflexivity. }
        pose proof (cnt_lt active active' x ltac:(lia) Sub Hxa Hxf). lia. }
      exists (L :: g), (T ++ T'), q'. rewrite El, <- !app_assoc. split; [reflexivity|]. split; [exact Lq'|].
      apply (r_round o d first met (at_ q) L T (at_ q1)); [|exact NE | exact LP | exact A3 | | exact D | exact R].
      + rewrite at_labels by exact Lq. exact Em.
      + intros p Hp. assert (I : In p ps) by (eapply may_pair; eauto). pose proof I as I2. apply In_nth_error in I. destruct I as (i & Hi).
        destruct (A6 i p Hi) as (p' & Hp' & H); [apply (M0 i p Hi), Hp|]. exists p'. split; [exact Hp'|].
        apply share_involves; [exact I2 | eapply may_pair; eauto | exact H].
  Qed.

  Theorem any_run r : exists T g q', a_run o d r = Ok (T, g) /\ rounds o d true [] (at_ (map a_qty d)) g T q'.
  Proof.
    unfold a_run. fold ps prices.
    assert (Fb : forallb (fun p => Nat.ltb (fst p) (length d) && Nat.ltb (snd p) (length d)) ps = true).
    { apply forallb_forall. intros p Hp. destruct (any_good p Hp) as (_ & L1 & L2). apply andb_true_iff. split; apply Nat.ltb_lt; assumption. }
    rewrite Fb. destruct (loop_any r (length ps) 0 _ _ (map a_qty d) [] [] true [] (masks_init _)) as (g & T & q' & E & _ & R).
    - apply map_length.
    - etransitivity; [apply cnt_le|]. rewrite repeat_length. lia.
    - exists T, g, (at_ q'). auto.
  Qed.

  (** ** Every run of the specification is a result *)
  Lemma rounds_ext first met q g T q' : rounds o d first met q g T q' -> forall q2, (forall i, q2 i = q i) -> rounds o d first met q2 g T q'.
  Proof.
    assert (Me : forall first met q q2 p, (forall i, q2 i = q i) -> may_meet o d first met q2 p -> may_meet o d first met q p).
    { intros f m a b p E (H1 & H2 & H3 & H4). unfold may_meet. rewrite <- !E. auto. }
    intros H q2 E. destruct H as [first met q q' C E' | first met q L T q1 g T' q' C NE HL ND HM D R].
    - apply r_end; [|intro i; congruence]. rewrite (map_ext _ _ E). destruct C as [C|C]; [left; exact C|]. right. intros p Hp. apply (C p). eapply Me; eauto.
    - apply (r_round o d first met q2 L T q1); [|exact NE| |exact ND| | |exact R].
      + rewrite (map_ext _ _ E). exact C.
      + intros p Hp. eapply Me; [|apply HL, Hp]. intro i; symmetry; apply E.
      + intros p Hp. apply HM. eapply Me; eauto.
      + eapply deals_ext; eauto.
  Qed.
  Lemma loop_any_reach first met f g T f' : rounds o d first met f g T f' ->
    forall q active tmp, (forall i, at_ q i = f i) -> masks first met (at_ q) active tmp -> length q = length d ->
    exists ds, forall r k, (forall i, (i < length ds)%nat -> r (k + i)%nat = nth i ds 0%nat) ->
      forall fuel tm gtl, (cnt active <= fuel)%nat -> a_loop o fuel d ps prices r k active tmp q tm gtl = Ok (tm ++ T, gtl ++ g).
  Proof.
    intro H. induction H as [first met f f' C E' | first met f L T f1 g T' f' C NE HL ND HM D R IH]; intros q active tmp Ef M Lq.
    - exists []. intros r k _ fuel tm gtl Hc.
      assert (N : o_more o q && existsb (fun b => b) tmp = false).
      { destruct C as [C|C].
        - rewrite <- (map_ext _ _ Ef), at_labels in C by exact Lq. rewrite C. reflexivity.
        - apply andb_false_iff. right. apply not_true_iff_false. intro H. apply (masks_some _ _ _ _ _ M) in H. destruct H as (p & Hp).
          apply (C p). unfold may_meet in *. rewrite <- !Ef. exact Hp. }
      destruct fuel; cbn [a_loop]; rewrite N, !app_nil_r; reflexivity.
    - pose proof M as (La & Lt & M0).
      assert (Me : forall p, may_meet o d first met (at_ q) p <-> may_meet o d first met f p) by (intro p; unfold may_meet; rewrite !Ef; reflexivity).
      destruct (pick_reach ps L (length ps) active tmp []) as (ds1 & Ld1 & Hds1); try assumption.
      { rewrite <- Lt. apply cnt_le. }
      { intros p Hp. assert (I : In p ps) by (eapply may_pair; apply HL, Hp). apply In_nth_error in I. destruct I as (i & Hi). exists i. split; [exact Hi|].
        apply (M0 i p Hi), Me, HL, Hp. }
      { intros i p Hi Ht. apply (M0 i p Hi), Me, HM in Ht. destruct Ht as (p' & Hp' & Sh). exists p'. split; [exact Hp'|].
        apply share_involves; [eapply nth_error_In; eauto | eapply may_pair; apply HL, Hp' | exact Sh]. }
      destruct (Hds1 (fun i => nth i ds1 0%nat) 0%nat) as (active1 & E1); [reflexivity|].
      assert (Act : forall r k active', pick_round (length ps) ps r k active tmp [] = Ok ([] ++ L, active', (k + length ds1)%nat) ->
        length active' = length ps /\ (forall i p, nth_error ps i = Some p -> (bget active' i = true <-> bget active i = true /\ ~ In p L))).
      { intros r k active' E.
        destruct (pick_round_spec ps any_NoDup any_ne r (length ps) k active tmp []) as (T2 & act2 & k2 & Ep & B1 & _ & _ & B4 & _).
        { exact La. } { exact Lt. } { rewrite <- Lt. apply cnt_le. }
        rewrite E in Ep. simpl app in Ep. assert (T2 = L) by congruence. assert (act2 = active') by congruence. subst. auto. }
      destruct (Act _ _ _ E1) as [L1 B1].
      destruct (trade_deals L (fun p Hp => may_pair _ _ _ _ (HL p Hp)) q [] Lq) as (q1 & T1 & Et1 & Lq1 & D1).
      destruct (deals_det _ _ _ _ (deals_ext _ _ _ _ D (at_ q) Ef) _ _ D1) as [-> Ef1].
      pose proof (masks_next first met (at_ q) q1 active tmp active1 L M L1 B1) as M1.
      destruct (IH q1 active1 _ Ef1 M1 Lq1) as (ds2 & Hds2).
      exists (ds1 ++ ds2). intros r k Hr fuel tm gtl Hc.
      destruct (Hds1 r k) as (active' & E').
      { intros i Hi. rewrite Hr by (rewrite app_length; lia). rewrite app_nth1 by exact Hi. reflexivity. }
      assert (active' = active1) as ->.
      { destruct (Act _ _ _ E') as [L2 B2]. apply (nth_ext _ _ false false); [congruence|]. intros i Hi.
        change (bget active' i = bget active1 i).
        destruct (nth_error ps i) as [p|] eqn:Ep; [|apply nth_error_None in Ep; lia].
        apply eq_true_iff_eq. rewrite (B1 i p Ep), (B2 i p Ep). tauto. }
      assert (Go : o_more o q && existsb (fun b => b) tmp = true).
      { apply andb_true_iff. split; [rewrite <- (map_ext _ _ Ef), at_labels in C by exact Lq; exact C|]. apply (masks_some _ _ _ _ _ M).
        destruct L as [|p L0]; [congruence|]. exists p. apply Me, HL. left; reflexivity. }
      assert (Hc1 : (cnt active1 < cnt active)%nat).
      { destruct L as [|p0 L0]; [congruence|].
        assert (I : In p0 ps) by (eapply may_pair; apply HL; left; reflexivity). apply In_nth_error in I. destruct I as (x & Hx).
        assert (Hxa : bget active x = true) by (apply (M0 x p0 Hx); destruct (HL p0 (or_introl eq_refl)) as (_ & _ & Z & _); exact Z).
        apply (cnt_lt active active1 x); [lia | | exact Hxa |].
        - intros i Hi. assert (Ln : (i < length ps)%nat) by (rewrite <- L1; apply bget_len, Hi).
          destruct (nth_error ps i) as [p|] eqn:Ep; [|apply nth_error_None in Ep; lia]. apply (B1 i p Ep) in Hi. tauto.
        - apply not_true_iff_false. intro H. apply (B1 x p0 Hx) in H. destruct H as [_ H]. apply H. left; reflexivity. }
      destruct fuel as [|fuel]; [lia|]. cbn [a_loop]. rewrite Go, E'. cbn [bind]. simpl app.
      assert (Et : fold_left (a_trade o prices) L (q, tm) = (q1, tm ++ T)).
      { destruct (trade_deals L (fun p Hp => may_pair _ _ _ _ (HL p Hp)) q tm Lq) as (q2 & T2 & Et2 & Lq2 & D2).
        destruct (deals_det _ _ _ _ D1 _ _ D2) as [-> Ef2]. rewrite Et2. f_equal.
        rewrite <- (at_labels q2 Lq2), <- (at_labels q1 Lq1). apply map_ext, Ef2. }
      rewrite Et, (Hds2 r (k + length ds1)%nat) by (try lia; intros i Hi; rewrite <- Nat.add_assoc, Hr by (rewrite app_length; lia); rewrite app_nth2 by lia; f_equal; lia).
      rewrite <- !app_assoc. reflexivity.
  Qed.
  Theorem any_reach g T q' : rounds o d true [] (at_ (map a_qty d)) g T q' -> exists r, a_run o d r = Ok (T, g).
  Proof.
    intro H. destruct (loop_any_reach _ _ _ _ _ _ H (map a_qty d) _ _ (fun i => eq_refl) (masks_init _)) as (ds & Hds); [apply map_length|].
    exists (fun i => nth i ds 0%nat). unfold a_run. fold ps prices.
    assert (Fb : forallb (fun p => Nat.ltb (fst p) (length d) && Nat.ltb (snd p) (length d)) ps = true).
    { apply forallb_forall. intros p Hp. destruct (any_good p Hp) as (_ & L1 & L2). apply andb_true_iff. split; apply Nat.ltb_lt; assumption. }
    rewrite Fb. apply Hds; [reflexivity|]. etransitivity; [apply cnt_le|]. rewrite repeat_length. lia.
  Qed.
End AnyRun.
