(** Facts about [Market.run("huang")]: merge, clear, split. *)
From Verif Require Import QcTac Num ModelBase ModelCurves ModelHuang ModelMerge ModelMarket ListFacts StoreFacts
  Spec SpecTrade SpecMerge UpdateFacts TradeFacts HuangFacts MergeFacts.

(** outcome of clearing the merged table *)
Lemma huang_strict S d tm ex : qty_nonneg d -> price_nonneg d -> labels_unique d -> prices_distinct d ->
  mech_run0 (huang_auction S) d = Ok (tm, ex) ->
  bought d (tm_trans tm) = sold d (tm_trans tm) /\ once (tm_trans tm) /\ refer d (tm_trans tm) /\
  feasible d (tm_trans tm) /\
  (tm_trans tm = [] \/ exists ps pb q rs rb, ex = XHuang ps pb q /\ q = bought d (tm_trans tm) /\ ps < pb /\
     In rs d /\ ps = price rs /\ In rb d /\ pb = price rb /\
     forall t r, In t (tm_trans tm) -> In r d -> lbl r = t_bid t ->
       if buying r then t_price t = pb /\ pb < price r else t_price t = ps /\ price r < ps).
Proof.
  intros Hq Hp Hu Hd. unfold mech_run0.
  destruct (Nat.eqb _ 0 || Nat.eqb _ _).
  - intro E. injection E as <- <-. destruct (empty_ok d Hq) as (A & B & C & D & _).
    repeat split; auto; try apply D.
  - intro E. destruct (huang_summary S d Hq Hp Hu tm ex E) as (A1 & A2 & A3 & A4 & A5 & _ & A6 & A7).
    split; [exact A1|]. split; [exact A2|]. split; [exact A3|]. split; [exact A4|].
    destruct (tm_trans tm) as [|t0 tl] eqn:Et; [left; reflexivity|]. right. rewrite <- Et in *.
    destruct A6 as (ps & pb & q & -> & Eq); [rewrite Et; discriminate|].
    destruct (A7 ps pb q eq_refl) as [Lp Pr].
    destruct (huang_traders S d Hq Hp Hu tm ps pb q Hd E) as ((rb & B1 & B2 & B3 & _) & (rs & C1 & C2 & C3 & _) & D1 & D2).
    cbv zeta in D1, D2.
    set (bb := filter (fun r => buying r && qltb pb (price r)) d) in *.
    set (bs := filter (fun r => negb (buying r) && qltb (price r) ps) d) in *.
    assert (Nb : bb <> []) by (intro Z; rewrite D1 in Et by auto; discriminate).
    assert (Ns : bs <> []) by (intro Z; rewrite D1 in Et by auto; discriminate).
    destruct (D2 Nb Ns) as [D3 _].
    exists ps, pb, q, rs, rb. repeat (split; [solve [auto]|]).
    intros t r Ht Hr El. specialize (Pr t r Ht Hr El).
    assert (I : In r bb \/ In r bs) by (apply D3; [exact Hr | rewrite El; apply in_map, Ht]).
    destruct I as [I|I]; apply filter_In in I; destruct I as [_ I]; apply andb_true_iff in I; destruct I as [I1 I2].
    + rewrite I1 in *. apply qltb_lt in I2. auto.
    + apply negb_true_iff in I1. rewrite I1 in *. apply qltb_lt in I2. auto.
Qed.

Section Compose.
  Variables (d : df) (prec : Z) (c0 c2 : Z) (mb ms : list (row * list nat)) (tl : list trans) (ls : list (list trans)).
  Let md := map fst (mb ++ ms).
  Let mp := map snd (mb ++ ms).
  Hypothesis M : merge_ok prec d c0 mb ms c2.
  Hypothesis Hu : labels_unique d.
  Hypothesis Hq : qty_pos d.
  Hypothesis Href : refer md tl.
  Hypothesis Hls : Forall2 (fun t l => exists rows, nth_error mp (t_bid t) = Some rows /\ Split d rows t l) tl ls.

  Lemma group_pos r : In r md -> 0 < qty r /\ forall x, In x (group_of prec d r) -> In x d /\ buying x = buying r /\ qty x <= qty r.
  Proof.
    intro Hr. destruct (merged_row _ _ _ _ _ _ M r Hr) as (rows & E1 & E2).
    destruct (merged_nth _ _ _ _ _ _ M _ _ _ E2 E1) as (_ & N & Eq & _).
    assert (P : forall x, In x (group_of prec d r) -> 0 <= qty x).
    { intros x Hx. apply filter_In in Hx. apply Qclt_le_weak, Hq. tauto. }
    assert (L : forall x, In x (group_of prec d r) -> In x d /\ buying x = buying r /\ qty x <= qty r).
    { intros x Hx. pose proof (qsumf_in_le qty _ x P Hx). rewrite <- Eq in H.
      apply filter_In in Hx. destruct Hx as [H1 H2]. apply andb_true_iff in H2. destruct H2 as [H2 _].
      apply eqb_prop in H2. auto. }
    split; [|exact L]. destruct (group_of prec d r) as [|x g]; [congruence|].
    destruct (L x (or_introl eq_refl)) as (H1 & _ & H2). specialize (Hq x H1). qlra.
  Qed.

  (** one merged transaction and its parts *)
  Lemma part t l : In t tl -> (exists rows, nth_error mp (t_bid t) = Some rows /\ Split d rows t l) ->
    exists r, In r md /\ lbl r = t_bid t /\ qsumf t_qty l = t_qty t /\
      l = map (fun x => mkTrans (lbl x) (t_qty t * (qty x / qty r)) (t_price t) (t_source t) (t_active t)) (group_of prec d r).
  Proof.
    intros Ht (rows & E & rs & H1 & H2 & H3 & H4). destruct (Href t Ht) as (r & Hr & El).
    destruct (merged_row _ _ _ _ _ _ M r Hr) as (rows' & E1 & E2). fold mp in E1. rewrite El, E in E1. injection E1 as <-.
    assert (E3 : nth_error (map snd (mb ++ ms)) (lbl r) = Some rows) by (rewrite El; exact E).
    destruct (merged_nth _ _ _ _ _ _ M _ _ _ E2 E3) as (_ & N & Eq & Er).
    assert (Hg : rs = group_of prec d r).
    { assert (G : forall l1 l2, (forall x, In x l1 -> In x d) -> (forall x, In x l2 -> In x d) -> map lbl l1 = map lbl l2 -> l1 = l2).
      { induction l1 as [|a l1 IH]; intros [|b l2] G1 G2 G3; try discriminate; [reflexivity|]. simpl in G3. injection G3 as G3 G4.
        f_equal; [apply (NoDup_map_in lbl d); auto; [apply G1 | apply G2]; left; reflexivity|].
        apply IH; auto; intros; [apply G1 | apply G2]; right; assumption. }
      apply G; [exact H2| |congruence]. intros x Hx. apply filter_In in Hx. tauto. }
    exists r. subst rs. rewrite Eq. auto.
  Qed.

  Lemma parts_in t' : In t' (concat ls) -> exists t r x, In t tl /\ In r md /\ lbl r = t_bid t /\ In x (group_of prec d r) /\
    t' = mkTrans (lbl x) (t_qty t * (qty x / qty r)) (t_price t) (t_source t) (t_active t).
  Proof.
    intro H. apply in_concat in H. destruct H as (l & Hl & Ht').
    destruct (Forall2_in_r _ _ _ _ Hls Hl) as (t & Ht & P). destruct (part t l Ht P) as (r & Hr & El & _ & ->).
    apply in_map_iff in Ht'. destruct Ht' as (x & <- & Hx). exists t, r, x. auto.
  Qed.

  Lemma parts_side s : qsumf t_qty (filter (on_side s d) (concat ls)) = qsumf t_qty (filter (on_side s md) tl).
  Proof.
    assert (P : forall t l, In t tl -> (exists rows, nth_error mp (t_bid t) = Some rows /\ Split d rows t l) ->
      qsumf t_qty (filter (on_side s d) l) = if on_side s md t then t_qty t else 0).
    { intros t l Ht P. destruct (part t l Ht P) as (r & Hr & El & Es & ->).
      rewrite (on_side_in s md t r (merged_labels _ _ _ _ _ _ M) Hr El).
      destruct (Bool.eqb (buying r) s) eqn:Eb.
      - rewrite filter_all; [exact Es|]. intros t' Ht'. apply in_map_iff in Ht'. destruct Ht' as (x & <- & Hx).
        destruct (group_pos r Hr) as [_ G]. destruct (G x Hx) as (Hx1 & Hx2 & _).
        rewrite (fun t => on_side_in s d t x Hu Hx1) by reflexivity. congruence.
      - rewrite filter_none; [reflexivity|]. intros t' Ht'. apply in_map_iff in Ht'. destruct Ht' as (x & <- & Hx).
        destruct (group_pos r Hr) as [_ G]. destruct (G x Hx) as (Hx1 & Hx2 & _).
        rewrite (fun t => on_side_in s d t x Hu Hx1) by reflexivity. congruence. }
    clear Href. induction Hls as [|t l tl' ls' Htl F IH]; [reflexivity|]. simpl.
    rewrite filter_app, qsumf_app. rewrite (P t l (or_introl eq_refl) Htl).
    rewrite IH by (auto; intros; apply P; auto; right; assumption).
    destruct (on_side s md t); [rewrite qsumf_cons; reflexivity | ring].
  Qed.

  Lemma group_disjoint r1 r2 x : In r1 md -> In r2 md -> In x (group_of prec d r1) -> In x (group_of prec d r2) -> r1 = r2.
  Proof.
    intros H1 H2 G1 G2. apply filter_In in G1, G2. destruct G1 as [_ G1]. destruct G2 as [_ G2].
    apply andb_true_iff in G1, G2. destruct G1 as [A1 B1]. destruct G2 as [A2 B2].
    apply eqb_prop in A1, A2. apply qeqb_eq in B1, B2.
    destruct (merged_distinct _ _ _ _ _ _ M) as [Db Ds]. fold md in Db, Ds.
    destruct (buying x) eqn:Bx.
    - apply (NoDup_map_in price _ _ _ Db); try (apply filter_In; split); auto. congruence.
    - apply (NoDup_map_in price _ _ _ Ds); try (apply filter_In; split); auto.
      + rewrite <- A1; reflexivity.
      + rewrite <- A2; reflexivity.
      + congruence.
  Qed.

  Lemma parts_once : once tl -> once (concat ls).
  Proof.
    unfold once. intro Ho.
    assert (Q : forall tl' ls', Forall2 (fun t l => exists rows, nth_error mp (t_bid t) = Some rows /\ Split d rows t l) tl' ls' ->
      (forall t, In t tl' -> In t tl) -> NoDup (map t_bid tl') -> NoDup (map t_bid (concat ls')) /\
      (forall i, In i (map t_bid (concat ls')) -> exists t r x, In t tl' /\ In r md /\ lbl r = t_bid t /\ In x (group_of prec d r) /\ i = lbl x)).
    { induction 1 as [|t l tl' ls' Htl F IH]; intros Hin Hn; [split; [constructor | contradiction]|].
      simpl in Hn. inversion_clear Hn as [|? ? Hn1 Hn2].
      destruct IH as [I1 I2]; [intros; apply Hin; right; assumption | exact Hn2|].
      destruct (part t l (Hin t (or_introl eq_refl)) Htl) as (r & Hr & El & _ & Ell).
      assert (Eb : map t_bid l = map lbl (group_of prec d r)) by (rewrite Ell, map_map; reflexivity).
      simpl. rewrite map_app, Eb. split.
      - apply NoDup_app.
        + apply NoDup_filter_map, Hu.
        + exact I1.
        + intros i Hi1 Hi2. apply in_map_iff in Hi1. destruct Hi1 as (x & <- & Hx).
          destruct (I2 _ Hi2) as (t2 & r2 & x2 & Ht2 & Hr2 & El2 & Hx2 & E2).
          assert (x = x2). { apply (NoDup_map_in lbl d); auto; [apply filter_In in Hx | apply filter_In in Hx2]; tauto. }
          subst x2. pose proof (group_disjoint r r2 x Hr Hr2 Hx Hx2). subst r2.
          apply Hn1. rewrite <- El, El2. apply in_map, Ht2.
      - intros i Hi. apply in_app_or in Hi. destruct Hi as [Hi|Hi].
        + apply in_map_iff in Hi. destruct Hi as (x & <- & Hx). exists t, r, x. simpl; auto 10.
        + destruct (I2 i Hi) as (t2 & r2 & x2 & ? & ? & ? & ? & ?). exists t2, r2, x2. simpl; auto 10. }
    apply (Q tl ls Hls); auto.
  Qed.

  Lemma parts_refer : refer d (concat ls).
  Proof.
    intros t' Ht'. destruct (parts_in t' Ht') as (t & r & x & _ & Hr & _ & Hx & ->). exists x.
    destruct (group_pos r Hr) as [_ G]. split; [apply G, Hx | reflexivity].
  Qed.
  Lemma parts_feasible : once tl -> feasible md tl -> feasible d (concat ls).
  Proof.
    intros Ho [Hf1 Hf2]. apply feasible_once; auto.
    - intros r Hr. apply Qclt_le_weak, Hq, Hr.
    - apply parts_once, Ho.
    - intros t' y Ht' Hy Ely. destruct (parts_in t' Ht') as (t & r & x & Ht & Hr & El & Hx & ->). simpl in *.
      destruct (group_pos r Hr) as [P G]. destruct (G x Hx) as (Hx1 & _ & Hx2).
      assert (y = x) by (apply (NoDup_map_in lbl d); auto). subst y.
      specialize (Hf1 t Ht). specialize (Hf2 r Hr). rewrite El, traded_by_once in Hf2 by assumption.
      pose proof (Hq x Hx1) as Px.
      assert (E : qty x / qty r * qty r = qty x) by (field; intro Z; rewrite Z in P; qlra).
      set (f := qty x / qty r) in *. assert (F0 : 0 <= f) by (clear - E P Px; qnra).
      split; [apply qmult_nonneg; assumption|]. clear - E F0 Hf1 Hf2. qnra.
    - apply parts_refer.
  Qed.
End Compose.

(** ** The look up of labels when there are only buyers *)
Lemma merged_run_ok f d x : merged_run f d = Ok x -> mech_run0 f d = Ok x.
Proof. unfold merged_run. destruct (lone_buyer d); [discriminate | auto]. Qed.
Lemma merged_run_run0 f d : lone_buyer d = false -> merged_run f d = mech_run0 f d.
Proof. unfold merged_run. intros ->. reflexivity. Qed.
Lemma lone_iff rnd (md d : df) : prices_distinct md ->
  (forall r, In r md -> exists x, In x d /\ buying x = buying r /\ price r = rnd (price x)) ->
  (forall x, In x d -> exists r, In r md /\ buying x = buying r /\ price r = rnd (price x)) ->
  lone_buyer md = true <-> lone_price rnd d.
Proof.
  intros [D _] Back Row. split.
  - destruct md as [|r [|s l]]; cbn [lone_buyer]; try discriminate. intro B.
    assert (K : forall x, In x d -> buying x = true /\ rnd (price x) = price r).
    { intros x Hx. destruct (Row x Hx) as (r' & [<-|[]] & E1 & E2). split; congruence. }
    split; [|split].
    + destruct (Back r (or_introl eq_refl)) as (x & Hx & _). intros ->. destruct Hx.
    + intros x Hx. apply K, Hx.
    + intros x y Hx Hy. destruct (K x Hx) as [_ ->]. destruct (K y Hy) as [_ ->]. reflexivity.
  - intros (Ne & B & P). destruct d as [|x0 d0]; [congruence|]. destruct (Row x0 (or_introl eq_refl)) as (r0 & Hr0 & _).
    assert (K : forall r, In r md -> buying r = true /\ price r = rnd (price x0)).
    { intros r Hr. destruct (Back r Hr) as (x & Hx & E1 & E2). split; [rewrite <- E1; apply B, Hx|]. rewrite E2. apply P; [exact Hx | left; reflexivity]. }
    unfold buyers in D. rewrite filter_all in D by (intros r Hr; apply K, Hr).
    destruct md as [|r [|s l]]; [destruct Hr0 | apply (K r (or_introl eq_refl))|]. exfalso.
    destruct (K r (or_introl eq_refl)) as [_ E1]. destruct (K s (or_intror (or_introl eq_refl))) as [_ E2].
    cbn [map] in D. rewrite E1, E2 in D. inversion D as [|? ? N _]. apply N. left. reflexivity.
Qed.
Lemma md_lone prec d c0 mb ms c2 : merge_ok prec d c0 mb ms c2 -> labels_unique d ->
  lone_buyer (map fst (mb ++ ms)) = true <-> lone_price (np_round prec) d.
Proof.
  intros M Hu. apply lone_iff; [exact (merged_distinct _ _ _ _ _ _ M) | exact (merged_price_round _ _ _ _ _ _ M)|].
  intros x Hx. pose proof (merged_partition _ _ _ _ _ _ M) as P.
  assert (I : In (lbl x) (concat (map snd (mb ++ ms)))) by (apply (Permutation_in _ (Permutation_sym P)), in_map, Hx).
  apply in_concat in I. destruct I as (rows & I1 & I2). apply In_nth_error in I1. destruct I1 as (i & I1).
  assert (Er : exists r, nth_error (map fst (mb ++ ms)) i = Some r).
  { destruct (nth_error (map fst (mb ++ ms)) i) eqn:E; [eauto|]. apply nth_error_None in E.
    assert (i < length (map snd (mb ++ ms)))%nat by (apply nth_error_Some; congruence). rewrite map_length in *. lia. }
  destruct Er as (r & Er). destruct (merged_nth _ _ _ _ _ _ M i r rows Er I1) as (_ & _ & _ & ->).
  apply in_map_iff in I2. destruct I2 as (y & Ey & Hy). exists r. split; [eapply nth_error_In; eauto|].
  apply filter_In in Hy. destruct Hy as [Hy1 Hy2]. assert (y = x) by (apply (NoDup_map_in lbl d); auto). subst y.
  apply andb_true_iff in Hy2. destruct Hy2 as [H1 H2]. apply eqb_prop in H1. apply qeqb_eq in H2. auto.
Qed.
(** decided *)
Lemma lone_dec rnd d : lone_price rnd d \/ ~ lone_price rnd d.
Proof.
  destruct d as [|x0 d0]; [right; intros [H _]; congruence|].
  destruct (forallb (fun r => buying r && qeqb (rnd (price r)) (rnd (price x0))) (x0 :: d0)) eqn:E.
  - left. rewrite forallb_forall in E.
    assert (K : forall r, In r (x0 :: d0) -> buying r = true /\ rnd (price r) = rnd (price x0)).
    { intros r Hr. specialize (E r Hr). apply andb_true_iff in E. destruct E as [E1 E2]. apply qeqb_eq in E2. auto. }
    split; [discriminate|]. split; [intros r Hr; apply K, Hr|]. intros r x Hr Hx. destruct (K r Hr) as [_ ->]. destruct (K x Hx) as [_ ->]. reflexivity.
  - right. intros (_ & B & P). rewrite (proj2 (forallb_forall _ _)) in E; [discriminate|].
    intros r Hr. rewrite (B r Hr). apply qeqb_eq, P; [exact Hr | left; reflexivity].
Qed.

Lemma lone_run f smp cnt d : labels_unique d -> lone_price (np_round 5) d -> mechanism (Some (smp, cnt)) f d = Err KeyError.
Proof.
  intros Hu L. unfold mechanism. destruct (merge_same_price_ok 5 smp d cnt) as (mb & ms & c2 & E & M). rewrite E. cbn [bind].
  unfold merged_run. rewrite (proj2 (md_lone _ _ _ _ _ _ M Hu) L). reflexivity.
Qed.
Lemma ok_not_lone f smp cnt d x : map lbl d = seq 0 (length d) -> mechanism (Some (smp, cnt)) f d = Ok x -> ~ lone_price (np_round 5) d.
Proof. intros Hl E L. rewrite lone_run in E; [discriminate | unfold labels_unique; rewrite Hl; apply seq_NoDup | exact L]. Qed.

Theorem huang_market S smp cnt d : map lbl d = seq 0 (length d) -> qty_pos d -> price_nonneg d -> ~ lone_price (np_round 5) d ->
  exists tm ex, mechanism (Some (smp, cnt)) (huang_auction S) d = Ok (tm, ex) /\
    bought d (tm_trans tm) = sold d (tm_trans tm) /\ once (tm_trans tm) /\ refer d (tm_trans tm) /\
    feasible d (tm_trans tm) /\
    (tm_trans tm = [] \/ exists ps pb q, ex = XHuang ps pb q /\ q = bought d (tm_trans tm) /\ ps < pb /\
      forall t r, In t (tm_trans tm) -> In r d -> lbl r = t_bid t ->
        if buying r then t_price t = pb /\ pb < price r else t_price t = ps /\ price r < ps).
Proof.
  intros Hl Hq Hp Lo. unfold mechanism.
  assert (Hu : labels_unique d) by (unfold labels_unique; rewrite Hl; apply seq_NoDup).
  assert (Hq0 : qty_nonneg d) by (intros r Hr; apply Qclt_le_weak, Hq, Hr).
  destruct (merge_same_price_ok 5 smp d cnt) as (mb & ms & c2 & E & M). rewrite E. cbn [bind].
  set (md := map fst (mb ++ ms)). set (mp := map snd (mb ++ ms)).
  pose proof (merged_qty_nonneg _ _ _ _ _ _ M Hq0) as Mq. pose proof (merged_price_nonneg _ _ _ _ _ _ M Hp) as Mp.
  pose proof (merged_labels _ _ _ _ _ _ M) as Mu. pose proof (merged_distinct _ _ _ _ _ _ M) as Md.
  fold md in Mq, Mp, Mu, Md.
  rewrite merged_run_run0 by (destruct (lone_buyer md) eqn:L; [exfalso; apply Lo, (md_lone _ _ _ _ _ _ M Hu), L | reflexivity]).
  assert (T : exists tm0 ex, mech_run0 (huang_auction S) md = Ok (tm0, ex)).
  { unfold mech_run0. destruct (Nat.eqb _ 0 || _); [eauto|]. apply huang_total; assumption. }
  destruct T as (tm0 & ex & T). rewrite T. cbn [bind].
  destruct (huang_strict S md tm0 ex Mq Mp Mu Md T) as (B1 & B2 & B3 & B4 & B5).
  unfold split_transactions_merged_players.
  destruct (split_list_spec d mp false (tm_trans tm0) tm_init Hl) as (ls & Es & F).
  { intros t Ht. destruct (B3 t Ht) as (r & Hr & El).
    destruct (merged_row _ _ _ _ _ _ M r Hr) as (rows & E1 & E2).
    destruct (merged_nth _ _ _ _ _ _ M _ _ _ E2 E1) as (_ & N & Eq & ->).
    exists (map lbl (group_of 5 d r)), (group_of 5 d r).
    split; [rewrite <- El; exact E1|]. split; [reflexivity|].
    split; [intros x Hx; apply filter_In in Hx; tauto|]. split; [|left; reflexivity].
    rewrite <- Eq. destruct (group_pos d 5 _ _ mb ms M Hq r Hr) as [P _]. intro Z. rewrite Z in P. qlra. }
  rewrite Es. cbn [bind]. eexists _, ex. split; [reflexivity|]. rewrite add_all_trans. simpl app.
  assert (Ebs : bought d (concat ls) = bought md (tm_trans tm0)) by exact (parts_side d 5 _ _ mb ms _ ls M Hu Hq B3 F true).
  assert (Ess : sold d (concat ls) = sold md (tm_trans tm0)) by exact (parts_side d 5 _ _ mb ms _ ls M Hu Hq B3 F false).
  split; [congruence|].
  split; [exact (parts_once d 5 _ _ mb ms _ ls M Hu B3 F B2)|].
  split; [exact (parts_refer d 5 _ _ mb ms _ ls M Hu Hq B3 F)|].
  split; [exact (parts_feasible d 5 _ _ mb ms _ ls M Hu Hq B3 F B2 B4)|].
  destruct B5 as [Z|(ps & pb & q & rs & rb & -> & Eq & Lp & Irs & -> & Irb & -> & Pr)].
  - left. rewrite Z in F. inversion F. reflexivity.
  - right. exists (price rs), (price rb), q. split; [reflexivity|]. split; [congruence|]. split; [exact Lp|].
    intros t' y Ht' Hy Ely. destruct (parts_in d 5 _ _ mb ms _ ls M Hu B3 F t' Ht') as (t & r & x & Ht & Hr & El & Hx & ->).
    simpl in *. destruct (group_pos d 5 _ _ mb ms M Hq r Hr) as [_ G]. destruct (G x Hx) as (Hx1 & Hx2 & _).
    assert (y = x) by (apply (NoDup_map_in lbl d); auto). subst y.
    specialize (Pr t r Ht Hr El). rewrite Hx2.
    apply filter_In in Hx. destruct Hx as [_ Hx]. apply andb_true_iff in Hx. destruct Hx as [_ Hx]. apply qeqb_eq in Hx.
    destruct (merged_price_round _ _ _ _ _ _ M rs Irs) as (zs & _ & _ & Es').
    destruct (merged_price_round _ _ _ _ _ _ M rb Irb) as (zb & _ & _ & Eb').
    destruct (buying r); destruct Pr as [P1 P2]; (split; [exact P1|]).
    + rewrite Eb'. apply np_round_strict with (prec := 5%Z). rewrite Hx, <- Eb'. exact P2.
    + rewrite Es'. apply np_round_strict' with (prec := 5%Z). rewrite Hx, <- Es'. exact P2.
Qed.

Lemma get_df_lbl bm : map lbl (get_df bm) = seq 0 (length (get_df bm)).
Proof. unfold get_df. rewrite rows_from_lbl, rows_from_length. reflexivity. Qed.

Lemma market_run_snd S m a : snd (market_run S m a) = run_algo S a (get_df (mk_bm m)).
Proof. unfold market_run. destruct (run_algo S a (get_df (mk_bm m))) as [[t x]|e]; reflexivity. Qed.

Lemma run_not_lone S m smp cnt x : snd (market_run S m (AHuang smp cnt)) = Ok x -> ~ lone_price (np_round 5) (get_df (mk_bm m)).
Proof. intros E. rewrite market_run_snd in E. exact (ok_not_lone _ _ _ _ _ (get_df_lbl _) E). Qed.

Lemma market_run_huang : forall (S : sorter) (m : market) (smp : nat -> nat) (cnt : Z),
  let d := get_df (mk_bm m) in
  qty_pos d -> price_nonneg d -> ~ lone_price (np_round 5) d ->
  exists tm ex, snd (market_run S m (AHuang smp cnt)) = Ok (tm, ex) /\
    bought d (tm_trans tm) = sold d (tm_trans tm) /\ once (tm_trans tm) /\ refer d (tm_trans tm) /\
    feasible d (tm_trans tm) /\
    (tm_trans tm = [] \/ exists ps pb q, ex = XHuang ps pb q /\ q = bought d (tm_trans tm) /\ ps < pb /\
      forall t r, In t (tm_trans tm) -> In r d -> lbl r = t_bid t ->
        if buying r then t_price t = pb /\ pb < price r else t_price t = ps /\ price r < ps).
Proof.
  intros S m smp cnt d Hq Hp Lo. rewrite market_run_snd. simpl run_algo. apply huang_market; auto. apply get_df_lbl.
Qed.
