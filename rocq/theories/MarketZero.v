(** [Market.run("huang")] when bids may offer or ask for nothing, at prices of any sign. *)
From Verif Require Import QcTac Num NumFacts ModelBase ModelCurves ModelHuang ModelMerge ModelMarket ListFacts StoreFacts Spec SpecTrade SpecMerge SpecMuda
  SpecHuang SpecSign SpecShort CurveFacts IntersectFacts UpdateFacts TradeFacts HuangFacts MergeFacts HuangMarketFacts HuangTop HuangTruth HuangMarketTop
  SignFacts StatsTop MarketTables.

(** ** The auction *)
Lemma huang_any_strict S d tm ps pb q : qty_nonneg d -> labels_unique d -> prices_distinct d -> huang_auction S d = Ok (tm, XHuang ps pb q) ->
  forall t r, In t (tm_trans tm) -> In r d -> lbl r = t_bid t ->
    if buying r then t_price t = pb /\ (pb < price r \/ pb = 0) else t_price t = ps /\ price r < ps.
Proof.
  intros Hq Hu [Db Ds] E. pose proof (huang_any_cases S d Hq) as C. rewrite E in C.
  inversion C as [E1|B1 B2 L1 rs L2 qs qb tm' q' pb' EB EL Nb Lp D E1]. subst.
  destruct D as [(-> & _)|(NB & NL & _ & _ & _ & _ & _ & T)]; [intros ? ? []|].
  assert (NDb : NoDup (map price (B1 ++ B2))) by (rewrite <- EB; apply (Permutation_NoDup (Permutation_map price (Permutation_sym (s_desc_perm S _)))), Db).
  assert (NDl : NoDup (map price (L1 ++ rs :: L2))) by (rewrite <- EL; apply (Permutation_NoDup (Permutation_map price (Permutation_sym (s_asc_perm S _)))), Ds).
  pose proof (s_desc_sorted S (buyers d)) as Sd. rewrite EB in Sd.
  pose proof (s_asc_sorted S (sellers d)) as Sa. rewrite EL in Sa.
  intros t r Ht Hr El. rewrite T in Ht. apply in_app_or in Ht.
  destruct Ht as [Ht|Ht]; apply emit_in in Ht; destruct Ht as (r' & q0 & _ & H2 & ->); cbn [t_bid t_price] in *.
  - destruct (srow S d _ _ r' EL H2) as [G1 G2]. assert (r = r') by (apply (NoDup_map_in lbl d); auto). subst r'. rewrite G2. split; [reflexivity|].
    pose proof (proj1 (sorted_app _ _ _ _ Sa) r H2) as L. rewrite map_app in NDl. cbn [map] in NDl. pose proof (NoDup_remove_2 _ _ _ NDl) as N.
    destruct (qlt_spec (price r) (price rs)) as [K|K]; [exact K|]. exfalso. apply N, in_or_app. left.
    replace (price rs) with (price r) by (apply Qcle_antisym; assumption). apply in_map, H2.
  - destruct (brow S d _ _ r' EB H2) as [G1 G2]. assert (r = r') by (apply (NoDup_map_in lbl d); auto). subst r'. rewrite G2. split; [reflexivity|].
    unfold next_buy in Nb. destruct B2 as [|rb B2]; [right; exact Nb|]. left. subst pb.
    pose proof (proj1 (sorted_app _ _ _ _ Sd) r H2) as L. rewrite map_app in NDb. cbn [map] in NDb. pose proof (NoDup_remove_2 _ _ _ NDb) as N.
    destruct (qlt_spec (price rb) (price r)) as [K|K]; [exact K|]. exfalso. apply N, in_or_app. left.
    replace (price rb) with (price r) by (apply Qcle_antisym; assumption). apply in_map, H2.
Qed.

Lemma huang_marginal_traded S d tm ps pb q : qty_nonneg d -> price_nonneg d -> huang_auction S d = Ok (tm, XHuang ps pb q) -> tm_trans tm <> [] ->
  exists c, Marginal d ps pb c.
Proof.
  intros Hq Hp E Ne. pose proof (huang_cases S d Hq Hp) as C. rewrite E in C.
  inversion C as [|x B1 rb B2 L1 rs L2 qs qb tm' q' EB EL Lp Cr Sf Sg D E1]. subst.
  destruct (crossing_fin S d x Cr) as (c & -> & H0). exists c.
  destruct D as [(_ & -> & _)|(NB & _)]; [cbn in Ne; congruence|].
  assert (P : 0 < c).
  { destruct Sf as [_ Sf]. destruct (fst (demand_curve_from_bids S d)) as [|[a w] f'] eqn:F; [destruct (demand_nonempty S d F)|].
    assert (N : nleb (Fin c) a = false) by (apply (Sf 0%nat a w); [destruct B1; [congruence | cbn [length]; lia] | reflexivity]).
    pose proof (demand_ends S d Hq) as [A _]. rewrite F in A. specialize (A (a, w) (or_introl eq_refl)). cbn [fst] in A.
    destruct a as [a| | |]; try discriminate. apply nle_Fin in A. cbn [nleb] in N. apply qleb_gt in N. qlra. }
  assert (Irs : In rs d) by (apply (seller_row S d _ _ _ rs EL), in_or_app; right; left; reflexivity).
  assert (U : 0 < price rb) by (specialize (Hp rs Irs); qlra).
  destruct (demand_step S d Hq _ _ _ P U Sf) as [D1 D2]. destruct (supply_step S d Hq _ _ _ P Sg) as [D3 D4].
  split; [exact P|]. split; [exact Lp|]. split; [exact D1|]. split; [exact D2|]. split; [exact D3|]. split; [exact D4|].
  intro p. apply (crossing_max S d Hq); [exact Cr | exact H0].
Qed.

(** ** The parts of the transactions of groups that have a quantity *)
Section Parts.
  Variables (d : df) (c0 c2 : Z) (mb ms : list (row * list nat)) (tl : list trans) (ls : list (list trans)).
  Let md := map fst (mb ++ ms).
  Let mp := map snd (mb ++ ms).
  Hypothesis M : merge_ok 5 d c0 mb ms c2.
  Hypothesis Hu : labels_unique d.
  Hypothesis Hq : qty_nonneg d.
  Hypothesis Href : refer md tl.
  Hypothesis Hls : Forall2 (fun t l => exists rows, nth_error mp (t_bid t) = Some rows /\ Split d rows t l) tl ls.
  Hypothesis Hnz : forall t r, In t tl -> In r md -> lbl r = t_bid t -> qty r <> 0.

  Lemma group_in r x : In x (group_of 5 d r) -> In x d /\ buying x = buying r /\ np_round 5 (price x) = price r.
  Proof. intro H. apply filter_In in H. destruct H as [H1 H2]. apply andb_true_iff in H2. destruct H2 as [H2 H3]. apply eqb_prop in H2. apply qeqb_eq in H3. auto. Qed.
  Lemma parts_side0 s : qsumf t_qty (filter (on_side s d) (concat ls)) = qsumf t_qty (filter (on_side s md) tl).
  Proof.
    assert (P : forall t l, In t tl -> (exists rows, nth_error mp (t_bid t) = Some rows /\ Split d rows t l) ->
      qsumf t_qty (filter (on_side s d) l) = if on_side s md t then t_qty t else 0).
    { intros t l Ht P. destruct (part d 5 c0 c2 mb ms tl M Hu Href t l Ht P) as (r & Hr & El & Es & ->).
      rewrite (on_side_in s md t r (merged_labels _ _ _ _ _ _ M) Hr El).
      destruct (Bool.eqb (buying r) s) eqn:Eb.
      - rewrite filter_all; [exact Es|]. intros t' Ht'. apply in_map_iff in Ht'. destruct Ht' as (x & <- & Hx).
        destruct (group_in r x Hx) as (Hx1 & Hx2 & _). rewrite (fun t => on_side_in s d t x Hu Hx1) by reflexivity. congruence.
      - rewrite filter_none; [reflexivity|]. intros t' Ht'. apply in_map_iff in Ht'. destruct Ht' as (x & <- & Hx).
        destruct (group_in r x Hx) as (Hx1 & Hx2 & _). rewrite (fun t => on_side_in s d t x Hu Hx1) by reflexivity. congruence. }
    clear Href Hnz. induction Hls as [|t l tl' ls' Htl F IH]; [reflexivity|]. cbn [concat filter].
    rewrite filter_app, qsumf_app. rewrite (P t l (or_introl eq_refl) Htl).
    rewrite IH by (auto; intros; apply P; auto; right; assumption).
    destruct (on_side s md t); [rewrite qsumf_cons; reflexivity | ring].
  Qed.
  Lemma parts_refer0 : refer d (concat ls).
  Proof.
    intros t' Ht'. destruct (parts_in d 5 c0 c2 mb ms tl ls M Hu Href Hls t' Ht') as (t & r & x & _ & Hr & _ & Hx & ->). exists x.
    split; [apply (group_in r x Hx) | reflexivity].
  Qed.
  Lemma parts_feasible0 : once tl -> feasible md tl -> feasible d (concat ls).
  Proof.
    intros Ho [Hf1 Hf2]. apply feasible_once; auto.
    - exact (parts_once d 5 c0 c2 mb ms tl ls M Hu Href Hls Ho).
    - intros t' y Ht' Hy Ely. destruct (parts_in d 5 c0 c2 mb ms tl ls M Hu Href Hls t' Ht') as (t & r & x & Ht & Hr & El & Hx & ->). cbn [t_bid t_qty] in *.
      destruct (group_in r x Hx) as (Hx1 & _ & _).
      assert (y = x) by (apply (NoDup_map_in lbl d); auto). subst y.
      assert (P : 0 <= qty r) by (apply (merged_qty_nonneg _ _ _ _ _ _ M Hq r Hr)). pose proof (Hnz t r Ht Hr El) as N.
      assert (P' : 0 < qty r) by (destruct (qlt_spec 0 (qty r)) as [L|L]; [exact L | exfalso; apply N, Qcle_antisym; assumption]).
      assert (Hx2 : qty x <= qty r).
      { rewrite (md_qty d 5 c0 c2 mb ms M r Hr). apply qsumf_in_le; [|exact Hx]. intros z Hz. apply Hq, (group_in r z Hz). }
      specialize (Hf1 t Ht). specialize (Hf2 r Hr). rewrite El, traded_by_once in Hf2 by assumption.
      pose proof (Hq x Hx1) as Px.
      assert (E : qty x / qty r * qty r = qty x) by (field; exact N).
      set (f := qty x / qty r) in *. assert (F0 : 0 <= f) by (clear - E P' Px; qnra).
      split; [apply qmult_nonneg; assumption|]. clear - E F0 Hf1 Hf2. qnra.
    - exact parts_refer0.
  Qed.
End Parts.

(** ** The run *)
Section Run.
  Variables (S : sorter) (smp : nat -> nat) (cnt : Z) (d : df).
  Hypothesis Hl : map lbl d = seq 0 (length d).
  Hypothesis Hq : qty_nonneg d.
  Let Hu : labels_unique d.
  Proof. unfold labels_unique. rewrite Hl. apply seq_NoDup. Qed.
  Notation run := (mechanism (Some (smp, cnt)) (huang_auction S) d).
  Notation rd := (map (rounded 5) d).

  Lemma nonneg_not_short : ~ short rd.
  Proof.
    intros (r & _ & L).
    assert (Q : qty_nonneg rd) by (intros x Hx; apply in_map_iff in Hx; destruct Hx as (y & <- & Hy); exact (Hq y Hy)).
    destruct (buying r).
    - assert (0 <= demand_at rd (price r)) by (apply qsumf_nonneg; intros x Hx; apply filter_In in Hx; apply Q; tauto). qlra.
    - assert (0 <= supply_at rd (price r)) by (apply qsumf_nonneg; intros x Hx; apply filter_In in Hx; apply Q; tauto). qlra.
  Qed.
  Theorem huang_run_sound tm ex : run = Ok (tm, ex) ->
    bought d (tm_trans tm) = sold d (tm_trans tm) /\ once (tm_trans tm) /\ refer d (tm_trans tm) /\ feasible d (tm_trans tm) /\ nearly_rational d (tm_trans tm) /\
    (tm_trans tm <> [] -> exists ps pb q, ex = XHuang ps pb q /\ q = bought d (tm_trans tm) /\ ps < pb /\
       forall t r, In t (tm_trans tm) -> In r d -> lbl r = t_bid t -> t_price t = if buying r then pb else ps).
  Proof.
    unfold mechanism. destruct (merge_same_price_ok 5 smp d cnt) as (mb & ms & c2 & E & M). rewrite E. cbn [bind].
    set (md := map fst (mb ++ ms)). set (mp := map snd (mb ++ ms)).
    pose proof (merged_qty_nonneg _ _ _ _ _ _ M Hq) as Mq. pose proof (merged_labels _ _ _ _ _ _ M) as Mu. pose proof (merged_distinct _ _ _ _ _ _ M) as Md.
    fold md in Mq, Mu, Md.
    destruct (merged_run (huang_auction S) md) as [[tm0 ex0]|e] eqn:T; cbn [bind]; [|intro X; discriminate X]. apply merged_run_ok in T.
    destruct (split_transactions_merged_players tm0 d mp None) as [[tm' fees]|e] eqn:Sp; cbn [bind]; [|intro X; discriminate X]. intro X. injection X as -> ->.
    assert (B : bought md (tm_trans tm0) = sold md (tm_trans tm0) /\ once (tm_trans tm0) /\ refer md (tm_trans tm0) /\ feasible md (tm_trans tm0) /\
      (tm_trans tm0 <> [] -> exists ps pb q, ex = XHuang ps pb q /\ q = bought md (tm_trans tm0) /\ ps < pb /\
         (exists y, ps = np_round 5 y) /\ (pb = 0 \/ exists y, pb = np_round 5 y) /\
         forall t r, In t (tm_trans tm0) -> In r md -> lbl r = t_bid t -> if buying r then t_price t = pb /\ (pb < price r \/ pb = 0) else t_price t = ps /\ price r < ps)).
    { unfold mech_run0 in T. destruct (_ || _).
      - injection T as <- <-. destruct (empty_ok md Mq) as (A1 & A2 & A3 & A4 & _). repeat (split; [assumption|]). intro N. cbn in N. congruence.
      - destruct (huang_any_summary S md Mq Mu tm0 ex T) as (A1 & A2 & A3 & A4 & _ & A6 & A7). repeat (split; [assumption|]). intro N.
        destruct (A6 N) as (ps & pb & q & -> & Eq). destruct (A7 ps pb q eq_refl) as (L & _ & (rs & R1 & _ & R3) & Rb).
        exists ps, pb, q. split; [reflexivity|]. split; [exact Eq|]. split; [exact L|].
        split; [destruct (merged_price_round _ _ _ _ _ _ M rs R1) as (x & _ & _ & Px); exists (price x); congruence|].
        split; [|exact (huang_any_strict S md tm0 ps pb q Mq Mu Md T)].
        destruct Rb as [Rb|(rb & R4 & _ & R5)]; [left; exact Rb|]. right. destruct (merged_price_round _ _ _ _ _ _ M rb R4) as (x & _ & _ & Px). exists (price x). congruence. }
    destruct B as (B1 & B2 & B3 & B4 & B5).
    destruct (split_md d _ _ mb ms M Hl tm0 B3) as [N1 N2]. fold md mp in N1, N2.
    assert (Hnz : forall t r, In t (tm_trans tm0) -> In r md -> lbl r = t_bid t -> qty r <> 0).
    { intros t r Ht Hr El Z. rewrite N1 in Sp by (exists t, r; auto). discriminate Sp. }
    destruct (N2 Hnz) as (tm1 & ls & E1 & E2 & F). rewrite Sp in E1. injection E1 as <- _. rewrite E2.
    assert (Ebs : bought d (concat ls) = bought md (tm_trans tm0)) by exact (parts_side0 d _ _ mb ms _ ls M Hu B3 F true).
    assert (Ess : sold d (concat ls) = sold md (tm_trans tm0)) by exact (parts_side0 d _ _ mb ms _ ls M Hu B3 F false).
    split; [congruence|].
    split; [exact (parts_once d 5 _ _ mb ms _ ls M Hu B3 F B2)|].
    split; [exact (parts_refer0 d _ _ mb ms _ ls M Hu B3 F)|].
    split; [exact (parts_feasible0 d _ _ mb ms _ ls M Hu Hq B3 F Hnz B2 B4)|].
    destruct (tm_trans tm0) as [|t0 tl] eqn:Et.
    { assert (Z : concat ls = []) by (inversion F; reflexivity). rewrite Z. split; [intros ? ? [] | congruence]. }
    destruct B5 as (ps & pb & q & -> & Eq & L & Gs & Gb & Pr); [discriminate|]. rewrite <- Et in *.
    assert (Q : forall t' y, In t' (concat ls) -> In y d -> lbl y = t_bid t' ->
      if buying y then t_price t' = pb /\ (pb < price y \/ pb = 0) else t_price t' = ps /\ price y < ps).
    { intros t' y Ht' Hy Ely. destruct (parts_in d 5 _ _ mb ms _ ls M Hu B3 F t' Ht') as (t & r & x & Ht & Hr & El & Hx & ->).
      cbn [t_bid t_price] in *. destruct (group_in d r x Hx) as (Hx1 & Hx2 & Hx3).
      assert (y = x) by (apply (NoDup_map_in lbl d); auto). subst y.
      specialize (Pr t r Ht Hr El). rewrite Hx2. destruct (buying r).
      - destruct Pr as [P1 P2]. split; [exact P1|]. destruct P2 as [P2|P2]; [|right; exact P2].
        destruct Gb as [Gb|(y & Gb)]; [right; exact Gb|]. left. rewrite Gb. apply np_round_strict with (prec := 5%Z). rewrite Hx3, <- Gb. exact P2.
      - destruct Pr as [P1 P2]. split; [exact P1|]. destruct Gs as (y & Gs). rewrite Gs. apply np_round_strict' with (prec := 5%Z). rewrite Hx3, <- Gs. exact P2. }
    split.
    - intros t' y Ht' Hy Ely. specialize (Q t' y Ht' Hy Ely). destruct (buying y); destruct Q as [-> Q].
      + destruct Q as [Q|Q]; [left; apply Qclt_le_weak, Q|]. destruct (qlt_spec (price y) 0) as [N|N]; [right; auto | left; rewrite Q; exact N].
      + apply Qclt_le_weak, Q.
    - intros _. exists ps, pb, q. split; [reflexivity|]. split; [congruence|]. split; [exact L|].
      intros t' y Ht' Hy Ely. specialize (Q t' y Ht' Hy Ely). destruct (buying y); apply Q.
  Qed.

  Lemma better_iff c0 mb ms c2 (M : merge_ok 5 d c0 mb ms c2) : let md := map fst (mb ++ ms) in forall ps pb, both_win rd ps pb <->
    filter (fun r => buying r && qltb pb (price r)) md <> [] /\ filter (fun r => negb (buying r) && qltb (price r) ps) md <> [].
  Proof.
    set (md := map fst (mb ++ ms)). cbv zeta.
    assert (Row : forall x, In x d -> exists r, In r md /\ in_group 5 r x = true) by exact (md_row d 5 _ _ mb ms M Hu).
    assert (Back : forall r, In r md -> exists x, In x d /\ in_group 5 r x = true).
    { intros r Hr. destruct (merged_price_round _ _ _ _ _ _ M r Hr) as (x & Hx & Bx & Px). exists x. split; [exact Hx|]. apply in_group_iff. auto. }
    intros ps pb. split.
    - intros (b & s & Hb & Hs & Bb & Bs & Wb & Ws). apply in_map_iff in Hb. destruct Hb as (xb & <- & Hb). apply in_map_iff in Hs. destruct Hs as (xs & <- & Hs).
      destruct (Row xb Hb) as (rb & Rb & Gb). destruct (Row xs Hs) as (rs & Rs & Gs).
      rewrite <- (md_wins 5 ps pb rb xb Gb) in Wb. rewrite <- (md_wins 5 ps pb rs xs Gs) in Ws.
      apply (proj1 (in_group_iff _ _ _)) in Gb. apply (proj1 (in_group_iff _ _ _)) in Gs. cbn [rounded buying] in Bb, Bs. destruct Gb as [Gb _], Gs as [Gs _].
      unfold wins in Wb, Ws. rewrite <- Gb, Bb in Wb. rewrite <- Gs, Bs in Ws.
      split; intro N; [assert (I : In rb []) by (rewrite <- N; apply filter_In; rewrite <- Gb, Bb; auto) | assert (I : In rs []) by (rewrite <- N; apply filter_In; rewrite <- Gs, Bs; auto)]; exact I.
    - intros [Nb Ns]. destruct (filter (fun r => buying r && qltb pb (price r)) md) as [|b Lb] eqn:Fb; [congruence|].
      destruct (filter (fun r => negb (buying r) && qltb (price r) ps) md) as [|s Ls] eqn:Fs; [congruence|].
      assert (Ib : In b md /\ buying b && qltb pb (price b) = true) by (apply (filter_In (fun r => buying r && qltb pb (price r))); rewrite Fb; left; reflexivity).
      assert (Is : In s md /\ negb (buying s) && qltb (price s) ps = true) by (apply (filter_In (fun r => negb (buying r) && qltb (price r) ps)); rewrite Fs; left; reflexivity).
      destruct Ib as [Ib Wb], Is as [Is Ws]. apply andb_true_iff in Wb. apply andb_true_iff in Ws. destruct Wb as [Bb Wb], Ws as [Bs Ws]. apply negb_true_iff in Bs.
      destruct (Back b Ib) as (xb & Xb & Gb). destruct (Back s Is) as (xs & Xs & Gs). exists (rounded 5 xb), (rounded 5 xs).
      split; [apply in_map, Xb|]. split; [apply in_map, Xs|]. rewrite <- (md_wins 5 ps pb b xb Gb), <- (md_wins 5 ps pb s xs Gs).
      apply (proj1 (in_group_iff _ _ _)) in Gb. apply (proj1 (in_group_iff _ _ _)) in Gs. cbn [rounded buying]. rewrite (proj1 Gb), (proj1 Gs).
      unfold wins. rewrite Bb, Bs. auto.
  Qed.
  (** a bid for nothing that wins makes the run fail *)
  Theorem huang_run_zero : price_nonneg d -> asks_pos rd -> (zero_wins d -> run = Err NaNProduced) /\ (~ zero_wins d -> ~ lone_price (np_round 5) d -> exists tm ex, run = Ok (tm, ex)).
  Proof.
    intros Hp Ha. unfold mechanism. destruct (merge_same_price_ok 5 smp d cnt) as (mb & ms & c2 & E & M). rewrite E. cbn [bind].
    set (md := map fst (mb ++ ms)). set (mp := map snd (mb ++ ms)).
    pose proof (merged_qty_nonneg _ _ _ _ _ _ M Hq) as Mq. pose proof (merged_labels _ _ _ _ _ _ M) as Mu. pose proof (merged_distinct _ _ _ _ _ _ M) as Md.
    pose proof (merged_price_nonneg _ _ _ _ _ _ M Hp) as Mp. fold md in Mq, Mu, Md, Mp.
    assert (Row : forall x, In x d -> exists r, In r md /\ in_group 5 r x = true) by exact (md_row d 5 _ _ mb ms M Hu).
    assert (Back : forall r, In r md -> exists x, In x d /\ in_group 5 r x = true).
    { intros r Hr. destruct (merged_price_round _ _ _ _ _ _ M r Hr) as (x & Hx & Bx & Px). exists x. split; [exact Hx|]. apply in_group_iff. auto. }
    assert (Z : forall r x, In r md -> In x d -> in_group 5 r x = true -> qsumf qty (group_of 5 d (rounded 5 x)) = qty r).
    { intros r x Hr Hx G. rewrite <- (md_group d 5 r x G). symmetry. exact (md_qty d 5 _ _ mb ms M r Hr). }
    pose proof (better_iff _ _ _ _ M) as Better. fold md in Better.
    split.
    - intros (ps & pb & c & Mg & Both & x & Hx & W & Zx). apply (md_marginal d 5 _ _ mb ms M Hu) in Mg. fold md in Mg.
      destruct (marginal_huang S md Mq Mp ps pb c (md_asks d 5 _ _ mb ms M Ha) Mg) as (tm0 & q & Eh). fold md in Eh.
      apply Better in Both. destruct Both as [Nb Ns].
      destruct (huang_traders S md Mq Mp Mu tm0 ps pb q Md Eh) as (_ & _ & _ & T2). cbv zeta in T2. destruct (T2 Nb Ns) as [T3 _].
      rewrite merged_run_run0.
      2:{ clearbody md. clear - Ns. destruct md as [|r [|s l]]; try reflexivity. cbn [lone_buyer]. cbn [filter] in Ns. destruct (buying r); [|reflexivity]. cbn [negb andb] in Ns. congruence. }
      unfold mech_run0. destruct (_ || _) eqn:One.
      { exfalso. apply (proj1 (one_sided_test md) One). split.
        - destruct (filter _ md) as [|b ?] eqn:Fb in Nb; [congruence|]. exists b. assert (I : In b (filter (fun r => buying r && qltb pb (price r)) md)) by (rewrite Fb; left; reflexivity).
          apply filter_In in I. destruct I as [I J]. apply andb_true_iff in J. tauto.
        - destruct (filter (fun r => negb (buying r) && qltb (price r) ps) md) as [|b ?] eqn:Fb; [congruence|]. exists b. assert (I : In b (filter (fun r => negb (buying r) && qltb (price r) ps) md)) by (rewrite Fb; left; reflexivity).
          apply filter_In in I. destruct I as [I J]. apply andb_true_iff in J. destruct J as [J _]. apply negb_true_iff in J. auto. }
      rewrite Eh. cbn [bind]. destruct (split_md d _ _ mb ms M Hl tm0 (huang_refer S md tm0 _ Eh)) as [N1 _]. fold md mp in N1.
      rewrite N1; [reflexivity|]. destruct (Row x Hx) as (r & Hr & G).
      assert (I : In (lbl r) (map t_bid (tm_trans tm0))) by (apply T3; [exact Hr|]; apply in_better; [exact Hr|]; rewrite (md_wins 5 ps pb r x G); exact W).
      apply in_map_iff in I. destruct I as (t & Et & Ht). exists t, r. split; [exact Ht|]. split; [exact Hr|]. split; [congruence|]. rewrite <- (Z r x Hr Hx G). exact Zx.
    - intros NZ Lo. rewrite merged_run_run0 by (destruct (lone_buyer md) eqn:L; [exfalso; apply Lo, (md_lone _ _ _ _ _ _ M Hu), L | reflexivity]).
      unfold mech_run0. destruct (_ || _).
      { cbn [bind]. unfold split_transactions_merged_players. cbn. eauto. }
      destruct (huang_any_total S md Mq) as (tm0 & ex & Eh). rewrite Eh. cbn [bind].
      destruct (split_md d _ _ mb ms M Hl tm0 (huang_refer S md tm0 _ Eh)) as [_ N2]. fold md mp in N2.
      destruct N2 as (tm' & ls & -> & _); [|cbn [bind]; eauto].
      intros t r Ht Hr El Zr. apply NZ.
      assert (Ne : tm_trans tm0 <> []) by (intro N; rewrite N in Ht; exact Ht).
      destruct (huang_any_summary S md Mq Mu tm0 ex Eh) as (_ & _ & _ & _ & _ & A6 & _). destruct (A6 Ne) as (ps & pb & q & -> & _).
      destruct (huang_marginal_traded S md tm0 ps pb q Mq Mp Eh Ne) as (c & Mg). exists ps, pb, c.
      split; [apply (md_marginal d 5 _ _ mb ms M Hu); exact Mg|].
      destruct (huang_traders S md Mq Mp Mu tm0 ps pb q Md Eh) as (_ & _ & T1 & T2). cbv zeta in T1, T2.
      assert (Nb : filter (fun r => buying r && qltb pb (price r)) md <> []) by (intro N; apply Ne, T1; auto).
      assert (Ns : filter (fun r => negb (buying r) && qltb (price r) ps) md <> []) by (intro N; apply Ne, T1; auto).
      split; [apply Better; auto|]. destruct (T2 Nb Ns) as [T3 _]. destruct (Back r Hr) as (x & Hx & G). exists x. split; [exact Hx|].
      split; [|rewrite (Z r x Hr Hx G); exact Zr]. rewrite <- (md_wins 5 ps pb r x G). apply (in_better md ps pb r Hr), T3; [exact Hr|]. rewrite El. apply in_map, Ht.
  Qed.

  (** the prices of a run that trades are those of the marginal bids *)
  Theorem huang_run_marginal tm ps pb q : price_nonneg d -> run = Ok (tm, XHuang ps pb q) -> tm_trans tm <> [] -> both_win rd ps pb /\ exists c, Marginal rd ps pb c.
  Proof.
    intros Hp. unfold mechanism. destruct (merge_same_price_ok 5 smp d cnt) as (mb & ms & c2 & E & M). rewrite E. cbn [bind].
    set (md := map fst (mb ++ ms)). set (mp := map snd (mb ++ ms)).
    pose proof (merged_qty_nonneg _ _ _ _ _ _ M Hq) as Mq. pose proof (merged_labels _ _ _ _ _ _ M) as Mu. pose proof (merged_distinct _ _ _ _ _ _ M) as Md.
    pose proof (merged_price_nonneg _ _ _ _ _ _ M Hp) as Mp. fold md in Mq, Mu, Md, Mp.
    unfold merged_run. destruct (lone_buyer md); [intro X; discriminate X|].
    unfold mech_run0. destruct (_ || _).
    { cbn [bind]. unfold split_transactions_merged_players. cbn. intro X. discriminate X. }
    destruct (huang_auction S md) as [[tm0 ex0]|e] eqn:Eh; cbn [bind]; [|intro X; discriminate X].
    destruct (split_transactions_merged_players tm0 d mp None) as [[tm' fees]|e] eqn:Sp; cbn [bind]; [|intro X; discriminate X]. intro X. injection X as -> ->. intro Ne.
    assert (Ne0 : tm_trans tm0 <> []).
    { intro N. destruct (split_md d _ _ mb ms M Hl tm0 (huang_refer S md tm0 _ Eh)) as [_ N2]. fold md mp in N2.
      destruct N2 as (tm1 & ls & E1 & E2 & F); [intros t r Ht; rewrite N in Ht; destruct Ht|]. rewrite Sp in E1. injection E1 as <- _.
      apply Ne. rewrite E2. rewrite N in F. inversion F. reflexivity. }
    destruct (huang_marginal_traded S md tm0 ps pb q Mq Mp Eh Ne0) as (c & Mg).
    destruct (huang_traders S md Mq Mp Mu tm0 ps pb q Md Eh) as (_ & _ & T1 & _). cbv zeta in T1.
    split; [|exists c; apply (md_marginal d 5 _ _ mb ms M Hu); exact Mg].
    apply (better_iff _ _ _ _ M). fold md. split; intro N; apply Ne0, T1; auto.
  Qed.
End Run.

(** ** One bid more *)
Lemma zero_sum (P : row -> bool) d r : qty r = 0 -> qsumf qty (filter P (d ++ [r])) = qsumf qty (filter P d).
Proof. intro Z. rewrite filter_app, qsumf_app. cbn [filter]. destruct (P r); cbn; [rewrite Z|]; ring. Qed.
Lemma zero_marginal d r ps pb c : qty r = 0 -> Marginal d ps pb c -> Marginal (d ++ [r]) ps pb c.
Proof.
  intros Z (A1 & A2 & A3 & A4 & A5 & A6 & A7). unfold Marginal, demand_above, demand_at, supply_below, supply_at in *. rewrite !zero_sum by exact Z.
  do 6 (split; [assumption|]). intro p. rewrite !zero_sum by exact Z. apply A7.
Qed.
Theorem huang_zero_bid S m smp cnt b tm ps pb q : let d := get_df (mk_bm m) in let x := rounded 5 (row_of (length (bm_bids (mk_bm m))) b) in
  qty_nonneg d -> price_nonneg d -> asks_pos (map (rounded 5) d) ->
  snd (market_run S m (AHuang smp cnt)) = Ok (tm, XHuang ps pb q) -> tm_trans tm <> [] ->
  b_qty b = 0 -> 0 <= b_price b -> wins ps pb x = true -> (buying x = false -> 0 < price x) ->
  (forall y, In y (map (rounded 5) d) -> buying y = buying x -> price y <> price x) ->
  forall S' smp' cnt', snd (market_run S' (fst (accept_bid m b)) (AHuang smp' cnt')) = Err NaNProduced.
Proof.
  intros d x Hq Hp Ha E Ne Zb Pb W Px Alone S' smp' cnt'. rewrite market_run_snd in *. fold d in E. rewrite get_df_accept. fold d.
  pose proof (get_df_lbl (mk_bm (fst (accept_bid m b)))) as Hl'. rewrite get_df_accept in Hl'. fold d in Hl'.
  set (r := row_of (length (bm_bids (mk_bm m))) b) in *. assert (Zr : qty r = 0) by exact Zb.
  destruct (huang_run_marginal S smp cnt d (get_df_lbl _) Hq tm ps pb q Hp E Ne) as [Bw (c & Mg)].
  refine (proj1 (huang_run_zero S' smp' cnt' (d ++ [r]) Hl' _ _ _) _).
  - intros y Hy. apply in_app_or in Hy. destruct Hy as [Hy|[<-|[]]]; [exact (Hq y Hy) | rewrite Zr; qlra].
  - intros y Hy. apply in_app_or in Hy. destruct Hy as [Hy|[<-|[]]]; [exact (Hp y Hy) | exact Pb].
  - rewrite map_app. intros y Hy. apply in_app_or in Hy. destruct Hy as [Hy|[<-|[]]]; [exact (Ha y Hy) | exact Px].
  - unfold zero_wins, both_win. rewrite map_app. exists ps, pb, c. split; [apply zero_marginal; [exact Zr | exact Mg]|]. split.
    + destruct Bw as (y & z & Y & Z & K). exists y, z. split; [apply in_or_app; auto|]. split; [apply in_or_app; auto | exact K].
    + exists r. split; [apply in_or_app; right; left; reflexivity|]. split; [exact W|]. unfold group_of. rewrite zero_sum by exact Zr.
      rewrite filter_none; [reflexivity|]. intros y Hy. destruct (_ && _) eqn:G; [|reflexivity]. exfalso. apply andb_true_iff in G. destruct G as [G1 G2].
      apply eqb_prop in G1. apply qeqb_eq in G2. apply (Alone (rounded 5 y)); [apply in_map, Hy | exact G1 | exact G2].
Qed.
