(** Facts about merging and splitting in rounded arithmetic. *)
From Verif Require Import QcTac Num NumFacts ModelBase ModelHuang ModelMerge ModelMarket ModelRound ModelRoundMarket ListFacts StoreFacts
  Spec SpecTrade SpecMerge SpecRound SpecRoundMarket UpdateFacts TradeFacts HuangFacts MergeFacts RoundFacts AllocFacts.

(** ** Rounding a price *)
Lemma rint_mono x y : x <= y -> (rint x <= rint y)%Z.
Proof.
  intro H. destruct (Z.le_gt_cases (rint x) (rint y)) as [L|L]; [exact L|]. exfalso.
  destruct (rint_near x) as [X1 X2]. destruct (rint_near y) as [Y1 Y2].
  assert (K : qz (rint y + 1) <= qz (rint x)) by (apply (proj1 (qz_le _ _)); lia). rewrite qz_plus, qz_1 in K.
  assert (D : qf 1 2 + qf 1 2 = 1) by (apply Qc_is_canon; reflexivity).
  assert (x = y) by (apply Qcle_antisym; qlra). subst. lia.
Qed.
Lemma rint_0 : rint 0 = 0%Z.
Proof. rewrite <- qz_0. apply rint_int. Qed.

Section RoundMerge.
Variables (R : rounding) (G : adder R).
Lemma div_mono x y c : 0 < c -> x <= y -> x / c <= y / c.
Proof.
  intros C H. assert (P : 0 < / c) by (apply qinv_pos; exact C). unfold Qcdiv. apply qmult_le_r; [qlra | exact H].
Qed.
Lemma np_round_r_mono prec x y : x <= y -> np_round_r R prec x <= np_round_r R prec y.
Proof.
  intro H. pose proof (pow10_pos prec) as P. apply rnd_mono, div_mono; [exact P|].
  apply (proj1 (qz_le _ _)), rint_mono, rnd_mono, qmult_le_r; [qlra | exact H].
Qed.
Lemma np_round_r_0 prec : np_round_r R prec 0 = 0.
Proof.
  unfold np_round_r. rewrite Qcmult_0_l, rnd_zero, rint_0, qz_0. replace (0 / pow10 prec) with 0; [apply rnd_zero|].
  unfold Qcdiv. ring.
Qed.
Lemma np_round_r_nonneg prec x : 0 <= x -> 0 <= np_round_r R prec x.
Proof. intro H. rewrite <- (np_round_r_0 prec). apply np_round_r_mono, H. Qed.
Definition grp_r prec (side : df) (k : Qc) : df := filter (fun x => qeqb (np_round_r R prec (price x)) k) side.

(** an entry of the merged frame describes the group of key [k] *)
Definition entry_r prec (side : df) (b : bool) (k : Qc) (rm : row * list nat) : Prop :=
  price (fst rm) = k /\ qty (fst rm) = G (map qty (grp_r prec side k)) /\ buying (fst rm) = b /\
  snd rm = map lbl (grp_r prec side k) /\
  In (time (fst rm)) (map time (grp_r prec side k)) /\ In (divisible (fst rm)) (map divisible (grp_r prec side k)).

Lemma merge_groups_r_spec prec smp side b keys g cnt :
  (forall x, In x side -> buying x = b) -> (forall k, In k keys -> grp_r prec side k <> []) ->
  exists l cnt', merge_groups_r R G prec smp side keys g cnt = Ok (l, (g + length keys)%nat, cnt') /\
    Forall2 (entry_r prec side b) keys l /\ map lbl (map fst l) = seq g (length keys) /\
    (cnt <= cnt')%Z /\
    (forall rm, In rm l -> multi rm = true -> (cnt <= user (fst rm) < cnt')%Z) /\
    NoDup (map (fun rm => user (fst rm)) (filter multi l)) /\
    (forall rm, In rm l -> multi rm = false ->
       exists x, In x side /\ snd rm = [lbl x] /\ user (fst rm) = user x /\ price (fst rm) = np_round_r R prec (price x)).
Proof.
  intros Hb. revert g cnt. induction keys as [|k keys IH]; intros g cnt Hne.
  - exists [], cnt. simpl. rewrite Nat.add_0_r. repeat split; try constructor; try contradiction. lia.
  - cbn [merge_groups_r].
    assert (Hk : grp_r prec side k <> []) by (apply Hne; left; reflexivity).
    change (filter (fun x => qeqb (np_round_r R prec (price x)) k) side) with (grp_r prec side k).
    assert (Hbk : forall smp i, sample smp i (map buying (grp_r prec side k)) true = b).
    { intros smp' i. pose proof (sample_in smp' i (map buying (grp_r prec side k)) true) as S.
      assert (In (sample smp' i (map buying (grp_r prec side k)) true) (map buying (grp_r prec side k))).
      { apply S. destruct (grp_r prec side k); [congruence | discriminate]. }
      apply in_map_iff in H. destruct H as (x & <- & Hx). apply filter_In in Hx. apply Hb; tauto. }
    assert (N : exists u c1, new_id (map user (grp_r prec side k)) cnt = Ok (u, c1) /\ (cnt <= c1)%Z /\
        (Nat.ltb 1 (length (grp_r prec side k)) = true -> u = cnt /\ (c1 = cnt + 1)%Z) /\
        (Nat.ltb 1 (length (grp_r prec side k)) = false -> c1 = cnt /\ exists x, grp_r prec side k = [x] /\ u = user x)).
    { destruct (grp_r prec side k) as [|x [|y r]]; [congruence| |].
      - exists (user x), cnt. simpl. split; [reflexivity|]. split; [lia|]. split; [discriminate|]. eauto.
      - exists cnt, (cnt + 1)%Z. simpl. split; [reflexivity|]. split; [lia|]. split; [auto | discriminate]. }
    destruct N as (u & c1 & EN & Lc & Nm & Ns). rewrite EN. cbn [bind].
    destruct (IH (S g) c1) as (l & cnt' & E & F & Lb & Lc2 & Hm & Hd & Hs).
    { intros k' Hk'. apply Hne. right; exact Hk'. }
    rewrite E. cbn [bind]. eexists _, cnt'. split; [f_equal; f_equal; f_equal; simpl; lia|].
    split; [|split; [|split; [|split; [|split]]]].
    + constructor; [|exact F]. repeat split; simpl; try apply Hbk; apply sample_in;
      destruct (grp_r prec side k); (congruence || discriminate).
    + simpl. rewrite Lb. reflexivity.
    + lia.
    + intros rm [<-|Hrm] Mu.
      * unfold multi in Mu. simpl in Mu. rewrite map_length in Mu. destruct (Nm Mu) as [-> ->]. simpl. lia.
      * specialize (Hm rm Hrm Mu). lia.
    + simpl. unfold multi at 1. simpl snd. rewrite map_length.
      destruct (Nat.ltb 1 (length (grp_r prec side k))) eqn:Mu; [|exact Hd].
      simpl. constructor; [|exact Hd]. destruct (Nm eq_refl) as [-> ->]. intro I. apply in_map_iff in I.
      destruct I as (rm & Eu & Hrm). apply filter_In in Hrm. destruct Hrm as [H1 H2].
      specialize (Hm rm H1 H2). lia.
    + intros rm [<-|Hrm] Mu; [|apply Hs; assumption].
      unfold multi in Mu. simpl in Mu. rewrite map_length in Mu. destruct (Ns Mu) as (_ & x & Ex & ->).
      assert (Ix : In x (grp_r prec side k)) by (rewrite Ex; left; reflexivity).
      apply filter_In in Ix. destruct Ix as [I1 I2]. apply qeqb_eq in I2.
      exists x. simpl. rewrite Ex. auto.
Qed.

(** ** [merge_same_price_r R G] *)
Lemma side_keys_r_group prec side k : In k (side_keys_r R prec side) -> grp_r prec side k <> [].
Proof.
  unfold side_keys_r. rewrite group_keys_In, in_map_iff. intros (x & E & Hx) Z.
  assert (In x (grp_r prec side k)) by (apply filter_In; split; [exact Hx | apply qeqb_eq; exact E]).
  rewrite Z in H. contradiction.
Qed.

Record merge_r (prec : Z) (d : df) (c0 : Z) (mb ms : list (row * list nat)) (c2 : Z) : Prop := {
  mor_b : Forall2 (entry_r prec (buyers d) true) (side_keys_r R prec (buyers d)) mb;
  mor_s : Forall2 (entry_r prec (sellers d) false) (side_keys_r R prec (sellers d)) ms;
  mor_lbl : map lbl (map fst (mb ++ ms)) = seq 0 (length (mb ++ ms));
  mor_multi : forall rm, In rm (mb ++ ms) -> multi rm = true -> (c0 <= user (fst rm) < c2)%Z;
  mor_nodup : NoDup (map (fun rm => user (fst rm)) (filter multi (mb ++ ms)));
  mor_single : forall rm, In rm (mb ++ ms) -> multi rm = false ->
    exists x, In x d /\ snd rm = [lbl x] /\ user (fst rm) = user x /\ price (fst rm) = np_round_r R prec (price x) }.

Lemma merge_r_ok prec smp d cnt0 : exists mb ms c2,
  merge_same_price_r R G prec smp d cnt0 = Ok (map fst (mb ++ ms), map snd (mb ++ ms), c2) /\
  merge_r prec d (user_max d + 1)%Z mb ms c2.
Proof.
  unfold merge_same_price_r, new_player_id. set (c0 := (user_max d + 1)%Z).
  destruct (merge_groups_r_spec prec smp (buyers d) true (side_keys_r R prec (buyers d)) 0 c0) as
    (mb & c1 & E1 & F1 & L1 & G1 & M1 & D1 & S1).
  { intros x Hx. apply filter_In in Hx. tauto. }
  { intros k Hk. apply side_keys_r_group, Hk. }
  rewrite E1. cbn [bind].
  destruct (merge_groups_r_spec prec smp (sellers d) false (side_keys_r R prec (sellers d)) (0 + length (side_keys_r R prec (buyers d))) c1) as
    (ms & c2 & E2 & F2 & L2 & G2 & M2 & D2 & S2).
  { intros x Hx. apply filter_In in Hx. destruct Hx as [_ Hx]. apply negb_true_iff in Hx. exact Hx. }
  { intros k Hk. apply side_keys_r_group, Hk. }
  rewrite E2. cbn [bind]. exists mb, ms, c2. split; [reflexivity|].
  pose proof (Forall2_len _ _ _ F1) as Lb. pose proof (Forall2_len _ _ _ F2) as Ls.
  constructor; auto.
  - rewrite map_app, map_app, L1, L2, app_length, <- Lb, <- Ls, <- seq_app. reflexivity.
  - intros rm H Mu. apply in_app_or in H. destruct H as [H|H]; [specialize (M1 rm H Mu) | specialize (M2 rm H Mu)]; lia.
  - rewrite filter_app, map_app. apply NoDup_app; auto. intros x H3 H4.
    apply in_map_iff in H3, H4. destruct H3 as (r3 & <- & H3). destruct H4 as (r4 & E4 & H4).
    apply filter_In in H3, H4. destruct H3 as [H3 H3']. destruct H4 as [H4 H4'].
    specialize (M1 _ H3 H3'). specialize (M2 _ H4 H4'). lia.
  - intros rm H Mu. apply in_app_or in H. destruct H as [H|H]; [apply S1 in H | apply S2 in H]; auto;
    destruct H as (x & Hx & H); exists x; apply filter_In in Hx; tauto.
Qed.

Lemma group_of_r_side prec d r (b : bool) k : buying r = b -> price r = k ->
  group_of_r R prec d r = grp_r prec (if b then buyers d else sellers d) k.
Proof.
  intros <- <-. unfold group_of_r, grp_r, buyers, sellers. destruct (buying r).
  - rewrite filter_filter. apply filter_ext. intro x. destruct (buying x); reflexivity.
  - rewrite filter_filter. apply filter_ext. intro x. destruct (buying x); reflexivity.
Qed.

Lemma entry_r_group prec d (b : bool) k rm : entry_r prec (if b then buyers d else sellers d) b k rm ->
  qty (fst rm) = G (map qty (group_of_r R prec d (fst rm))) /\ snd rm = map lbl (group_of_r R prec d (fst rm)).
Proof. intros (H1 & H2 & H3 & H4 & _). rewrite (group_of_r_side prec d (fst rm) b k H3 H1). auto. Qed.

Section Merged.
  Variables (prec : Z) (d : df) (c0 c2 : Z) (mb ms : list (row * list nat)).
  Hypothesis M : merge_r prec d c0 mb ms c2.
  Let md := map fst (mb ++ ms).
  Let mp := map snd (mb ++ ms).

  Lemma mbr_in rm : In rm mb -> exists k, In k (side_keys_r R prec (buyers d)) /\ entry_r prec (buyers d) true k rm.
  Proof. intro H. exact (Forall2_in_r _ _ _ _ (mor_b _ _ _ _ _ _ M) H). Qed.
  Lemma msr_in rm : In rm ms -> exists k, In k (side_keys_r R prec (sellers d)) /\ entry_r prec (sellers d) false k rm.
  Proof. intro H. exact (Forall2_in_r _ _ _ _ (mor_s _ _ _ _ _ _ M) H). Qed.

  Lemma mergr_entry rm : In rm (mb ++ ms) ->
    group_of_r R prec d (fst rm) <> [] /\ qty (fst rm) = G (map qty (group_of_r R prec d (fst rm))) /\
    snd rm = map lbl (group_of_r R prec d (fst rm)).
  Proof.
    intro H. apply in_app_or in H. destruct H as [H|H].
    - destruct (mbr_in _ H) as (k & Hk & E). split; [|exact (entry_r_group prec d true k rm E)].
      destruct E as (E1 & _ & E3 & _). rewrite (group_of_r_side _ _ _ _ _ E3 E1). apply side_keys_r_group, Hk.
    - destruct (msr_in _ H) as (k & Hk & E). split; [|exact (entry_r_group prec d false k rm E)].
      destruct E as (E1 & _ & E3 & _). rewrite (group_of_r_side _ _ _ _ _ E3 E1). apply side_keys_r_group, Hk.
  Qed.
  Lemma mergr_nth i r rows : nth_error md i = Some r -> nth_error mp i = Some rows ->
    lbl r = i /\ group_of_r R prec d r <> [] /\ qty r = G (map qty (group_of_r R prec d r)) /\ rows = map lbl (group_of_r R prec d r).
  Proof.
    unfold md, mp. intros H1 H2.
    assert (L : lbl r = i).
    { pose proof (mor_lbl _ _ _ _ _ _ M) as L. apply (map_nth_error lbl) in H1. rewrite L in H1.
      assert (i < length (mb ++ ms))%nat by (rewrite <- (seq_length (length (mb ++ ms)) 0); apply nth_error_Some; congruence).
      rewrite (nth_error_nth' _ 0%nat) in H1 by (rewrite seq_length; exact H). rewrite seq_nth in H1 by exact H.
      injection H1 as <-. reflexivity. }
    split; [exact L|].
    rewrite nth_error_map in H1, H2. destruct (nth_error (mb ++ ms) i) as [rm|] eqn:E; [|discriminate].
    injection H1 as <-. injection H2 as <-. apply mergr_entry. eapply nth_error_In; eauto.
  Qed.
  Lemma mergr_sampled r : In r md ->
    In (time r) (map time (group_of_r R prec d r)) /\ In (divisible r) (map divisible (group_of_r R prec d r)).
  Proof.
    unfold md. intro H. apply in_map_iff in H. destruct H as (rm & <- & H). apply in_app_or in H. destruct H as [H|H].
    - destruct (mbr_in _ H) as (k & Hk & E1 & _ & E3 & _ & E5). rewrite (group_of_r_side _ _ _ _ _ E3 E1). exact E5.
    - destruct (msr_in _ H) as (k & Hk & E1 & _ & E3 & _ & E5). rewrite (group_of_r_side _ _ _ _ _ E3 E1). exact E5.
  Qed.
  Lemma mergr_prices : map price (filter buying md) = side_keys_r R prec (buyers d) /\
    map price (filter (fun r => negb (buying r)) md) = side_keys_r R prec (sellers d) /\
    filter buying md = map fst mb /\ filter (fun r => negb (buying r)) md = map fst ms.
  Proof.
    assert (A : forall rm, In rm mb -> buying (fst rm) = true) by (intros rm H; destruct (mbr_in _ H) as (k & _ & E); apply E).
    assert (B : forall rm, In rm ms -> buying (fst rm) = false) by (intros rm H; destruct (msr_in _ H) as (k & _ & E); apply E).
    assert (Eb : filter buying md = map fst mb).
    { unfold md. rewrite map_app, filter_app, filter_all, filter_none, app_nil_r; [reflexivity| |];
      intros x Hx; apply in_map_iff in Hx; destruct Hx as (rm & <- & Hx); auto. }
    assert (Es : filter (fun r => negb (buying r)) md = map fst ms).
    { unfold md. rewrite map_app, filter_app, filter_none, filter_all; [reflexivity| |];
      intros x Hx; apply in_map_iff in Hx; destruct Hx as (rm & <- & Hx); [rewrite B | rewrite A]; auto. }
    rewrite Eb, Es. rewrite !map_map. repeat split.
    - pose proof (mor_b _ _ _ _ _ _ M) as F. clear - F. induction F as [|k rm ks l E F IH]; simpl; [reflexivity|].
      rewrite IH. f_equal. apply E.
    - pose proof (mor_s _ _ _ _ _ _ M) as F. clear - F. induction F as [|k rm ks l E F IH]; simpl; [reflexivity|].
      rewrite IH. f_equal. apply E.
  Qed.
  Lemma mergr_distinct : prices_distinct md.
  Proof.
    destruct mergr_prices as (A & B & _). split; [rewrite A | rewrite B]; apply sorted_lt_NoDup, group_keys_sorted.
  Qed.
  Lemma concat_entries_r side b keys l : Forall2 (entry_r prec side b) keys l ->
    concat (map snd l) = map lbl (flat_map (fun k => grp_r prec side k) keys).
  Proof.
    induction 1 as [|k rm ks l E F IH]; simpl; [reflexivity|]. rewrite map_app, <- IH. f_equal. apply E.
  Qed.
  Lemma mergr_partition : Permutation (concat mp) (map lbl d).
  Proof.
    unfold mp. rewrite map_app, concat_app.
    rewrite (concat_entries_r _ _ _ _ (mor_b _ _ _ _ _ _ M)), (concat_entries_r _ _ _ _ (mor_s _ _ _ _ _ _ M)).
    rewrite <- map_app. apply Permutation_map. etransitivity; [|symmetry; apply (filter_negb_perm buying d)].
    apply Permutation_app; apply (groups_perm (fun x => np_round_r R prec (price x)));
      try (apply sorted_lt_NoDup, group_keys_sorted);
      intros x Hx; unfold side_keys_r; rewrite group_keys_In; apply (in_map (fun x => np_round_r R prec (price x))), Hx.
  Qed.
  Lemma mergr_labels : labels_unique md.
  Proof. unfold labels_unique, md. rewrite (mor_lbl _ _ _ _ _ _ M). apply seq_NoDup. Qed.
  Lemma mergr_row r : In r md -> exists rows, nth_error mp (lbl r) = Some rows /\ nth_error md (lbl r) = Some r.
  Proof.
    intro H. apply In_nth_error in H. destruct H as (i & H).
    assert (H2 : exists rows, nth_error mp i = Some rows).
    { destruct (nth_error mp i) eqn:E; [eauto|]. apply nth_error_None in E. unfold mp in E.
      assert (i < length md)%nat by (apply nth_error_Some; congruence). unfold md in H0. rewrite map_length in *. lia. }
    destruct H2 as (rows & H2). destruct (mergr_nth i r rows H H2) as (<- & _). eauto.
  Qed.
  Lemma mergr_qty_nonneg : qty_nonneg d -> qty_nonneg md.
  Proof.
    intros H r Hr. destruct (mergr_row r Hr) as (rows & E1 & E2). destruct (mergr_nth _ _ _ E2 E1) as (_ & _ & -> & _).
    apply (sums_nonneg R _ _ (asum_ok R G _)). intros q Hq. apply in_map_iff in Hq. destruct Hq as (x & <- & Hx).
    apply filter_In in Hx. apply H; tauto.
  Qed.
  Lemma mergr_machine : machine_qty R d -> machine_qty R md.
  Proof.
    intros H r Hr. destruct (mergr_row r Hr) as (rows & E1 & E2). destruct (mergr_nth _ _ _ E2 E1) as (_ & _ & -> & _).
    apply (sums_machine R _ _ (asum_ok R G _)). intros q Hq. apply in_map_iff in Hq. destruct Hq as (x & <- & Hx).
    apply filter_In in Hx. apply H; tauto.
  Qed.
  Lemma mergr_price_round r : In r md -> exists x, In x d /\ buying x = buying r /\ price r = np_round_r R prec (price x).
  Proof.
    intro Hr. destruct (mergr_row r Hr) as (rows & E1 & E2). destruct (mergr_nth _ _ _ E2 E1) as (_ & N & _ & _).
    destruct (group_of_r R prec d r) as [|x g] eqn:Eg; [congruence|].
    assert (I : In x (group_of_r R prec d r)) by (rewrite Eg; left; reflexivity).
    apply filter_In in I. destruct I as [I1 I2]. apply andb_true_iff in I2. destruct I2 as [I2 I3].
    apply eqb_prop in I2. apply qeqb_eq in I3. eauto.
  Qed.
  Lemma mergr_price_nonneg : price_nonneg d -> price_nonneg md.
  Proof.
    intros H r Hr. destruct (mergr_price_round r Hr) as (x & Hx & _ & ->). apply np_round_r_nonneg, H, Hx.
  Qed.
End Merged.

Lemma merge_r_statement prec smp d cnt : exists md mp c,
  merge_same_price_r R G prec smp d cnt = Ok (md, mp, c) /\
  length mp = length md /\ map lbl md = seq 0 (length md) /\ Permutation (concat mp) (map lbl d) /\
  (forall i r rows, nth_error md i = Some r -> nth_error mp i = Some rows ->
     group_of_r R prec d r <> [] /\ rows = map lbl (group_of_r R prec d r) /\ qty r = G (map qty (group_of_r R prec d r)) /\
     In (time r) (map time (group_of_r R prec d r)) /\ In (divisible r) (map divisible (group_of_r R prec d r))) /\
  (exists mb ms, md = mb ++ ms /\ (forall r, In r mb -> buying r = true) /\ (forall r, In r ms -> buying r = false) /\
     StronglySorted Qclt (map price mb) /\ StronglySorted Qclt (map price ms)).
Proof.
  destruct (merge_r_ok prec smp d cnt) as (mb & ms & c2 & E & M).
  eexists _, _, c2. split; [exact E|]. split; [rewrite !map_length; reflexivity|].
  split; [rewrite (mor_lbl _ _ _ _ _ _ M), map_length; reflexivity|].
  split; [exact (mergr_partition _ _ _ _ _ _ M)|]. split.
  - intros i r rows H1 H2. destruct (mergr_nth _ _ _ _ _ _ M i r rows H1 H2) as (_ & A & B & C).
    destruct (mergr_sampled _ _ _ _ _ _ M r (nth_error_In _ _ H1)). auto.
  - exists (map fst mb), (map fst ms). split; [apply map_app|].
    destruct (mergr_prices _ _ _ _ _ _ M) as (P1 & P2 & P3 & P4). rewrite P3 in P1. rewrite P4 in P2.
    split; [|split; [|split]].
    + intros r Hr. rewrite <- P3 in Hr. apply filter_In in Hr. tauto.
    + intros r Hr. rewrite <- P4 in Hr. apply filter_In in Hr. apply negb_true_iff. tauto.
    + rewrite P1. apply group_keys_sorted.
    + rewrite P2. apply group_keys_sorted.
Qed.

End RoundMerge.

(** ** Splitting *)
Section SplitR.
  Variables (R : rounding) (A : adder R).
  Lemma split_one_r_spec d mp t rows rs : map lbl d = seq 0 (length d) ->
    nth_error mp (t_bid t) = Some rows -> map lbl rs = rows -> (forall r, In r rs -> In r d) -> A (map qty rs) <> 0 ->
    split_one_r R A d mp t = Ok (map (fun r => mkTrans (lbl r) (R (t_qty t * R (qty r / A (map qty rs)))) (t_price t) (t_source t) (t_active t)) rs).
  Proof.
    intros Hl Hm Er Hin Hz. unfold split_one_r. rewrite Hm, (iloc_rows d Hl rows rs Er Hin). cbn [bind].
    replace (qeqb (A (map qty rs)) 0) with false by (symmetry; apply qeqb_neq; exact Hz).
    f_equal. rewrite <- Er. generalize (A (map qty rs)) as s. intro s. clear.
    induction rs as [|r rs IH]; [reflexivity|]. simpl. f_equal. exact IH.
  Qed.
  Lemma split_list_r_spec d mp ts acc : map lbl d = seq 0 (length d) ->
    (forall t, In t ts -> exists rows rs, nth_error mp (t_bid t) = Some rows /\ map lbl rs = rows /\
       (forall r, In r rs -> In r d) /\ A (map qty rs) <> 0) ->
    exists ls, split_list_r R A d mp ts acc = Ok (add_all acc (concat ls)) /\
      Forall2 (fun t l => exists rows, nth_error mp (t_bid t) = Some rows /\ Split_r R A d rows t l) ts ls.
  Proof.
    intros Hl. revert acc. induction ts as [|t ts IH]; intros acc H.
    - exists []. split; [reflexivity | constructor].
    - destruct (H t (or_introl eq_refl)) as (rows & rs & H1 & H2 & H3 & H4).
      cbn [split_list_r]. rewrite (split_one_r_spec d mp t rows rs Hl H1 H2 H3 H4). cbn [bind].
      destruct (IH (add_all acc (map (fun r => mkTrans (lbl r) (R (t_qty t * R (qty r / A (map qty rs)))) (t_price t) (t_source t) (t_active t)) rs))) as (ls & E & F).
      { intros t' Ht'. apply H. right; exact Ht'. }
      eexists (_ :: ls). rewrite E. split.
      + simpl. unfold add_all. rewrite fold_left_app. reflexivity.
      + constructor; [|exact F]. exists rows. split; [exact H1|]. exists rs. auto.
  Qed.
End SplitR.

(** ** Without rounding *)
Lemma merge_groups_exact (G : adder exact) prec smp side keys : forall g cnt,
  merge_groups_r exact G prec smp side keys g cnt = merge_groups prec smp side keys g cnt.
Proof.
  induction keys as [|k keys IH]; intros g cnt; [reflexivity|]. cbn [merge_groups_r merge_groups].
  change (np_round_r exact prec) with (np_round prec). destruct (new_id _ _) as [[u c1]|]; [|reflexivity]. cbn [bind].
  rewrite IH, asum_exact. reflexivity.
Qed.
Lemma merge_exact (G : adder exact) prec smp d cnt : merge_same_price_r exact G prec smp d cnt = merge_same_price prec smp d cnt.
Proof.
  unfold merge_same_price_r, merge_same_price. rewrite merge_groups_exact. change (side_keys_r exact prec) with (side_keys prec).
  destruct (merge_groups _ _ _ _ _ _) as [[[mb g] c]|]; [|reflexivity]. cbn [bind]. rewrite merge_groups_exact. reflexivity.
Qed.
Lemma split_list_exact (A : adder exact) d mp ts : forall acc, split_list_r exact A d mp ts acc = split_list d mp false ts acc.
Proof.
  induction ts as [|t ts IH]; intro acc; [reflexivity|]. cbn [split_list_r split_list].
  unfold split_one_r, split_one. destruct (nth_error mp (t_bid t)) as [rows|]; [|reflexivity].
  destruct (iloc d rows) as [rs|e]; [|reflexivity]. cbn [bind]. rewrite asum_exact, andb_false_r.
  destruct (qeqb _ 0); [destruct rows; [cbn [bind]; apply IH | reflexivity]|]. cbn [bind]. apply IH.
Qed.
Lemma run_huang_exact (A G : adder exact) S smp cnt d : run_huang_r exact A G S smp cnt d = run_algo S (AHuang smp cnt) d.
Proof.
  unfold run_huang_r, run_algo, mechanism. rewrite merge_exact.
  destruct (merge_same_price _ _ _ _) as [[[md mp] c]|]; [|reflexivity]. cbn [bind].
  unfold merged_run. destruct (lone_buyer md); [reflexivity|]. unfold mech_run0. rewrite huang_exact.
  destruct (Nat.eqb _ _ || Nat.eqb _ _); [|destruct (huang_auction S md) as [[tm ex]|]; [|reflexivity]]; cbn [bind];
    unfold split_transactions_r, split_transactions_merged_players; rewrite split_list_exact;
    destruct (split_list _ _ _ _ _); reflexivity.
Qed.
