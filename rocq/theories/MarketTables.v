(** [Market.run("huang")] on bids whose quantities and prices can have any sign. *)
From Verif Require Import QcTac Num NumFacts ModelBase ModelCurves ModelHuang ModelMerge ModelMarket ListFacts StoreFacts Spec SpecTrade SpecMerge SpecMuda
  SpecHuang SpecErrors SpecTables SpecSign SpecShort UpdateFacts TradeFacts HuangFacts MergeFacts HuangMarketFacts HuangTop HuangTruth HuangMarketTop ErrorFacts
  SplitFees TableFacts SignFacts.

(** ** The bids of one side, best first, no price twice *)
Section Heads.
  Variable k : row -> Qc.
  Lemma heads l a r b : StronglySorted (fun x y => k x <= k y) l -> NoDup (map k l) -> l = a ++ r :: b ->
    filter (fun x => qleb (k x) (k r)) l = a ++ [r].
  Proof.
    intros So Nd ->. destruct (sorted_app _ _ _ _ So) as (A1 & A2 & _). rewrite filter_app. cbn [filter].
    destruct (qle_spec (k r) (k r)) as [_|H]; [|qlra].
    rewrite (filter_all _ a), filter_none; [reflexivity| |].
    - intros y Hy. apply qleb_gt. rewrite map_app in Nd. cbn [map] in Nd. pose proof (NoDup_remove_2 _ _ _ Nd) as N.
      assert (k y <> k r) by (intro E; apply N, in_or_app; right; rewrite <- E; apply in_map, Hy). specialize (A2 y Hy).
      destruct (qlt_spec (k r) (k y)) as [L|L]; [exact L|]. exfalso. apply H. apply Qcle_antisym; assumption.
    - intros y Hy. apply qleb_le, A1, Hy.
  Qed.
  Lemma overdrawn_heads l : StronglySorted (fun x y => k x <= k y) l -> NoDup (map k l) ->
    (overdrawn_list l <-> exists r, In r l /\ qsumf qty (filter (fun x => qleb (k x) (k r)) l) < 0).
  Proof.
    intros So Nd. split.
    - intros (l1 & l2 & E & L). destruct (exists_last (l := l1)) as (a & r & ->); [intros ->; cbn in L; qlra|].
      rewrite <- app_assoc in E. exists r. split; [rewrite E; apply in_or_app; right; left; reflexivity|].
      rewrite (heads l a r l2 So Nd E). exact L.
    - intros (r & Hr & L). apply in_split in Hr. destruct Hr as (a & b & E). rewrite (heads l a r b So Nd E) in L.
      exists (a ++ [r]), b. split; [rewrite E, <- app_assoc; reflexivity | exact L].
  Qed.
End Heads.

Lemma overdrawn_short S d : prices_distinct d -> (overdrawn S d <-> short d).
Proof.
  intros [Nb Ns]. unfold overdrawn.
  rewrite (overdrawn_heads (fun x => - price x) (s_desc S (filter buying d))).
  2:{ pose proof (s_desc_sorted S (filter buying d)) as So. revert So. generalize (s_desc S (filter buying d)). induction 1 as [|x l H IH F]; constructor; [exact IH|].
      rewrite Forall_forall in *. intros y Hy. specialize (F y Hy). cbv beta. qlra. }
  2:{ apply (Permutation_NoDup (l := map (fun x => - price x) (filter buying d))); [apply Permutation_map; symmetry; apply s_desc_perm|].
      rewrite <- (map_map price Qcopp). apply FinFun.Injective_map_NoDup; [intros x y E; qlra | exact Nb]. }
  rewrite (overdrawn_heads price (s_asc S (filter (fun r => negb (buying r)) d))).
  2:{ apply s_asc_sorted. }
  2:{ apply (Permutation_NoDup (l := map price (filter (fun r => negb (buying r)) d))); [apply Permutation_map; symmetry; apply s_asc_perm | exact Ns]. }
  assert (Eb : forall r, qsumf qty (filter (fun x => qleb (- price x) (- price r)) (s_desc S (filter buying d))) = demand_at d (price r)).
  { intro r. unfold demand_at. rewrite <- filter_filter. rewrite (qsumf_perm qty _ _ (filter_perm _ _ _ (s_desc_perm S (filter buying d)))).
    f_equal. apply filter_ext. intro x. destruct (qle_spec (- price x) (- price r)), (qle_spec (price r) (price x)); try reflexivity; exfalso; qlra. }
  assert (Es : forall r, qsumf qty (filter (fun x => qleb (price x) (price r)) (s_asc S (filter (fun r => negb (buying r)) d))) = supply_at d (price r)).
  { intro r. unfold supply_at. rewrite <- filter_filter. apply qsumf_perm, filter_perm, s_asc_perm. }
  unfold short. split.
  - intros [(r & Hr & L)|(r & Hr & L)]; exists r.
    + apply (Permutation_in _ (s_desc_perm S _)) in Hr. apply filter_In in Hr. destruct Hr as [Hr Br]. rewrite Br. split; [exact Hr|]. rewrite <- Eb. exact L.
    + apply (Permutation_in _ (s_asc_perm S _)) in Hr. apply filter_In in Hr. destruct Hr as [Hr Br]. apply negb_true_iff in Br. rewrite Br. split; [exact Hr|]. rewrite <- Es. exact L.
  - intros (r & Hr & L). destruct (buying r) eqn:Br; [left | right]; exists r; (split; [|rewrite ?Eb, ?Es; exact L]).
    + apply (Permutation_in _ (Permutation_sym (s_desc_perm S _))), filter_In. auto.
    + apply (Permutation_in _ (Permutation_sym (s_asc_perm S _))), filter_In. rewrite Br. auto.
Qed.

(** ** Transactions of the auction refer to its bids, whatever the table *)
Lemma emit_refer d l qs p t : (forall r, In r l -> In r d) -> In t (emit l qs p) -> exists r, In r d /\ lbl r = t_bid t.
Proof. intros H Ht. apply emit_in in Ht. destruct Ht as (r & q & _ & Hr & ->). exists r. auto. Qed.
Lemma huang_refer S d tm ex : huang_auction S d = Ok (tm, ex) -> refer d (tm_trans tm).
Proof.
  unfold huang_auction. intro E. destruct (intersect_stepwise _ _ _) as [[[[q b] s] v]|]; [|discriminate]. cbn [bind] in E.
  assert (Z : refer d (tm_trans tm_init)) by (intros ? []).
  destruct b as [b|]; [|injection E as <- _; exact Z]. destruct s as [s|]; [|injection E as <- _; exact Z].
  destruct (nth_error _ s) as [[x1 y1]|]; [|discriminate]. destruct (nth_error _ b) as [[x2 y2]|]; [|destruct y1; discriminate].
  destruct y1 as [ps| | |]; try discriminate. destruct y2 as [pb| | |]; try discriminate.
  destruct (Nat.ltb 0 b && Nat.ltb 0 s); [|injection E as <- _; exact Z]. cbv zeta in E.
  set (B := firstn b (s_desc S (buyers d))) in *. set (L := firstn s (s_asc S (sellers d))) in *.
  assert (HB : forall r, In r B -> In r d).
  { intros r Hr. apply In_firstn in Hr. apply (Permutation_in _ (s_desc_perm S _)) in Hr. apply filter_In in Hr. tauto. }
  assert (HL : forall r, In r L -> In r d).
  { intros r Hr. apply In_firstn in Hr. apply (Permutation_in _ (s_asc_perm S _)) in Hr. apply filter_In in Hr. tauto. }
  destruct (if qltb 0 _ then _ else _) as [[qs qb]|]; [|discriminate]. cbn [bind] in E. injection E as <- _.
  intros t Ht. rewrite !add_all_trans in Ht. apply in_app_or in Ht. destruct Ht as [Ht|Ht]; [apply in_app_or in Ht; destruct Ht as [[]|Ht]|].
  - exact (emit_refer d L qs ps t HL Ht).
  - exact (emit_refer d B qb pb t HB Ht).
Qed.

(** ** The merged table *)
Section Merge.
  Variables (d : df) (c0 c2 : Z) (mb ms : list (row * list nat)).
  Let md := map fst (mb ++ ms).
  Let mp := map snd (mb ++ ms).
  Hypothesis M : merge_ok 5 d c0 mb ms c2.
  Hypothesis Hl : map lbl d = seq 0 (length d).
  Let rd := map (rounded 5) d.
  Let Hu : labels_unique d.
  Proof. unfold labels_unique. rewrite Hl. apply seq_NoDup. Qed.

  Lemma md_side b : (exists r, In r md /\ buying r = b) <-> exists x, In x d /\ buying x = b.
  Proof.
    split.
    - intros (r & Hr & B). destruct (merged_price_round _ _ _ _ _ _ M r Hr) as (x & Hx & Bx & _). exists x. split; [exact Hx | congruence].
    - intros (x & Hx & B). destruct (md_row d 5 _ _ mb ms M Hu x Hx) as (r & Hr & G). exists r. split; [exact Hr|].
      apply (proj1 (in_group_iff _ _ _)) in G. destruct G as [G _]. congruence.
  Qed.
  Lemma md_short : short md <-> short rd.
  Proof.
    unfold short. split.
    - intros (r & Hr & L). destruct (merged_price_round _ _ _ _ _ _ M r Hr) as (x & Hx & Bx & Px). exists (rounded 5 x). split; [apply in_map, Hx|].
      cbn [rounded buying price]. rewrite Bx, <- Px. unfold rd. rewrite <- (md_demand_at d 5 _ _ mb ms M Hu), <- (md_supply_at d 5 _ _ mb ms M Hu). exact L.
    - intros (r & Hr & L). apply in_map_iff in Hr. destruct Hr as (x & <- & Hx). destruct (md_row d 5 _ _ mb ms M Hu x Hx) as (r & Hr & G).
      exists r. split; [exact Hr|]. apply (proj1 (in_group_iff _ _ _)) in G. destruct G as [G1 G2]. cbn [rounded buying price] in L. rewrite G1, G2 in L.
      unfold rd in L. rewrite <- (md_demand_at d 5 _ _ mb ms M Hu), <- (md_supply_at d 5 _ _ mb ms M Hu) in L. exact L.
  Qed.
  Lemma one_sided_test l : Nat.eqb (length (buyers l)) 0 || Nat.eqb (length (buyers l)) (length l) = true <-> ~ two_sided l.
  Proof.
    unfold buyers, two_sided. rewrite orb_true_iff, !Nat.eqb_eq. split.
    - intros [H|H] [(b & B1 & B2) (s & S1 & S2)].
      + apply length_zero_iff_nil in H. assert (I : In b (filter buying l)) by (apply filter_In; auto). rewrite H in I. exact I.
      + assert (A : forall r, In r l -> buying r = true).
        { clear - H. induction l as [|a l IH]; [intros ? []|]. cbn [filter length] in H. destruct (buying a) eqn:Ba; cbn [length] in H.
          - intros r [<-|Hr]; [exact Ba|]. apply IH; [lia | exact Hr].
          - exfalso. assert (length (filter buying l) <= length l)%nat by (clear; induction l as [|y l IH]; cbn [filter length]; [lia|]; destruct (buying y); cbn [length]; lia). lia. }
        rewrite (A s S1) in S2. discriminate.
    - intro H. destruct (filter buying l) as [|b bl] eqn:F; [left; reflexivity|]. right. rewrite <- F. f_equal. apply filter_all.
      intros r Hr. destruct (buying r) eqn:B; [reflexivity|]. exfalso. apply H. split; [|exists r; auto].
      exists b. apply filter_In. rewrite F. left. reflexivity.
  Qed.
  Lemma md_two_sided : two_sided md <-> two_sided d.
  Proof. unfold two_sided. rewrite !md_side. reflexivity. Qed.

  (** splitting raises exactly if a transaction is on a group without quantity *)
  Lemma split_md tm : refer md (tm_trans tm) ->
    ((exists t r, In t (tm_trans tm) /\ In r md /\ lbl r = t_bid t /\ qty r = 0) -> split_transactions_merged_players tm d mp None = Err NaNProduced) /\
    ((forall t r, In t (tm_trans tm) -> In r md -> lbl r = t_bid t -> qty r <> 0) -> exists tm' ls, split_transactions_merged_players tm d mp None = Ok (tm', None) /\
       tm_trans tm' = concat ls /\
       Forall2 (fun t l => exists rows, nth_error mp (t_bid t) = Some rows /\ Split d rows t l) (tm_trans tm) ls).
  Proof.
    intro Ref.
    assert (G : forall t r, In t (tm_trans tm) -> In r md -> lbl r = t_bid t ->
      nth_error mp (t_bid t) = Some (map lbl (group_of 5 d r)) /\ qty r = qsumf qty (group_of 5 d r) /\ group_of 5 d r <> []).
    { intros t r Ht Hr El. destruct (merged_row _ _ _ _ _ _ M r Hr) as (rows & E1 & E2).
      destruct (merged_nth _ _ _ _ _ _ M _ _ _ E2 E1) as (_ & N & Eq & ->). rewrite <- El. auto. }
    assert (Pos : forall rs, (forall r, In r rs -> In r d) -> map (nth_error d) (map lbl rs) = map Some rs).
    { intros rs H. rewrite map_map. apply map_ext_in. intros r Hr. apply H in Hr. apply In_nth_error in Hr. destruct Hr as (i & Hi).
      assert (L : nth_error (map lbl d) i = Some (lbl r)) by (rewrite nth_error_map, Hi; reflexivity). rewrite Hl in L.
      assert (Li : (i < length d)%nat) by (apply nth_error_Some; congruence).
      rewrite (nth_error_nth' _ 0%nat) in L by (rewrite seq_length; exact Li). rewrite seq_nth in L by exact Li. injection L as <-. exact Hi. }
    split.
    - intros (t & r & Ht & Hr & El & Z). destruct (split_transactions_merged_players tm d mp None) as [x|e] eqn:E.
      + exfalso. destruct (proj1 (split_returns d mp tm None) (ex_intro _ x E) t Ht) as (rows & H1 & H2 & H3 & _).
        destruct (G t r Ht Hr El) as (G1 & G2 & G3). rewrite G1 in H1. injection H1 as <-. destruct H3 as [H3|H3].
        * apply G3. destruct (group_of 5 d r); [reflexivity | discriminate].
        * apply H3. rewrite <- Z, G2. unfold group_total. rewrite qsumf_map. apply qsumf_ext. intros x0 Hx0. cbv beta.
          assert (P : map (nth_error d) (map lbl (group_of 5 d r)) = map Some (group_of 5 d r)) by (apply Pos; intros y Hy; apply filter_In in Hy; tauto).
          rewrite map_map in P. assert (Q : nth_error d (lbl x0) = Some x0).
          { clear - P Hx0. induction (group_of 5 d r) as [|y l IH]; [destruct Hx0|]. cbn [map] in P. injection P as P1 P2. destruct Hx0 as [<-|Hx0]; auto. }
          rewrite Q. reflexivity.
      + f_equal. apply split_raises in E. destruct E as (l1 & t0 & l2 & E & _ & F).
        assert (Ht0 : In t0 (tm_trans tm)) by (rewrite E; apply in_or_app; right; left; reflexivity).
        destruct (Ref t0 Ht0) as (r0 & Hr0 & El0). destruct (G t0 r0 Ht0 Hr0 El0) as (G1 & G2 & G3).
        inversion F as [H|rows i H1 H2 H3|rows H1 H2 H3 H4|rows rs H1 H2 H3 H4 H5]; [congruence| |congruence|reflexivity].
        exfalso. rewrite G1 in H1. injection H1 as <-. apply in_map_iff in H2. destruct H2 as (x & <- & Hx). apply filter_In in Hx. destruct Hx as [Hx _].
        assert (I : In (lbl x) (seq 0 (length d))) by (rewrite <- Hl; apply in_map, Hx). apply in_seq in I. lia.
    - intro H. unfold split_transactions_merged_players.
      destruct (split_list_spec d mp false (tm_trans tm) tm_init Hl) as (ls & Es & F).
      { intros t Ht. destruct (Ref t Ht) as (r & Hr & El). destruct (G t r Ht Hr El) as (G1 & G2 & G3).
        exists (map lbl (group_of 5 d r)), (group_of 5 d r). split; [exact G1|]. split; [reflexivity|].
        split; [intros x Hx; apply filter_In in Hx; tauto|]. split; [|left; reflexivity]. rewrite <- G2. exact (H t r Ht Hr El). }
      rewrite Es. cbn [bind]. exists (add_all tm_init (concat ls)), ls. split; [reflexivity|]. split; [rewrite add_all_trans; reflexivity | exact F].
  Qed.
End Merge.

(** ** What the run raises *)
Theorem huang_run_any S smp cnt d : map lbl d = seq 0 (length d) ->
  let run := mechanism (Some (smp, cnt)) (huang_auction S) d in let rd := map (rounded 5) d in
  (~ two_sided d -> ~ lone_price (np_round 5) d -> run = Ok (tm_init, XEmpty)) /\
  (two_sided d -> short rd -> run = Err TypeError) /\
  (two_sided d -> ~ short rd -> exists md mp c tm0 ex, merge_same_price 5 smp d cnt = Ok (md, mp, c) /\ huang_auction S md = Ok (tm0, ex) /\
     ((exists t r, In t (tm_trans tm0) /\ In r md /\ lbl r = t_bid t /\ qty r = 0) -> run = Err NaNProduced) /\
     ((forall t r, In t (tm_trans tm0) -> In r md -> lbl r = t_bid t -> qty r <> 0) -> exists tm, run = Ok (tm, ex))).
Proof.
  intros Hl. cbv zeta. unfold mechanism.
  destruct (merge_same_price_ok 5 smp d cnt) as (mb & ms & c2 & E & M). rewrite E. cbn [bind].
  set (md := map fst (mb ++ ms)). set (mp := map snd (mb ++ ms)). 
  assert (Hu : labels_unique d) by (unfold labels_unique; rewrite Hl; apply seq_NoDup).
  pose proof (md_lone _ _ _ _ _ _ M Hu) as Lo. fold md in Lo.
  assert (R0 : ~ lone_price (np_round 5) d -> merged_run (huang_auction S) md = mech_run0 (huang_auction S) md).
  { intro N. apply merged_run_run0. destruct (lone_buyer md); [exfalso; apply N, Lo; reflexivity | reflexivity]. }
  assert (R1 : two_sided d -> merged_run (huang_auction S) md = mech_run0 (huang_auction S) md).
  { intros (_ & s & Hs & Bs). apply R0. intros (_ & B & _). rewrite (B s Hs) in Bs. discriminate. }
  pose proof (md_two_sided d _ _ mb ms M Hl) as T. fold md in T.
  pose proof (md_short d _ _ mb ms M Hl) as Sh. fold md in Sh.
  pose proof (overdrawn_short S md (merged_distinct _ _ _ _ _ _ M)) as O.
  pose proof (one_sided_test md) as One.
  split; [|split].
  - intros H L. rewrite (R0 L). unfold mech_run0. rewrite (proj2 One) by (rewrite T; exact H). reflexivity.
  - intros H1 H2. rewrite (R1 H1). unfold mech_run0. destruct (_ || _); [exfalso; apply (proj1 One eq_refl), T, H1|].
    rewrite (proj1 (huang_table S md)) by (apply O, Sh, H2). reflexivity.
  - intros H1 H2. rewrite (R1 H1). unfold mech_run0. destruct (_ || _); [exfalso; apply (proj1 One eq_refl), T, H1|].
    destruct (proj2 (huang_table S md)) as (tm0 & ex & Eh); [intro X; apply H2, Sh, O, X|].
    rewrite Eh. cbn [bind]. exists md, mp, c2, tm0, ex. split; [reflexivity|]. split; [exact Eh|].
    destruct (split_md d _ _ mb ms M Hl tm0 (huang_refer S md tm0 ex Eh)) as [A B]. fold md mp in A, B. split.
    + intro H. rewrite (A H). reflexivity.
    + intro H. destruct (B H) as (tm' & ls & -> & _). cbn [bind]. eauto.
Qed.
