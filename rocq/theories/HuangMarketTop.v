(** [Market.run("huang")] described on the submitted bids: prices, traders and quantities. *)
From Verif Require Import QcTac Num NumFacts ModelBase ModelCurves ModelHuang ModelMuda ModelMerge ModelMarket ListFacts StoreFacts
  Spec SpecTrade SpecMerge SpecMuda SpecHuang CurveFacts IntersectFacts UpdateFacts TradeFacts HuangFacts MergeFacts HuangMarketFacts
  MudaPrice HuangTop HuangTruth.

Lemma sum_single {A} (l : list A) (a : A) (Q : A -> bool) v : NoDup l -> In a l -> Q a = true ->
  (forall b, In b l -> Q b = true -> b = a) -> qsumf (fun b => if Q b then v else 0) l = v.
Proof.
  induction 1 as [|x l N D IH]; [intros []|]. intros [->|I] Qa U; rewrite qsumf_cons.
  - rewrite Qa, qsumf_zero; [ring|]. intros y Hy. destruct (Q y) eqn:E; [|reflexivity].
    exfalso. apply N. rewrite <- (U y (or_intror Hy) E). exact Hy.
  - destruct (Q x) eqn:E; [exfalso; apply N; rewrite (U x (or_introl eq_refl) E); exact I|].
    rewrite IH by (auto; intros; apply U; auto; right; assumption). ring.
Qed.

Definition in_group (prec : Z) (r x : row) : bool := Bool.eqb (buying x) (buying r) && qeqb (np_round prec (price x)) (price r).
Lemma in_group_iff prec r x : in_group prec r x = true <-> buying x = buying r /\ np_round prec (price x) = price r.
Proof. unfold in_group. rewrite andb_true_iff, eqb_true_iff, qeqb_eq. tauto. Qed.

Section Merged.
  Variables (d : df) (prec : Z) (c0 c2 : Z) (mb ms : list (row * list nat)).
  Let md := map fst (mb ++ ms).
  Let mp := map snd (mb ++ ms).
  Hypothesis M : merge_ok prec d c0 mb ms c2.
  Hypothesis Hu : labels_unique d.
  Hypothesis Hq : qty_pos d.

  Lemma md_nodup : NoDup md.
  Proof. apply (NoDup_map_inv lbl). exact (merged_labels _ _ _ _ _ _ M). Qed.

  Lemma md_row x : In x d -> exists r, In r md /\ in_group prec r x = true.
  Proof.
    intro Hx. pose proof (merged_partition _ _ _ _ _ _ M) as P.
    assert (I : In (lbl x) (concat mp)) by (apply (Permutation_in _ (Permutation_sym P)), in_map, Hx).
    apply in_concat in I. destruct I as (rows & I1 & I2). apply In_nth_error in I1. destruct I1 as (i & I1).
    assert (Er : exists r, nth_error md i = Some r).
    { destruct (nth_error md i) eqn:E; [eauto|]. apply nth_error_None in E. unfold md in E.
      assert (i < length mp)%nat by (apply nth_error_Some; congruence). unfold mp in H. rewrite map_length in *. lia. }
    destruct Er as (r & Er). destruct (merged_nth _ _ _ _ _ _ M i r rows Er I1) as (_ & _ & _ & ->).
    apply in_map_iff in I2. destruct I2 as (y & Ey & Hy). exists r. split; [eapply nth_error_In; eauto|].
    apply filter_In in Hy. destruct Hy as [Hy1 Hy2]. assert (y = x) by (apply (NoDup_map_in lbl d); auto). subst y. exact Hy2.
  Qed.
  Lemma md_unique r1 r2 x : In x d -> In r1 md -> In r2 md -> in_group prec r1 x = true -> in_group prec r2 x = true -> r1 = r2.
  Proof.
    intros Hx H1 H2 G1 G2. apply (group_disjoint d prec c0 c2 mb ms M r1 r2 x H1 H2); apply filter_In; split; assumption.
  Qed.
  Lemma md_qty r : In r md -> qty r = qsumf qty (group_of prec d r).
  Proof.
    intro Hr. destruct (merged_row _ _ _ _ _ _ M r Hr) as (rows & E1 & E2).
    destruct (merged_nth _ _ _ _ _ _ M _ _ _ E2 E1) as (_ & _ & H & _). exact H.
  Qed.

  (** sums over the merged table are sums over the rounded bids *)
  Lemma md_sum (P : row -> bool) : (forall r s, buying r = buying s -> price r = price s -> P r = P s) ->
    qsumf qty (filter P md) = qsumf qty (filter P (map (rounded prec) d)).
  Proof.
    intro HP. rewrite !qsumf_filter, qsumf_map.
    rewrite (qsumf_ext _ (fun r => qsumf (fun x => if P r && in_group prec r x then qty x else 0) d)).
    2:{ intros r Hr. rewrite (md_qty r Hr). unfold group_of. rewrite qsumf_filter. change (fun x => Bool.eqb (buying x) (buying r) && qeqb (np_round prec (price x)) (price r)) with (in_group prec r).
        destruct (P r); cbn [andb]; [reflexivity|]. rewrite qsumf_zero; reflexivity. }
    rewrite qsumf_swap. apply qsumf_ext. intros x Hx. destruct (md_row x Hx) as (r0 & H0 & G0). simpl.
    assert (E : P (rounded prec x) = P r0) by (apply (proj1 (in_group_iff _ _ _)) in G0; apply HP; apply G0).
    rewrite E. destruct (P r0) eqn:Ep.
    - apply sum_single with (a := r0); [exact md_nodup | exact H0 | rewrite Ep, G0; reflexivity|].
      intros b Hb Qb. apply andb_true_iff in Qb. apply (md_unique b r0 x); tauto.
    - apply qsumf_zero. intros r Hr. destruct (in_group prec r x) eqn:G; [|rewrite andb_false_r; reflexivity].
      rewrite (md_unique r r0 x Hx Hr H0 G G0), Ep. reflexivity.
  Qed.
  Lemma md_demand_at p : demand_at md p = demand_at (map (rounded prec) d) p.
  Proof. apply md_sum. intros r s -> ->. reflexivity. Qed.
  Lemma md_demand_above p : demand_above md p = demand_above (map (rounded prec) d) p.
  Proof. apply md_sum. intros r s -> ->. reflexivity. Qed.
  Lemma md_supply_at p : supply_at md p = supply_at (map (rounded prec) d) p.
  Proof. apply md_sum. intros r s -> ->. reflexivity. Qed.
  Lemma md_supply_below p : supply_below md p = supply_below (map (rounded prec) d) p.
  Proof. apply md_sum. intros r s -> ->. reflexivity. Qed.
  Lemma md_marginal ps pb c : Marginal md ps pb c <-> Marginal (map (rounded prec) d) ps pb c.
  Proof.
    unfold Marginal. rewrite md_demand_above, md_demand_at, md_supply_below, md_supply_at.
    split; intros (A1 & A2 & A3 & A4 & A5 & A6 & A7); (do 6 (split; [assumption|])); intro p; specialize (A7 p);
      rewrite md_demand_at, md_supply_at in *; exact A7.
  Qed.
  Lemma md_pos : qty_pos md.
  Proof. intros r Hr. exact (proj1 (group_pos d prec c0 c2 mb ms M Hq r Hr)). Qed.
  Lemma md_asks : asks_pos (map (rounded prec) d) -> asks_pos md.
  Proof.
    intros Ha r Hr B. destruct (merged_price_round _ _ _ _ _ _ M r Hr) as (x & Hx & Bx & ->).
    apply (Ha (rounded prec x)); [apply in_map, Hx | simpl; congruence].
  Qed.
  Lemma md_group r x : in_group prec r x = true -> group_of prec d r = group_of prec d (rounded prec x).
  Proof.
    intro G. apply (proj1 (in_group_iff _ _ _)) in G. destruct G as [G1 G2]. unfold group_of. simpl. rewrite G1, G2. reflexivity.
  Qed.
  Lemma md_wins ps pb r x : in_group prec r x = true -> wins ps pb r = wins ps pb (rounded prec x).
  Proof.
    intro G. apply (proj1 (in_group_iff _ _ _)) in G. destruct G as [G1 G2]. unfold wins. simpl. rewrite G1, G2. reflexivity.
  Qed.

  Variables (tl : list trans) (ls : list (list trans)).
  Hypothesis Href : refer md tl.
  Hypothesis Hls : Forall2 (fun t l => exists rows, nth_error mp (t_bid t) = Some rows /\ Split d rows t l) tl ls.

  (** every bid gets its share of what its group trades *)
  Lemma parts_traded r x : In r md -> In x d -> in_group prec r x = true ->
    traded_by (lbl x) (concat ls) = traded_by (lbl r) tl * (qty x / qty r).
  Proof.
    intros Hr Hx G.
    assert (Q : forall tl' ls', Forall2 (fun t l => exists rows, nth_error mp (t_bid t) = Some rows /\ Split d rows t l) tl' ls' ->
      (forall t, In t tl' -> In t tl) -> traded_by (lbl x) (concat ls') = traded_by (lbl r) tl' * (qty x / qty r)).
    { induction 1 as [|t l tl' ls' Htl F IH]; intros Hin; [change (0 = 0 * (qty x / qty r)); ring|].
      simpl concat. rewrite traded_by_app, traded_by_cons, (IH (fun t Ht => Hin t (or_intror Ht))).
      destruct (part d prec c0 c2 mb ms tl M Hu Href t l (Hin t (or_introl eq_refl)) Htl) as (r' & Hr' & El & _ & ->).
      assert (E : traded_by (lbl x) (map (fun x => mkTrans (lbl x) (t_qty t * (qty x / qty r')) (t_price t) (t_source t) (t_active t)) (group_of prec d r'))
              = if Nat.eqb (t_bid t) (lbl r) then t_qty t * (qty x / qty r) else 0).
      { destruct (Nat.eqb_spec (t_bid t) (lbl r)) as [Eb|Eb].
        - assert (r' = r) by (apply (NoDup_map_in lbl md); [exact (merged_labels _ _ _ _ _ _ M) | exact Hr' | exact Hr | congruence]). subst r'.
          set (t0 := mkTrans (lbl x) (t_qty t * (qty x / qty r)) (t_price t) (t_source t) (t_active t)).
          change (t_qty t * (qty x / qty r)) with (t_qty t0). change (lbl x) with (t_bid t0). apply traded_by_once.
          + unfold once. rewrite map_map. simpl. apply NoDup_filter_map, Hu.
          + apply in_map_iff. exists x. split; [reflexivity|]. apply filter_In. split; assumption.
        - apply traded_by_absent. rewrite map_map. simpl. intro I. apply in_map_iff in I. destruct I as (y & Ey & Hy).
          assert (y = x) by (apply (NoDup_map_in lbl d); auto; apply filter_In in Hy; tauto). subst y.
          apply filter_In in Hy. destruct Hy as [_ Hy]. apply Eb. rewrite <- El. f_equal. apply (md_unique r' r x); assumption. }
      rewrite E. destruct (Nat.eqb (t_bid t) (lbl r)); ring. }
    apply Q; auto.
  Qed.
End Merged.

(** the price setters and the quantities of the whole run *)
Theorem huang_market_top S smp cnt d tm ex : map lbl d = seq 0 (length d) -> qty_pos d -> price_nonneg d ->
  mechanism (Some (smp, cnt)) (huang_auction S) d = Ok (tm, ex) ->
  let rd := map (rounded 5) d in
  (ex = XEmpty /\ tm_trans tm = [] /\ (asks_pos rd -> forall ps pb c, ~ Marginal rd ps pb c)) \/
  (exists ps pb q, ex = XHuang ps pb q /\ (exists c, Marginal rd ps pb c) /\
    (tm_trans tm = [] /\ ((forall r, In r rd -> buying r = true -> wins ps pb r = false) \/
                          (forall r, In r rd -> buying r = false -> wins ps pb r = false)) \/
     exists tb ts, 0 <= tb /\ 0 <= ts /\ (tb = 0 \/ ts = 0) /\
       (exists b s, In b rd /\ In s rd /\ buying b = true /\ buying s = false /\ wins ps pb b = true /\ wins ps pb s = true) /\
       q = qmin (demand_above rd pb) (supply_below rd ps) /\ bought d (tm_trans tm) = q /\
       forall x, In x d -> traded_by (lbl x) (tm_trans tm) =
         if wins ps pb (rounded 5 x)
         then qmax 0 (qsumf qty (group_of 5 d (rounded 5 x)) - (if buying x then tb else ts)) * (qty x / qsumf qty (group_of 5 d (rounded 5 x)))
         else 0)).
Proof.
  intros Hl Hq Hp. unfold mechanism.
  assert (Hu : labels_unique d) by (unfold labels_unique; rewrite Hl; apply seq_NoDup).
  assert (Hq0 : qty_nonneg d) by (intros r Hr; apply Qclt_le_weak, Hq, Hr).
  destruct (merge_same_price_ok 5 smp d cnt) as (mb & ms & c2 & E & M). rewrite E. cbn [bind].
  set (md := map fst (mb ++ ms)). set (mp := map snd (mb ++ ms)).
  pose proof (merged_qty_nonneg _ _ _ _ _ _ M Hq0) as Mq. pose proof (merged_price_nonneg _ _ _ _ _ _ M Hp) as Mp.
  pose proof (merged_labels _ _ _ _ _ _ M) as Mu. pose proof (merged_distinct _ _ _ _ _ _ M) as Md.
  fold md in Mq, Mp, Mu, Md.
  destruct (merged_run (huang_auction S) md) as [[tm0 ex0]|e] eqn:T; cbn [bind]; [|intro X; discriminate X]. apply merged_run_ok in T.
  destruct (huang_strict S md tm0 ex0 Mq Mp Mu Md T) as (B1 & B2 & B3 & B4 & _).
  unfold split_transactions_merged_players.
  destruct (split_list_spec d mp false (tm_trans tm0) tm_init Hl) as (ls & Es & F).
  { intros t Ht. destruct (B3 t Ht) as (r & Hr & El).
    destruct (merged_row _ _ _ _ _ _ M r Hr) as (rows & E1 & E2).
    destruct (merged_nth _ _ _ _ _ _ M _ _ _ E2 E1) as (_ & N & Eq & ->).
    exists (map lbl (group_of 5 d r)), (group_of 5 d r).
    split; [rewrite <- El; exact E1|]. split; [reflexivity|].
    split; [intros x Hx; apply filter_In in Hx; tauto|]. split; [|left; reflexivity].
    rewrite <- Eq. destruct (group_pos d 5 _ _ mb ms M Hq r Hr) as [P _]. intro Z. rewrite Z in P. qlra. }
  rewrite Es. cbn [bind]. intro X. injection X as <- <-. set (rd := map (rounded 5) d). rewrite add_all_trans. change (tm_trans tm_init ++ concat ls) with (concat ls).
  assert (Ebs : bought d (concat ls) = bought md (tm_trans tm0)) by exact (parts_side d 5 _ _ mb ms _ ls M Hu Hq B3 F true).
  assert (Nil : tm_trans tm0 = [] -> concat ls = []) by (intro Z; rewrite Z in F; inversion F; reflexivity).
  (* a one sided market *)
  unfold mech_run0 in T. destruct (Nat.eqb (length (buyers md)) 0 || Nat.eqb (length (buyers md)) (length md)) eqn:One.
  { injection T as <- <-. left. split; [reflexivity|]. split; [apply Nil; reflexivity|].
    intros _ ps pb c Mg. apply (md_marginal d 5 _ _ mb ms M Hu) in Mg. fold md in Mg. destruct Mg as (P & L & D1 & D2 & D3 & D4 & _).
    apply orb_true_iff in One. destruct One as [One|One]; apply Nat.eqb_eq in One.
    - unfold buyers in One. apply length_zero_iff_nil in One.
      assert (Z : demand_at md pb = 0).
      { unfold demand_at. rewrite <- filter_filter, One. reflexivity. }
      rewrite Z in D2. qlra.
    - assert (A : forall r, In r md -> buying r = true).
      { clear - One. unfold buyers in One. revert One. induction md as [|a l IH]; [intros _ ? []|]. simpl. destruct (buying a) eqn:Ba; simpl; intro H.
        - intros r [<-|Hr]; [exact Ba|]. apply IH; [lia | exact Hr].
        - exfalso. assert (length (filter buying l) <= length l)%nat by (clear; induction l as [|y l IH]; simpl; [lia|]; destruct (buying y); simpl; lia). lia. }
      assert (Z : supply_at md ps = 0).
      { unfold supply_at. rewrite filter_none; [reflexivity|]. intros r Hr. rewrite (A r Hr). reflexivity. }
      rewrite Z in D4. qlra. }
  pose proof (md_pos d 5 _ _ mb ms M Hq) as Mpos. fold md in Mpos.
  assert (Row : forall x, In x d -> exists r, In r md /\ in_group 5 r x = true) by exact (md_row d 5 _ _ mb ms M Hu).
  destruct ex0 as [|ps pb q| | |]; try solve [exfalso; pose proof (huang_cases S md Mq Mp) as C; rewrite T in C; inversion C].
  - left. split; [reflexivity|]. split.
    + apply Nil. pose proof (huang_cases S md Mq Mp) as C. rewrite T in C. inversion C. reflexivity.
    + intros Ha ps pb c Mg. apply (md_marginal d 5 _ _ mb ms M Hu) in Mg. fold md in Mg.
      destruct (marginal_huang S md Mq Mp ps pb c (md_asks d 5 _ _ mb ms M Ha) Mg) as (tm2 & q2 & E2). fold md in E2. rewrite T in E2. discriminate E2.
  - right. exists ps, pb, q. split; [reflexivity|]. split.
    { destruct (huang_marginal S md Mq Mp tm0 ps pb q Mpos T) as (c & Mg & _). exists c. apply (md_marginal d 5 _ _ mb ms M Hu). exact Mg. }
    destruct (huang_traders S md Mq Mp Mu tm0 ps pb q Md T) as (_ & _ & T1 & T2). cbv zeta in T1, T2.
    assert (NoB : forall b0, (forall r, In r md -> buying r = b0 -> wins ps pb r = false) -> forall r, In r rd -> buying r = b0 -> wins ps pb r = false).
    { intros b0 H r Hr Br. apply in_map_iff in Hr. destruct Hr as (x & <- & Hx). destruct (Row x Hx) as (r0 & H0 & G).
      rewrite <- (md_wins 5 ps pb r0 x G). apply H; [exact H0|]. apply (proj1 (in_group_iff _ _ _)) in G. destruct G as [G _]. rewrite <- G. exact Br. }
    destruct (filter (fun r => buying r && qltb pb (price r)) md) as [|b Lb] eqn:Fb.
    { left. split; [apply Nil, T1; auto|]. left. apply NoB. intros r Hr Br. unfold wins. rewrite Br.
      destruct (qltb pb (price r)) eqn:Q; [|reflexivity]. exfalso.
      assert (I : In r (filter (fun r => buying r && qltb pb (price r)) md)) by (apply filter_In; rewrite Br, Q; auto). rewrite Fb in I. exact I. }
    destruct (filter (fun r => negb (buying r) && qltb (price r) ps) md) as [|s Ls] eqn:Fs.
    { left. split; [apply Nil, T1; auto|]. right. apply NoB. intros r Hr Br. unfold wins. rewrite Br.
      destruct (qltb (price r) ps) eqn:Q; [|reflexivity]. exfalso.
      assert (I : In r (filter (fun r => negb (buying r) && qltb (price r) ps) md)) by (apply filter_In; rewrite Br, Q; auto). rewrite Fs in I. exact I. }
    right. clear T1. destruct T2 as [T2 T3]; [discriminate | discriminate |].
    assert (Ib : In b md /\ buying b && qltb pb (price b) = true) by (apply (filter_In (fun r => buying r && qltb pb (price r))); rewrite Fb; left; reflexivity).
    assert (Is : In s md /\ negb (buying s) && qltb (price s) ps = true) by (apply (filter_In (fun r => negb (buying r) && qltb (price r) ps)); rewrite Fs; left; reflexivity).
    destruct Ib as [Ib Wb], Is as [Is Ws]. apply andb_true_iff in Wb. apply andb_true_iff in Ws. destruct Wb as [Bb Wb], Ws as [Bs Ws]. apply negb_true_iff in Bs.
    assert (Ne : tm_trans tm0 <> []).
    { intro Z. destruct (T2 b Ib) as [_ T4]. rewrite Z in T4. apply T4. left. left. reflexivity. }
    destruct (huang_rationing S md Mq Mp tm0 _ Mu T) as (tb & ts & R1 & R2 & R3 & R). exists tb, ts.
    split; [exact R1|]. split; [exact R2|]. split; [exact R3|].
    assert (Back : forall r, In r md -> exists x, In (rounded 5 x) rd /\ in_group 5 r x = true).
    { intros r Hr. destruct (merged_price_round _ _ _ _ _ _ M r Hr) as (x & Hx & Bx & Px). exists x. split; [apply in_map, Hx|]. apply in_group_iff. auto. }
    split.
    { destruct (Back b Ib) as (xb & Xb & Gb). destruct (Back s Is) as (xs & Xs & Gs). exists (rounded 5 xb), (rounded 5 xs).
      split; [exact Xb|]. split; [exact Xs|]. rewrite <- (md_wins 5 ps pb b xb Gb), <- (md_wins 5 ps pb s xs Gs).
      apply (proj1 (in_group_iff _ _ _)) in Gb. apply (proj1 (in_group_iff _ _ _)) in Gs. simpl. rewrite (proj1 Gb), (proj1 Gs).
      unfold wins. rewrite Bb, Bs. auto. }
    destruct (huang_summary S md Mq Mp Mu tm0 _ T) as (_ & _ & _ & _ & _ & _ & H & _).
    destruct (H Ne) as (ps' & pb' & q' & Ex & Eq). injection Ex as <- <- <-.
    split; [rewrite Eq, T3; unfold rd; rewrite <- (md_demand_above d 5 _ _ mb ms M Hu), <- (md_supply_below d 5 _ _ mb ms M Hu); reflexivity|].
    split; [congruence|].
    intros x Hx. destruct (Row x Hx) as (r & Hr & G).
    rewrite (parts_traded d 5 _ _ mb ms M Hu (tm_trans tm0) ls B3 F r x Hr Hx G).
    rewrite <- (md_wins 5 ps pb r x G). rewrite <- (md_group d 5 r x G).
    rewrite <- (md_qty d 5 _ _ mb ms M r Hr).
    pose proof (T2 r Hr) as I. rewrite <- Fb, <- Fs in I. rewrite (in_better md ps pb r Hr) in I.
    destruct (wins ps pb r) eqn:W.
    + destruct I as [_ I]. specialize (I eq_refl). apply in_map_iff in I. destruct I as (t & Et & Ht).
      rewrite <- Et, (traded_by_once _ t B2 Ht). rewrite (R t r Ht Hr (eq_sym Et)).
      apply (proj1 (in_group_iff _ _ _)) in G. rewrite (proj1 G). reflexivity.
    + rewrite traded_by_absent; [ring|]. intro I'. apply I in I'. discriminate I'.
Qed.
