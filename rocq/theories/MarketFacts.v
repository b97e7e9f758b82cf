(** Facts about [Market.run] and [Market.statistics]. *)
From Verif Require Import QcTac Num ModelBase ModelHuang ModelMuda ModelP2P ModelMerge ModelMarket ModelStats ListFacts Spec SpecMarket SpecMerge SpecAlloc SpecStats
  LPFacts StoreFacts MergeFacts HuangMarketFacts P2PFacts StatsFacts FairFacts FairRuns StatsTop.

Lemma session_app S sv m a b : session S sv m (a ++ b) = session S sv (session S sv m a) b.
Proof. apply fold_left_app. Qed.
Theorem last_run S sv ops : LastRun S ops (mk_trans (session S sv market_init ops)) (mk_extra (session S sv market_init ops)).
Proof.
  induction ops as [|o ops IH] using rev_ind; [constructor|]. rewrite session_app. pose proof (session_df S sv ops) as D.
  set (m := session S sv market_init ops) in *. unfold session. cbn [fold_left step].
  destruct o as [b|a|rp ex]; cbn [step].
  - apply LR_bid. unfold accept_bid. destruct (add_bid (mk_bm m) b). exact IH.
  - unfold market_run. rewrite D. destruct (run_algo S a (rows_from 0 (accepted ops))) as [[t x]|e] eqn:E.
    + apply LR_run, E.
    + eapply LR_raise; eauto.
  - apply LR_stats. unfold statistics. destruct (stats_loop sv m rp ex STATS). exact IH.
Qed.
Lemma run_cases S m a : mk_bm (fst (market_run S m a)) = mk_bm m /\
  match snd (market_run S m a) with
  | Ok (t, x) => mk_trans (fst (market_run S m a)) = t /\ mk_extra (fst (market_run S m a)) = x
  | Err _ => fst (market_run S m a) = m
  end /\ (forall m', get_df (mk_bm m') = get_df (mk_bm m) -> snd (market_run S m' a) = snd (market_run S m a)).
Proof.
  split; [|split].
  - unfold market_run. destruct (run_algo S a (get_df (mk_bm m))) as [[t x]|e]; reflexivity.
  - unfold market_run. destruct (run_algo S a (get_df (mk_bm m))) as [[t x]|e]; simpl; auto.
  - intros m' E. rewrite !market_run_snd, E. reflexivity.
Qed.

Lemma one_sided_run0 f d : one_sided d -> mech_run0 f d = Ok (tm_init, XEmpty).
Proof.
  intro H. unfold mech_run0, buyers. destruct H as [H|H].
  - rewrite filter_all by exact H. rewrite Nat.eqb_refl, orb_true_r. reflexivity.
  - rewrite filter_none by exact H. reflexivity.
Qed.
Theorem one_sided_run S m a : a <> AUnknown -> one_sided (get_df (mk_bm m)) ->
  match a with AHuang _ _ => ~ lone_price (np_round 5) (get_df (mk_bm m)) | _ => True end -> snd (market_run S m a) = Ok (tm_init, XEmpty).
Proof.
  intros Ha H Lo. rewrite market_run_snd. destruct a as [smp cnt|fl|c r|]; cbn [run_algo mechanism]; try (apply one_sided_run0; exact H); [|congruence].
  set (d := get_df (mk_bm m)) in *. destruct (merge_statement 5 smp d cnt) as (md & mp & c & E & Len & _ & _ & G & _). rewrite E. cbn [bind].
  destruct (merge_same_price_ok 5 smp d cnt) as (mb & ms & c2 & E' & M). rewrite E in E'. injection E' as Emd _ _.
  assert (O : one_sided md).
  { assert (K : forall r, In r md -> exists x, In x d /\ buying x = buying r).
    { intros r Hr. apply In_nth_error in Hr. destruct Hr as (i & Hi). destruct (nth_error mp i) as [rows|] eqn:Er.
      - destruct (G i r rows Hi Er) as (Ne & _). destruct (group_of 5 d r) as [|x l] eqn:Eg; [congruence|].
        assert (I : In x (group_of 5 d r)) by (rewrite Eg; left; reflexivity). apply filter_In in I. destruct I as [I B].
        apply andb_true_iff in B. destruct B as [B _]. apply eqb_prop in B. eauto.
      - exfalso. apply nth_error_None in Er. assert (i < length md)%nat by (apply nth_error_Some; congruence). lia. }
    destruct H as [H|H]; [left | right]; intros r Hr; destruct (K r Hr) as (x & Hx & B); rewrite <- B; apply H, Hx. }
  rewrite merged_run_run0, (one_sided_run0 _ _ O); [reflexivity|].
  destruct (lone_buyer _) eqn:L; [exfalso; apply Lo|reflexivity]. apply (md_lone _ _ _ _ _ _ M); [|rewrite <- Emd; exact L]. unfold labels_unique, d. rewrite get_df_lbl. apply seq_NoDup.
Qed.

(** ** statistics *)
Lemma stats_market sv m rp ex : fst (fst (statistics sv m rp ex)) = m.
Proof. unfold statistics. destruct (stats_loop sv m rp ex STATS). reflexivity. Qed.

Definition stat_mem (ex : list stat) (s : stat) : bool := existsb (stat_eqb s) ex.
Lemma stat_mem_in ex s : stat_mem ex s = true <-> In s ex.
Proof.
  unfold stat_mem. rewrite existsb_exists. split.
  - intros (x & Hx & E). destruct s, x; try discriminate; exact Hx.
  - intros H. exists s. split; [exact H|]. destruct s; reflexivity.
Qed.
Section Stats.
  Variables (S : sorter) (sv : solver) (ops : list op).
  Hypothesis Ops : Forall op_ok ops.
  Hypothesis Hsv : solver_ok sv.
  Let m := session S sv market_init ops.
  Let d := get_df (mk_bm m).
  Let tl := tm_trans (mk_trans m).
  Theorem stats_complete rp ex : tl <> [] -> exists t w p rp',
    percentage_traded sv d tl = Ok t /\ percentage_welfare sv d tl rp = Ok w /\ calculate_profits d tl rp (extra_fees (mk_extra m)) = (Ok p, rp') /\
    statistics sv m rp ex =
      (m, (if stat_mem ex SProfits then rp else rp'),
       Ok (filter (fun sv => negb (stat_mem ex (fst sv))) [(STraded, VRatio t); (SWelfare, VRatio w); (SProfits, VProfits p)])).
  Proof.
    destruct (history_traded S sv ops Ops Hsv) as (t & Et & _). destruct (history_welfare S sv ops Ops rp Hsv) as (w & Ew & _).
    intro Ne. fold m d tl in Et, Ew. destruct (calculate_profits d tl rp (extra_fees (mk_extra m))) as [[p|e] rp'] eqn:Ep.
    2:{ exfalso. apply profits_raise in Ep. destruct Ep as (_ & Nd & _). apply Nd. destruct tl as [|y l] eqn:El; [contradiction|].
        destruct (fair_refer _ _ (inv_fair m (inv_session S sv ops Ops _ inv_init)) y) as (r & Hr & E); [fold m tl; rewrite El; left; reflexivity|].
        exists y, r. split; [left; reflexivity|]. auto. }
    exists t, w, p, rp'. split; [exact Et|]. split; [exact Ew|]. split; [reflexivity|].
    unfold statistics, STATS. cbn [stats_loop filter fst]. fold (stat_mem ex STraded). fold (stat_mem ex SWelfare). fold (stat_mem ex SProfits).
    unfold run_stat. fold d tl. rewrite Et, Ew, Ep. cbn [bind].
    destruct (stat_mem ex STraded), (stat_mem ex SWelfare), (stat_mem ex SProfits); rewrite ?Et; cbn [bind]; rewrite ?Ew; cbn [bind]; rewrite ?Ep; reflexivity.
  Qed.
End Stats.

(** ** the caller's dictionary *)
Lemma fill_get m : forall l i, dict_get (dict_fill m l) i =
  match dict_get m i with Some v => Some v | None => match find (fun r => Nat.eqb (lbl r) i) l with Some r => Some (price r) | None => None end end.
Proof.
  intro l. unfold dict_fill. revert m. induction l as [|a l IH]; intros m i; simpl; [destruct (dict_get m i); reflexivity|].
  assert (G : forall m i j v, dict_get (m ++ [(j, v)]) i = match dict_get m i with Some w => Some w | None => if Nat.eqb j i then Some v else None end).
  { clear. induction m as [|[k w] m IH]; intros i j v; simpl; [reflexivity|]. destruct (Nat.eqb k i); [reflexivity | apply IH]. }
  rewrite IH. destruct (dict_get m (lbl a)) as [w|] eqn:E.
  - destruct (dict_get m i) eqn:Ei; [reflexivity|]. destruct (Nat.eqb_spec (lbl a) i) as [<-|]; [congruence | reflexivity].
  - rewrite G. destruct (dict_get m i); [reflexivity|]. destruct (Nat.eqb (lbl a) i); reflexivity.
Qed.
Lemma fill_all m : forall l, (forall r, In r l -> dict_get m (lbl r) <> None) -> dict_fill m l = m.
Proof.
  unfold dict_fill. induction l as [|a l IH]; intro H; [reflexivity|]. simpl. destruct (dict_get m (lbl a)) eqn:E; [|exfalso; apply (H a); [left|]; auto].
  apply IH. intros r Hr. apply H. right. exact Hr.
Qed.
Theorem dict_effect d tl rp fees : snd (calculate_profits d tl rp fees) = match rp with None => None | Some m => Some (dict_fill m d) end /\
  (forall m, (forall r, In r d -> dict_get m (lbl r) <> None) -> snd (calculate_profits d tl (Some m) fees) = Some m) /\
  (forall m i, dict_get (dict_fill m d) i = match dict_get m i with Some v => Some v | None => match find (fun r => Nat.eqb (lbl r) i) d with Some r => Some (price r) | None => None end end).
Proof.
  split; [destruct rp; reflexivity|]. split; [|intros m i; apply fill_get]. intros m H. cbn [calculate_profits snd option_map]. rewrite fill_all by exact H. reflexivity.
Qed.
Theorem stats_dict sv m rp ex : exists rp', snd (fst (statistics sv m rp ex)) = rp' /\ (rp' = rp \/ rp' = option_map (fun x => dict_fill x (get_df (mk_bm m))) rp).
Proof.
  eexists. split; [reflexivity|]. unfold statistics, STATS. cbn [stats_loop].
  unfold run_stat, calculate_profits.
  destruct (percentage_traded sv (get_df (mk_bm m)) (tm_trans (mk_trans m))) eqn:Et, (percentage_welfare sv (get_df (mk_bm m)) (tm_trans (mk_trans m)) rp) eqn:Ew;
  destruct (existsb (stat_eqb STraded) ex), (existsb (stat_eqb SWelfare) ex), (existsb (stat_eqb SProfits) ex);
  do 3 (try rewrite Et; try rewrite Ew; cbn [bind fst snd]); destruct (join (tm_trans (mk_trans m)) (get_df (mk_bm m))), rp; cbn [bind fst snd]; auto.
Qed.

Theorem max_welfare_worth d : map lbl d = seq 0 (length d) -> forall sv rp, qty_nonneg d -> solver_ok sv ->
  exists x p vars rp', maximum_aggregated_utility sv d rp = Ok (Some (welfare d (worth rp) x, vars), rp') /\
    alloc_ok d x /\ clearing d (worth rp) p /\ welfare d (worth rp) x = surplus d (worth rp) p /\
    (forall v, In v vars -> exists b s, In b (all_b d) /\ In s (all_s d) /\ v = ((lbl b, lbl s), x (lbl b) (lbl s))).
Proof.
  intros Hl sv rp Hq Hsv. destruct (max_welfare d Hl sv rp Hq Hsv) as (x & p & vars & E & X1 & X2 & X3 & X4).
  set (m := match rp with Some m => m | None => [] end) in *.
  assert (W : forall r, rvalue m r = worth rp r) by (intro r; apply rvalue_worth).
  assert (W1 : welfare d (worth rp) x = welfare d (rvalue m) x).
  { unfold welfare. apply qsumf_ext. intros b _. apply qsumf_ext. intros s _. rewrite !W. reflexivity. }
  exists x, p, vars. eexists. rewrite W1. split; [exact E|]. split; [exact X1|]. split; [|split; [|exact X4]].
  - unfold clearing, wanted_above, wanted_at, offered_at, offered_below in *.
    rewrite !(filter_ext (fun r => qltb p (worth rp r)) (fun r => qltb p (rvalue m r))), !(filter_ext (fun r => qleb (worth rp r) p) (fun r => qleb (rvalue m r) p)),
      !(filter_ext (fun r => qltb (worth rp r) p) (fun r => qltb (rvalue m r) p)), !(filter_ext (fun r => qleb p (worth rp r)) (fun r => qleb p (rvalue m r))) by (intro; rewrite W; reflexivity).
    exact X2.
  - rewrite X3. unfold surplus. f_equal; apply qsumf_ext; intros r _; rewrite W; reflexivity.
Qed.
