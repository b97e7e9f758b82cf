(** More bids never lower the optima of the statistics; runs in which more bids lower a price or the traded quantity. *)
From Verif Require Import QcTac Num ModelBase ModelCurves ModelHuang ModelMuda ModelStats Spec SpecTrade SpecMuda SpecStats SpecAlloc SpecHuang
  ListFacts AllocFacts CoverFacts LPFacts MarketFacts HuangFacts MudaWitness Sorter Conform.

Lemma nth_ext_opt {X} (l l' : list X) : (forall i, nth_error l i = nth_error l' i) -> l = l'.
Proof.
  revert l'. induction l as [|a l IH]; intros [|b l'] H; [reflexivity|discriminate (H 0%nat)|discriminate (H 0%nat)|].
  pose proof (H 0%nat) as E. cbn in E. injection E as ->. f_equal. apply IH. intro i. exact (H (Datatypes.S i)).
Qed.

(** nothing for the new bids *)
Definition extended (n : nat) (x : alloc) : alloc := fun b s => if Nat.ltb b n && Nat.ltb s n then x b s else 0.
Section Extend.
  Variables (d l : df) (x : alloc).
  Hypothesis Hl : map lbl (d ++ l) = seq 0 (length (d ++ l)).
  Hypothesis Hq : qty_nonneg (d ++ l).
  Let n := length d.
  Let x' := extended n x.
  Lemma label_at i r : nth_error (d ++ l) i = Some r -> lbl r = i.
  Proof.
    intro E. assert (H : nth_error (map lbl (d ++ l)) i = Some (lbl r)) by (rewrite nth_error_map, E; reflexivity).
    rewrite Hl in H. assert (L : (i < length (d ++ l))%nat) by (apply nth_error_Some; congruence).
    rewrite (nth_error_nth' _ 0%nat) in H by (rewrite seq_length; exact L). rewrite seq_nth in H by exact L. injection H as H. lia.
  Qed.
  Lemma old_label r : In r d -> Nat.ltb (lbl r) n = true.
  Proof.
    intro Hr. destruct (In_nth_error _ _ Hr) as [i E]. assert (L : (i < n)%nat) by (apply nth_error_Some; congruence).
    rewrite (label_at i r) by (rewrite nth_error_app1; assumption). apply Nat.ltb_lt, L.
  Qed.
  Lemma new_label r : In r l -> Nat.ltb (lbl r) n = false.
  Proof.
    intro Hr. destruct (In_nth_error _ _ Hr) as [i E].
    rewrite (label_at (n + i) r); [apply Nat.ltb_ge; lia|]. rewrite nth_error_app2 by (unfold n; lia). replace (n + i - length d)%nat with i by (unfold n; lia). exact E.
  Qed.
  Lemma old_labels : map lbl d = seq 0 (length d).
  Proof.
    apply nth_ext_opt. intro i. rewrite nth_error_map. destruct (nth_error d i) as [r|] eqn:E.
    - assert (L : (i < length d)%nat) by (apply nth_error_Some; congruence). cbn [option_map].
      rewrite (label_at i r) by (rewrite nth_error_app1; assumption). symmetry. rewrite (nth_error_nth' _ 0%nat) by (rewrite seq_length; exact L). rewrite seq_nth by exact L. reflexivity.
    - symmetry. apply nth_error_None. rewrite seq_length. apply nth_error_None, E.
  Qed.
  Lemma sum_s b : In b d -> qsumf (fun s => x' (lbl b) (lbl s)) (all_s (d ++ l)) = qsumf (fun s => x (lbl b) (lbl s)) (all_s d).
  Proof.
    intro Hb. unfold all_s. rewrite filter_app, qsumf_app. rewrite (qsumf_zero _ (filter _ l)).
    - rewrite (qsumf_ext _ (fun s => x (lbl b) (lbl s)) (filter _ d)); [ring|]. intros s Hs. apply filter_In in Hs. unfold x', extended. rewrite !old_label by tauto. reflexivity.
    - intros s Hs. apply filter_In in Hs. unfold x', extended. rewrite (new_label s), andb_false_r by tauto. reflexivity.
  Qed.
  Lemma sum_s0 b : In b l -> forall k, qsumf (fun s => k s * x' (lbl b) (lbl s)) (all_s (d ++ l)) = 0.
  Proof. intros Hb k. apply qsumf_zero. intros s Hs. unfold x', extended. rewrite (new_label b) by exact Hb. cbn [andb]. ring. Qed.
  Lemma sum_b s : In s d -> qsumf (fun b => x' (lbl b) (lbl s)) (all_b (d ++ l)) = qsumf (fun b => x (lbl b) (lbl s)) (all_b d).
  Proof.
    intro Hb. unfold all_b. rewrite filter_app, qsumf_app. rewrite (qsumf_zero _ (filter _ l)).
    - rewrite (qsumf_ext _ (fun b => x (lbl b) (lbl s)) (filter _ d)); [ring|]. intros b Hs. apply filter_In in Hs. unfold x', extended. rewrite !old_label by tauto. reflexivity.
    - intros b Hs. apply filter_In in Hs. unfold x', extended. rewrite (new_label b) by tauto. reflexivity.
  Qed.
  Lemma in_cases (f : row -> bool) r : In r (filter f (d ++ l)) -> (In r (filter f d) /\ In r d) \/ In r l.
  Proof. intro H. rewrite filter_app in H. apply in_app_or in H. destruct H as [H|H]; [left; split; [exact H|]|right]; apply filter_In in H; tauto. Qed.
  Lemma zero_b b s : In b l -> x' (lbl b) s = 0. Proof. intro H. unfold x', extended. rewrite (new_label b H). reflexivity. Qed.
  Lemma zero_s b s : In s l -> x' b (lbl s) = 0. Proof. intro H. unfold x', extended. rewrite (new_label s H), andb_false_r. reflexivity. Qed.
  Lemma extended_ok : alloc_ok d x -> alloc_ok (d ++ l) x'.
  Proof.
    intros (H0 & H1 & H2). split; [|split].
    - intros b s Hb Hs. destruct (in_cases _ b Hb) as [[Fb Ib]|Ib]; [|rewrite zero_b by exact Ib; qlra].
      destruct (in_cases _ s Hs) as [[Fs Is]|Is]; [|rewrite zero_s by exact Is; qlra]. unfold x', extended. rewrite !old_label by assumption. apply H0; assumption.
    - intros b Hb. destruct (in_cases _ b Hb) as [[Fb Ib]|Ib]; [rewrite sum_s by exact Ib; apply H1, Fb|].
      rewrite qsumf_zero by (intros s _; apply zero_b, Ib). apply Hq. apply in_or_app. right. exact Ib.
    - intros s Hs. destruct (in_cases _ s Hs) as [[Fs Is]|Is]; [rewrite sum_b by exact Is; apply H2, Fs|].
      rewrite qsumf_zero by (intros b _; apply zero_s, Is). apply Hq. apply in_or_app. right. exact Is.
  Qed.
  Lemma extended_compat : alloc_compat d x -> alloc_compat (d ++ l) x'.
  Proof.
    intros H b s Hb Hs P. destruct (in_cases _ b Hb) as [[Fb Ib]|Ib]; [|apply zero_b, Ib].
    destruct (in_cases _ s Hs) as [[Fs Is]|Is]; [|apply zero_s, Is]. unfold x', extended. rewrite !old_label by assumption. apply H; assumption.
  Qed.
  Lemma extended_volume : volume (d ++ l) x' = volume d x.
  Proof.
    unfold volume. unfold all_b at 1. rewrite filter_app, qsumf_app. rewrite (qsumf_zero _ (filter _ l)).
    - rewrite (qsumf_ext _ (fun b => qsumf (fun s => x (lbl b) (lbl s)) (all_s d)) (filter _ d)); [unfold all_b; ring|]. intros b Hb. apply filter_In in Hb. apply sum_s; tauto.
    - intros b Hb. apply filter_In in Hb. apply qsumf_zero. intros s _. apply zero_b; tauto.
  Qed.
  Lemma extended_welfare v : welfare (d ++ l) v x' = welfare d v x.
  Proof.
    rewrite !welfare_sums. f_equal.
    - unfold all_b at 1. rewrite filter_app, qsumf_app. rewrite (qsumf_zero _ (filter _ l)).
      + rewrite (qsumf_ext _ (fun b => v b * qsumf (fun s => x (lbl b) (lbl s)) (all_s d)) (filter _ d)); [unfold all_b; ring|]. intros b Hb. apply filter_In in Hb. rewrite sum_s by tauto. reflexivity.
      + intros b Hb. apply filter_In in Hb. rewrite qsumf_zero by (intros s _; apply zero_b; tauto). ring.
    - unfold all_s at 1. rewrite filter_app, qsumf_app. rewrite (qsumf_zero _ (filter _ l)).
      + rewrite (qsumf_ext _ (fun s => v s * qsumf (fun b => x (lbl b) (lbl s)) (all_b d)) (filter _ d)); [unfold all_s; ring|]. intros s Hs. apply filter_In in Hs. rewrite sum_b by tauto. reflexivity.
      + intros s Hs. apply filter_In in Hs. rewrite qsumf_zero by (intros b _; apply zero_s; tauto). ring.
  Qed.
End Extend.

Lemma labels_seq d : map lbl d = seq 0 (length d) -> labels_unique d.
Proof. intro H. unfold labels_unique. rewrite H. apply seq_NoDup. Qed.

Theorem optimum_volume_grows sv d l v vars v' vars' : map lbl (d ++ l) = seq 0 (length (d ++ l)) -> qty_nonneg (d ++ l) -> solver_ok sv ->
  maximum_traded_volume sv d = Ok (Some (v, vars)) -> maximum_traded_volume sv (d ++ l) = Ok (Some (v', vars')) -> v <= v'.
Proof.
  intros Hl Hq Sv E E'. pose proof (old_labels d l Hl) as Hd.
  assert (Hq1 : qty_nonneg d) by (intros r Hr; apply Hq, in_or_app; left; exact Hr).
  destruct (max_volume d Hd sv Hq1 Sv) as (x & t & vs & F & Ax & Cx & _). rewrite E in F. injection F as -> _.
  destruct (max_volume (d ++ l) Hl sv Hq Sv) as (x' & t' & vs' & F' & _ & _ & V' & _). rewrite E' in F'. injection F' as -> _. rewrite V'.
  rewrite <- (extended_volume d l x Hl). apply volume_le_cover; [apply extended_ok; assumption | apply extended_compat; assumption | apply labels_seq, Hl].
Qed.
Theorem optimum_welfare_grows sv rp d l v vars rp1 v' vars' rp2 : map lbl (d ++ l) = seq 0 (length (d ++ l)) -> qty_nonneg (d ++ l) -> solver_ok sv ->
  maximum_aggregated_utility sv d rp = Ok (Some (v, vars), rp1) -> maximum_aggregated_utility sv (d ++ l) rp = Ok (Some (v', vars'), rp2) -> v <= v'.
Proof.
  intros Hl Hq Sv E E'. pose proof (old_labels d l Hl) as Hd.
  assert (Hq1 : qty_nonneg d) by (intros r Hr; apply Hq, in_or_app; left; exact Hr).
  destruct (max_welfare_worth d Hd sv rp Hq1 Sv) as (x & p & vs & r1 & F & Ax & _). rewrite E in F. injection F as -> _ _.
  destruct (max_welfare_worth (d ++ l) Hl sv rp Hq Sv) as (x' & p' & vs' & r2 & F' & _ & _ & V' & _). rewrite E' in F'. injection F' as -> _ _. rewrite V'.
  rewrite <- (extended_welfare d l x Hl). apply welfare_le_surplus. apply extended_ok; assumption.
Qed.

(** ** What new bids add at most *)
Theorem optimum_volume_bound sv d l v vars v' vars' : map lbl (d ++ l) = seq 0 (length (d ++ l)) -> qty_nonneg (d ++ l) -> solver_ok sv ->
  maximum_traded_volume sv d = Ok (Some (v, vars)) -> maximum_traded_volume sv (d ++ l) = Ok (Some (v', vars')) -> v' <= v + qsumf qty l.
Proof.
  intros Hl Hq Sv E E'. pose proof (old_labels d l Hl) as Hd.
  assert (Hq1 : qty_nonneg d) by (intros r Hr; apply Hq, in_or_app; left; exact Hr).
  assert (Hq2 : qty_nonneg l) by (intros r Hr; apply Hq, in_or_app; right; exact Hr).
  destruct (max_volume d Hd sv Hq1 Sv) as (x & t & vs & F & _ & _ & V & _). rewrite E in F. injection F as -> _. rewrite V.
  destruct (max_volume (d ++ l) Hl sv Hq Sv) as (x' & t' & vs' & F' & A' & C' & _). rewrite E' in F'. injection F' as -> _.
  pose proof (volume_le_cover (d ++ l) x' t A' C' (labels_seq _ Hl)) as Le. revert Le. unfold wanted_above, offered_at, all_b, all_s. rewrite !filter_filter, !filter_app, !qsumf_app.
  intro Le. assert (Z : qsumf qty (filter (fun r => buying r && qltb t (price r)) l) + qsumf qty (filter (fun r => negb (buying r) && qleb (price r) t) l) <= qsumf qty l).
  { rewrite !qsumf_filter, <- qsumf_plus. apply qsumf_le. intros r Hr. specialize (Hq2 r Hr). destruct (buying r), (qltb t (price r)), (qleb (price r) t); cbn [andb negb]; qlra. }
  revert Le Z. erewrite (filter_ext (fun r => buying r && qltb t (price r))) by (intro; apply andb_comm). erewrite (filter_ext (fun r => negb (buying r) && qleb (price r) t)) by (intro; apply andb_comm).
  intros Le Z. qlra.
Qed.
Theorem optimum_welfare_bound sv rp d l v vars rp1 v' vars' rp2 : map lbl (d ++ l) = seq 0 (length (d ++ l)) -> qty_nonneg (d ++ l) -> solver_ok sv ->
  maximum_aggregated_utility sv d rp = Ok (Some (v, vars), rp1) -> maximum_aggregated_utility sv (d ++ l) rp = Ok (Some (v', vars'), rp2) ->
  exists p, clearing d (worth rp) p /\ v' <= v + surplus l (worth rp) p.
Proof.
  intros Hl Hq Sv E E'. pose proof (old_labels d l Hl) as Hd.
  assert (Hq1 : qty_nonneg d) by (intros r Hr; apply Hq, in_or_app; left; exact Hr).
  destruct (max_welfare_worth d Hd sv rp Hq1 Sv) as (x & p & vs & r1 & F & Ax & Cp & V & _). rewrite E in F. injection F as -> _ _.
  destruct (max_welfare_worth (d ++ l) Hl sv rp Hq Sv) as (x' & p' & vs' & r2 & F' & A' & _). rewrite E' in F'. injection F' as -> _ _.
  exists p. split; [exact Cp|]. rewrite V. pose proof (welfare_le_surplus (d ++ l) (worth rp) x' p A') as Le.
  unfold surplus in *. unfold all_b, all_s in *. rewrite !filter_app, !qsumf_app in Le. qlra.
Qed.

(** one more buyer, lower price *)
Definition calm : list bid := [B (qz 1) (qz 10) 0; A (qz 1) (qz 1) 1; A (qz 1) (qz 4) 2].
Definition price_below (a b : res num) : bool := match a, b with Ok (Fin x), Ok (Fin y) => qltb x y | _, _ => false end.
Lemma price_falls : exists (bs : list bid) (b : bid) p p', b_buying b = true /\ qty_pos (frame (bs ++ [b])) /\ price_nonneg (frame (bs ++ [b])) /\ prices_distinct (frame (bs ++ [b])) /\
  find_competitive_price SS (frame bs) = Ok (Fin p) /\ find_competitive_price SS (frame (bs ++ [b])) = Ok (Fin p') /\ p' < p.
Proof.
  assert (P : price_below (find_competitive_price SS (frame (calm ++ [B (qz 1) (qz 5) 3]))) (find_competitive_price SS (frame calm)) = true) by (vm_compute; reflexivity).
  destruct (find_competitive_price SS (frame calm)) as [[p| | |]|] eqn:E; destruct (find_competitive_price SS (frame (calm ++ [B (qz 1) (qz 5) 3]))) as [[p'| | |]|] eqn:E'; try discriminate P.
  cbn [price_below] in P. apply qltb_lt in P. exists calm, (B (qz 1) (qz 5) 3), p, p'. split; [reflexivity|]. split; [each_row|]. split; [each_row|]. split; [split; no_dup|]. auto.
Qed.
(** one more buyer, less trade *)
Definition busy : list bid := [B (qz 3) (qz 10) 0; B (qz 1) (qz 7) 5; A (qz 3) (qz 1) 1; A (qz 2) (qz 4) 2].
Definition idle_x (a : res (transmgr * extra)) : bool := match a with Ok (tm, XHuang _ _ _) => match tm_trans tm with [] => true | _ => false end | _ => false end.
Definition trading_x (d : df) (a : res (transmgr * extra)) : bool := match a with Ok (tm, XHuang _ _ _) => qltb 0 (bought d (tm_trans tm)) | _ => false end.
Lemma trade_falls : exists (bs : list bid) (b : bid) tm ps pb q tm' ps' pb' q', b_buying b = true /\ qty_pos (frame (bs ++ [b])) /\ price_nonneg (frame (bs ++ [b])) /\ prices_distinct (frame (bs ++ [b])) /\
  huang_auction SS (frame bs) = Ok (tm, XHuang ps pb q) /\ huang_auction SS (frame (bs ++ [b])) = Ok (tm', XHuang ps' pb' q') /\ 0 < bought (frame bs) (tm_trans tm) /\ tm_trans tm' = [].
Proof.
  assert (P : trading_x (frame busy) (huang_auction SS (frame busy)) = true) by (vm_compute; reflexivity).
  assert (P' : idle_x (huang_auction SS (frame (busy ++ [B (qz 8) (qz 11) 3]))) = true) by (vm_compute; reflexivity).
  destruct (huang_auction SS (frame busy)) as [[tm [|ps pb q| | |]]|] eqn:E; try discriminate P.
  destruct (huang_auction SS (frame (busy ++ [B (qz 8) (qz 11) 3]))) as [[tm' [|ps' pb' q'| | |]]|] eqn:E'; try discriminate P'.
  cbn [trading_x] in P. cbn [idle_x] in P'. apply qltb_lt in P. destruct (tm_trans tm') eqn:T'; [|discriminate P'].
  exists busy, (B (qz 8) (qz 11) 3), tm, ps, pb, q, tm', ps', pb', q'. split; [reflexivity|]. split; [each_row|]. split; [each_row|]. split; [split; no_dup|]. auto.
Qed.
