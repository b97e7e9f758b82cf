(** Facts about the join of transactions and bids, profits and surplus. *)
From Verif Require Import QcTac Num ModelBase ModelHuang ModelStats ListFacts Spec SpecTrade SpecMuda SpecAlloc SpecStats TradeFacts AllocFacts LPFacts P2PTrades MudaHalf.

Lemma join_sum (P : row -> bool) g ts d : qsumf g (filter (fun tr => P (snd tr)) (join ts d)) =
  qsumf (fun r => qsumf (fun t => g (t, r)) (filter (fun t => Nat.eqb (t_bid t) (lbl r)) ts)) (filter P d).
Proof.
  induction ts as [|t ts IH]; [simpl; symmetry; apply qsumf_zero; reflexivity|].
  unfold join. cbn [flat_map]. rewrite filter_app, qsumf_app. fold (join ts d). rewrite IH.
  rewrite (qsumf_ext (fun r => qsumf _ (filter _ (t :: ts)))
    (fun r => (if Nat.eqb (lbl r) (t_bid t) then g (t, r) else 0) + qsumf (fun t => g (t, r)) (filter (fun t => Nat.eqb (t_bid t) (lbl r)) ts))).
  2:{ intros r _. cbn [filter]. rewrite Nat.eqb_sym. destruct (Nat.eqb (lbl r) (t_bid t)); [rewrite qsumf_cons; reflexivity | ring]. }
  rewrite qsumf_plus. f_equal. rewrite filter_map, qsumf_map, filter_filter. cbn [snd].
  rewrite !qsumf_filter. apply qsumf_ext. intros r _. destruct (P r), (Nat.eqb (lbl r) (t_bid t)); reflexivity.
Qed.

Lemma one_row d i : labels_unique d -> filter (fun r => Nat.eqb (lbl r) i) d = [] \/
  exists r, In r d /\ lbl r = i /\ filter (fun r => Nat.eqb (lbl r) i) d = [r].
Proof.
  unfold labels_unique. induction d as [|a d IH]; [left; reflexivity|]. simpl. intro H. inversion_clear H as [|? ? H1 H2].
  destruct (Nat.eqb (lbl a) i) eqn:E.
  - right. exists a. apply Nat.eqb_eq in E. rewrite filter_none; auto.
    intros x Hx. apply Nat.eqb_neq. intro Ex. apply H1. rewrite E, <- Ex. apply in_map, Hx.
  - destruct (IH H2) as [->|(r & ? & ? & ->)]; [auto | right; exists r; auto].
Qed.

Lemma join_side s f ts d : labels_unique d ->
  qsumf (fun tr => f (fst tr)) (filter (fun tr => Bool.eqb (buying (snd tr)) s) (join ts d)) = qsumf f (filter (on_side s d) ts).
Proof.
  intro Hu. induction ts as [|t ts IH]; [reflexivity|].
  unfold join. cbn [flat_map]. rewrite filter_app, qsumf_app. fold (join ts d). rewrite IH. cbn [filter].
  assert (E : qsumf (fun tr => f (fst tr)) (filter (fun tr => Bool.eqb (buying (snd tr)) s) (map (fun r => (t, r)) (filter (fun r => Nat.eqb (lbl r) (t_bid t)) d)))
    = if on_side s d t then f t else 0).
  { destruct (one_row d (t_bid t) Hu) as [E|(r & Hr & El & E)]; rewrite E.
    - assert (on_side s d t = false) as ->; [|reflexivity].
      unfold on_side. destruct (existsb _ d) eqn:X; [|reflexivity]. apply existsb_exists in X. destruct X as (x & Hx & Ex).
      apply andb_true_iff in Ex. destruct Ex as [Ex _]. assert (I : In x (filter (fun r => Nat.eqb (lbl r) (t_bid t)) d)) by (apply filter_In; auto).
      rewrite E in I. destruct I.
    - rewrite (on_side_in s d t r Hu Hr El). cbn [map filter snd]. destruct (Bool.eqb (buying r) s); [rewrite qsumf_cons, qsumf_nil; cbn [fst]; ring | reflexivity]. }
  rewrite E. destruct (on_side s d t); [rewrite qsumf_cons; reflexivity | ring].
Qed.

Lemma filter_buying (ts : list trans) (d : df) :
  filter (fun tr : trans * row => buying (snd tr)) (join ts d) = filter (fun tr => Bool.eqb (buying (snd tr)) true) (join ts d) /\
  filter (fun tr : trans * row => negb (buying (snd tr))) (join ts d) = filter (fun tr => Bool.eqb (buying (snd tr)) false) (join ts d).
Proof. split; apply filter_ext; intros [t r]; simpl; destruct (buying r); reflexivity. Qed.

(** ** profits *)
Lemma player_profits_spec d ts val : player_profits d ts val = map (fun u => user_gain val d u ts) (users_sorted d).
Proof.
  unfold player_profits. apply map_ext. intro u. unfold user_gain, by_user.
  etransitivity; [|exact (join_sum (fun r => Z.eqb (user r) u) (fun tr => gain_at val (t_price (fst tr)) (snd tr) * t_qty (fst tr)) ts d)].
  unfold qsumf. f_equal. apply map_ext. intros [t r]. unfold get_gain, gain_at. simpl. destruct (buying r); ring.
Qed.
Lemma market_profit_spec d ts fees : labels_unique d -> market_profit d ts fees = money true d ts - money false d ts + qsum fees.
Proof.
  intro Hu. unfold market_profit, money. destruct (filter_buying ts d) as [E1 E2]. rewrite E1, E2.
  rewrite <- (join_side true (fun t => t_price t * t_qty t) ts d Hu), <- (join_side false (fun t => t_price t * t_qty t) ts d Hu). reflexivity.
Qed.

(** the list of users *)
Lemma zinsert_in x l y : In y (zinsert x l) <-> y = x \/ In y l.
Proof. induction l as [|a l IH]; simpl; [intuition|]. destruct (x <=? a)%Z; simpl; [intuition|]. rewrite IH. intuition. Qed.
Lemma zinsert_sorted x l : StronglySorted Z.lt l -> ~ In x l -> StronglySorted Z.lt (zinsert x l).
Proof.
  induction l as [|a l IH]; intros H N; simpl; [repeat constructor|]. inversion_clear H as [|? ? H1 H2].
  destruct (Z.leb_spec x a).
  - constructor; [constructor; assumption|]. assert (x < a)%Z by (simpl in N; lia). constructor; [assumption|].
    eapply Forall_impl; [|exact H2]. simpl. intros; lia.
  - constructor; [apply IH; [assumption | simpl in N; tauto]|]. apply Forall_forall. intros y Hy. apply zinsert_in in Hy.
    destruct Hy as [->|Hy]; [lia|]. rewrite Forall_forall in H2. apply H2, Hy.
Qed.
Lemma zsort_in l y : In y (zsort l) <-> In y l.
Proof. induction l as [|a l IH]; [reflexivity|]. unfold zsort in *. simpl. rewrite zinsert_in, IH. intuition. Qed.
Lemma zsort_sorted l : NoDup l -> StronglySorted Z.lt (zsort l).
Proof.
  induction l as [|a l IH]; [constructor|]. intro H. inversion_clear H as [|? ? H1 H2]. unfold zsort. simpl. fold (zsort l).
  apply zinsert_sorted; [apply IH, H2 | rewrite zsort_in; exact H1].
Qed.
Lemma users_spec d : StronglySorted Z.lt (users_sorted d) /\ forall u, In u (users_sorted d) <-> exists r, In r d /\ user r = u.
Proof.
  unfold users_sorted. split; [apply zsort_sorted, uniqueZ_NoDup|]. intro u. rewrite zsort_in, uniqueZ_In, in_map_iff. split; intros (r & ? & ?); eauto.
Qed.
Lemma lt_NoDup l : StronglySorted Z.lt l -> NoDup l.
Proof.
  induction 1 as [|a l H IH F]; constructor; [|exact IH]. intro I. rewrite Forall_forall in F. specialize (F a I). lia.
Qed.

Lemma sum_by_user (g : row -> Qc) l : NoDup l -> forall d, (forall r, In r d -> In (user r) l) ->
  qsumf (fun u => qsumf g (by_user u d)) l = qsumf g d.
Proof.
  intros N d. induction d as [|a d IH]; intro H; [simpl; apply qsumf_zero; reflexivity|].
  rewrite (qsumf_ext _ (fun u => (if Z.eqb (user a) u then g a else 0) + qsumf g (by_user u d))).
  2:{ intros u _. unfold by_user. cbn [filter]. destruct (Z.eqb (user a) u); [rewrite qsumf_cons; reflexivity | ring]. }
  rewrite qsumf_plus, qsumf_cons, IH by (intros r Hr; apply H; right; exact Hr). f_equal.
  specialize (H a (or_introl eq_refl)). clear IH. induction N as [|u l Nu N IH]; [destruct H|]. rewrite qsumf_cons.
  destruct H as [Eu|H].
  - rewrite <- Eu, Z.eqb_refl. rewrite qsumf_zero; [ring|]. intros w Hw. destruct (Z.eqb_spec u w) as [->|]; [contradiction | reflexivity].
  - rewrite IH by exact H. destruct (Z.eqb_spec (user a) u) as [E|]; [rewrite E in H; contradiction | ring].
Qed.

Lemma money_rows s d tl : labels_unique d -> money s d tl =
  qsumf (fun r => qsumf (fun t => t_price t * t_qty t) (filter (fun t => Nat.eqb (t_bid t) (lbl r)) tl)) (filter (fun r => Bool.eqb (buying r) s) d).
Proof.
  intro Hu. unfold money. rewrite <- (join_side s (fun t => t_price t * t_qty t) tl d Hu).
  apply (join_sum (fun r => Bool.eqb (buying r) s) (fun tr => t_price (fst tr) * t_qty (fst tr))).
Qed.

Lemma total_gain v d tl : labels_unique d ->
  qsumf (fun r => qsumf (fun t => gain_at v (t_price t) r * t_qty t) (filter (fun t => Nat.eqb (t_bid t) (lbl r)) tl)) d =
  traded_surplus v d tl - (money true d tl - money false d tl).
Proof.
  intro Hu. rewrite !money_rows by exact Hu. unfold traded_surplus. rewrite !qsumf_filter, <- !qsumf_minus. apply qsumf_ext. intros r _.
  unfold traded_by, gain_at. destruct (buying r); cbn [Bool.eqb].
  - rewrite <- qsumf_scale; replace (qsumf _ _ - 0) with (qsumf (fun t => t_price t * t_qty t) (filter (fun t => Nat.eqb (t_bid t) (lbl r)) tl)) by ring; rewrite <- qsumf_minus. apply qsumf_ext. intros t _. ring.
  - rewrite <- qsumf_scale. replace (0 - _) with (- qsumf (fun t => t_price t * t_qty t) (filter (fun t => Nat.eqb (t_bid t) (lbl r)) tl)) by ring.
    rewrite <- qsumf_opp, <- qsumf_minus. apply qsumf_ext. intros t _. ring.
Qed.

Lemma entry_get m i : dict_get m i = entry m i.
Proof. induction m as [|[j v] m IH]; [reflexivity|]. simpl. rewrite IH. reflexivity. Qed.
Lemma rvalue_worth rp r : rvalue (match rp with Some m => m | None => [] end) r = worth rp r.
Proof. unfold rvalue, worth. destruct rp as [m|]; [rewrite entry_get|]; reflexivity. Qed.

Lemma player_ext d ts v w : (forall r, In r d -> v r = w r) -> player_profits d ts v = player_profits d ts w.
Proof.
  intro H. rewrite !player_profits_spec. apply map_ext. intro u. unfold user_gain. apply qsumf_ext. intros r Hr.
  apply filter_In in Hr. apply qsumf_ext. intros t _. unfold gain_at. rewrite H by tauto. reflexivity.
Qed.

(** the join is empty exactly if no transaction belongs to a bid *)
Lemma in_join t r ts d : In (t, r) (join ts d) <-> In t ts /\ In r d /\ lbl r = t_bid t.
Proof.
  unfold join. rewrite in_flat_map. split.
  - intros (t' & Ht & H). apply in_map_iff in H. destruct H as (r' & [= -> ->] & Hr). apply filter_In in Hr. destruct Hr as [Hr E]. apply Nat.eqb_eq in E. auto.
  - intros (Ht & Hr & E). exists t. split; [exact Ht|]. apply in_map_iff. exists r. split; [reflexivity|]. apply filter_In. split; [exact Hr|]. apply Nat.eqb_eq, E.
Qed.
Lemma join_some d ts : join ts d <> [] <-> some_deal d ts.
Proof.
  split.
  - intro H. destruct (join ts d) as [|[t r] l] eqn:E; [contradiction|]. exists t, r. apply in_join. rewrite E. left. reflexivity.
  - intros (t & r & H) E. apply in_join in H. rewrite E in H. exact H.
Qed.
(** [calculate_profits] raises exactly then *)
Lemma profits_raise d tl rp fees e rp' : calculate_profits d tl rp fees = (Err e, rp') <->
  e = ValueError /\ ~ some_deal d tl /\ rp' = snd (calculate_profits d tl rp fees).
Proof.
  rewrite <- join_some. unfold calculate_profits. cbv zeta. cbn [snd]. destruct (join tl d) as [|x l]; split.
  - intros [= <- <-]. auto.
  - intros (-> & _ & ->). reflexivity.
  - discriminate.
  - intros (_ & H & _). exfalso. apply H. discriminate.
Qed.
(** the meaning of [calculate_profits] *)
Theorem profits_meaning d tl rp fees : labels_unique d -> some_deal d tl -> exists us p rp',
  calculate_profits d tl rp fees = (Ok p, rp') /\
  StronglySorted Z.lt us /\ (forall u, In u us <-> exists r, In r d /\ user r = u) /\
  pr_bid p = map (fun u => user_gain price d u tl) us /\
  pr_reservation p = map (fun u => user_gain (worth rp) d u tl) us /\
  pr_market p = money true d tl - money false d tl + match fees with Some f => qsum f | None => 0 end.
Proof.
  intros Hu Sd. exists (users_sorted d). unfold calculate_profits. cbv zeta. apply join_some in Sd. eexists _, _. split; [destruct (join tl d); [contradiction|reflexivity]|].
  destruct (users_spec d) as [U1 U2]. split; [exact U1|]. split; [exact U2|]. cbn [pr_bid pr_reservation pr_market].
  split; [apply player_profits_spec|]. split.
  - rewrite <- player_profits_spec. apply player_ext. intros r Hr.
    destruct (dict_fill_spec (match rp with Some m => m | None => [] end) d) as [_ I]. rewrite (I Hu r Hr).
    rewrite <- rvalue_worth. reflexivity.
  - rewrite market_profit_spec by exact Hu. f_equal. destruct fees; [reflexivity|]. induction (length _); [reflexivity|]. simpl. rewrite IHn. ring.
Qed.

Lemma profits_are d tl rp fees p rp' : labels_unique d -> calculate_profits d tl rp fees = (Ok p, rp') -> exists us,
  StronglySorted Z.lt us /\ (forall u, In u us <-> exists r, In r d /\ user r = u) /\
  pr_bid p = map (fun u => user_gain price d u tl) us /\
  pr_reservation p = map (fun u => user_gain (worth rp) d u tl) us /\
  pr_market p = money true d tl - money false d tl + match fees with Some f => qsum f | None => 0 end.
Proof.
  intros Hu E. assert (Sd : some_deal d tl).
  { apply join_some. unfold calculate_profits in E. cbv zeta in E. destruct (join tl d); discriminate. }
  destruct (profits_meaning d tl rp fees Hu Sd) as (us & q & rq & E' & H). rewrite E in E'. injection E' as <- _. exists us. exact H.
Qed.
Theorem accounting d tl rp fees p rp' : labels_unique d -> calculate_profits d tl rp fees = (Ok p, rp') ->
  qsum (pr_bid p) + pr_market p = traded_surplus price d tl + match fees with Some f => qsum f | None => 0 end /\
  qsum (pr_reservation p) + pr_market p = traded_surplus (worth rp) d tl + match fees with Some f => qsum f | None => 0 end.
Proof.
  intros Hu E. destruct (profits_are d tl rp fees p rp' Hu E) as (us & S & I & P1 & P2 & P3).
  assert (T : forall v, qsum (map (fun u => user_gain v d u tl) us) = traded_surplus v d tl - (money true d tl - money false d tl)).
  { intro v. rewrite <- total_gain by exact Hu.
    apply (sum_by_user (fun r => qsumf (fun t => gain_at v (t_price t) r * t_qty t) (filter (fun t => Nat.eqb (t_bid t) (lbl r)) tl)) us).
    - apply lt_NoDup, S.
    - intros r Hr. apply I. eauto. }
  rewrite P1, P2, P3, !T. split; ring.
Qed.
