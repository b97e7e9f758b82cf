(** Statements about the statistics in rounded arithmetic. *)
From Verif Require Import QcTac Num ModelBase ModelMuda ModelStats ModelRound ModelRoundStats Spec SpecTrade SpecMuda SpecStats SpecRound SpecRoundStats
  ListFacts TradeFacts P2PTrades MudaHalf AllocFacts LPFacts StatsFacts StatsTop P2PFacts RoundFacts RoundError RoundP2P RoundStats.

(** ** Counting rows of the join *)
Lemma list_sum_plus {X} (f g : X -> nat) l : list_sum (map (fun x => f x + g x)%nat l) = (list_sum (map f l) + list_sum (map g l))%nat.
Proof. unfold list_sum. induction l as [|x l IH]; [reflexivity|]. cbn [map fold_right]. rewrite IH. lia. Qed.
Lemma list_sum_filter {X} (p : X -> bool) l : list_sum (map (fun x => if p x then 1%nat else 0%nat) l) = length (filter p l).
Proof. unfold list_sum. induction l as [|x l IH]; [reflexivity|]. cbn [map fold_right filter]. rewrite IH. destruct (p x); reflexivity. Qed.
Lemma join_count (P : row -> bool) ts d :
  length (filter (fun tr => P (snd tr)) (join ts d)) = list_sum (map (fun r => count_of r ts) (filter P d)).
Proof.
  induction ts as [|t ts IH]; [unfold list_sum; simpl; induction (filter P d); simpl; auto|].
  unfold join. cbn [flat_map]. rewrite filter_app, app_length. fold (join ts d). rewrite IH.
  rewrite (map_ext (fun r => count_of r (t :: ts)) (fun r => (if Nat.eqb (lbl r) (t_bid t) then 1 else 0) + count_of r ts)%nat).
  2:{ intro r. unfold count_of. cbn [filter]. rewrite Nat.eqb_sym. destruct (Nat.eqb (lbl r) (t_bid t)); reflexivity. }
  rewrite list_sum_plus, list_sum_filter. f_equal. rewrite filter_map, map_length, !filter_filter. cbn [snd].
  f_equal. apply filter_ext. intro r. apply andb_comm.
Qed.
Lemma join_side_map {Y} (s : bool) (f : trans -> Y) ts d : labels_unique d ->
  map (fun tr => f (fst tr)) (filter (fun tr => Bool.eqb (buying (snd tr)) s) (join ts d)) = map f (filter (on_side s d) ts).
Proof.
  intro Hu. induction ts as [|t ts IH]; [reflexivity|].
  unfold join. cbn [flat_map]. rewrite filter_app, map_app. fold (join ts d). rewrite IH. cbn [filter].
  assert (E : map (fun tr => f (fst tr)) (filter (fun tr => Bool.eqb (buying (snd tr)) s) (map (fun r => (t, r)) (filter (fun r => Nat.eqb (lbl r) (t_bid t)) d)))
    = if on_side s d t then [f t] else []).
  { destruct (one_row d (t_bid t) Hu) as [E|(r & Hr & El & E)]; rewrite E.
    - assert (on_side s d t = false) as ->; [|reflexivity].
      unfold on_side. destruct (existsb _ d) eqn:X; [|reflexivity]. apply existsb_exists in X. destruct X as (x & Hx & Ex).
      apply andb_true_iff in Ex. destruct Ex as [Ex _]. assert (I : In x (filter (fun r => Nat.eqb (lbl r) (t_bid t)) d)) by (apply filter_In; auto).
      rewrite E in I. destruct I.
    - rewrite (on_side_in s d t r Hu Hr El). cbn [map filter snd]. destruct (Bool.eqb (buying r) s); reflexivity. }
  rewrite E. destruct (on_side s d t); reflexivity.
Qed.
Lemma join_in ts d t r : In (t, r) (join ts d) -> In t ts /\ In r d /\ lbl r = t_bid t.
Proof.
  unfold join. intro H. apply in_flat_map in H. destruct H as (t' & Ht & H). apply in_map_iff in H. destruct H as (r' & [= -> ->] & H).
  apply filter_In in H. destruct H as [H E]. apply Nat.eqb_eq in E. auto.
Qed.

(** the market profit in terms of the transactions of the two sides *)
Lemma market_r_sides R (A : adder R) d ts fees : labels_unique d -> market_profit_r R A d ts fees =
  R (R (A (map (fun t => R (t_price t * t_qty t)) (filter (on_side true d) ts)) - A (map (fun t => R (t_price t * t_qty t)) (filter (on_side false d) ts))) + A fees).
Proof.
  intro Hu. unfold market_profit_r. destruct (filter_buying ts d) as [E1 E2]. rewrite E1, E2.
  rewrite (join_side_map true (fun t => R (t_price t * t_qty t)) ts d Hu), (join_side_map false (fun t => R (t_price t * t_qty t)) ts d Hu). reflexivity.
Qed.
Lemma asum_zeros R (A : adder R) n : A (repeat 0 n) = 0.
Proof. apply (sums_zero R _ _ (asum_ok R A _)). intros x Hx. apply repeat_spec in Hx. exact Hx. Qed.
Lemma qsum_zeros n : qsum (repeat 0 n) = 0.
Proof. induction n as [|n IH]; [reflexivity|]. simpl. rewrite IH. ring. Qed.

Section Err.
  Variables (R : rounding) (e : Qc).
  Hypothesis Hrel : rel_error R e.
  Variables (A G : adder R) (d : df) (tl : list trans).
  Notation B n := ((1 + e) ^ n).

  Lemma player_near val u : near
    (G (map (fun tr => get_gain_r R (t_price (fst tr)) (val (snd tr)) (buying (snd tr)) (t_qty (fst tr))) (filter (fun tr => Z.eqb (user (snd tr)) u) (join tl d))))
    (user_gain val d u tl) ((B (deals d u tl + 1) - 1) * user_stake val d u tl).
  Proof.
    set (L := filter (fun tr : trans * row => Z.eqb (user (snd tr)) u) (join tl d)).
    set (f := fun tr : trans * row => gain_at val (t_price (fst tr)) (snd tr) * t_qty (fst tr)).
    assert (E1 : user_gain val d u tl = qsumf f L) by (symmetry; exact (join_sum (fun r => Z.eqb (user r) u) f tl d)).
    assert (E2 : user_stake val d u tl = qsumf (fun x => qabs (f x)) L) by (symmetry; exact (join_sum (fun r => Z.eqb (user r) u) (fun x => qabs (f x)) tl d)).
    assert (E3 : deals d u tl = length L) by (symmetry; exact (join_count (fun r => Z.eqb (user r) u) tl d)).
    rewrite E1, E2, E3.
    pose proof (terms_near R e Hrel G f (fun tr => get_gain_r R (t_price (fst tr)) (val (snd tr)) (buying (snd tr)) (t_qty (fst tr))) 2 L) as N.
    assert (H : forall x, In x L -> machine R (get_gain_r R (t_price (fst x)) (val (snd x)) (buying (snd x)) (t_qty (fst x))) /\
      near (get_gain_r R (t_price (fst x)) (val (snd x)) (buying (snd x)) (t_qty (fst x))) (f x) ((B 2 - 1) * qabs (f x))).
    { intros [t r] _. split; [apply rnd_machine|]. exact (gap_near R e Hrel (t_price t) (val r) (t_qty t) (buying r)). }
    specialize (N H). destruct L as [|x0 L0] eqn:EL.
    - cbn [map]. rewrite (asum_zeros R G 0 : G [] = 0), (qsumf_nil f), (qsumf_nil (fun x => qabs (f x))), Qcmult_0_r. split; qlra.
    - apply (near_weaken _ _ _ _ N). apply (B_more R e Hrel); [apply qsumf_nonneg; intros; apply qabs_nonneg | cbn [length]; lia].
  Qed.
  Theorem profits_r_error rp fees p rp' : labels_unique d -> calculate_profits_r R A G d tl rp fees = (Ok p, rp') ->
    exists us, StronglySorted Z.lt us /\ (forall u, In u us <-> exists r, In r d /\ user r = u) /\
      Forall2 (fun u x => qabs (x - user_gain price d u tl) <= (B (deals d u tl + 1) - 1) * user_stake price d u tl) us (pr_bid p) /\
      Forall2 (fun u x => qabs (x - user_gain (worth rp) d u tl) <= (B (deals d u tl + 1) - 1) * user_stake (worth rp) d u tl) us (pr_reservation p).
  Proof.
    intros Hu E. exists (users_sorted d). destruct (users_spec d) as [U1 U2]. split; [exact U1|]. split; [exact U2|].
    apply profits_r_ok in E. subst p. cbn [pr_bid pr_reservation].
    assert (F : forall val w, (forall r, In r d -> val r = w r) ->
      Forall2 (fun u x => qabs (x - user_gain w d u tl) <= (B (deals d u tl + 1) - 1) * user_stake w d u tl) (users_sorted d) (player_profits_r R G d tl val)).
    { intros val w Hv. unfold player_profits_r. clear U1 U2. induction (users_sorted d) as [|u us IH]; [constructor|]. cbn [map]. constructor; [|exact IH].
      pose proof (player_near val u) as N. apply near_abs in N.
      assert (E1 : user_gain val d u tl = user_gain w d u tl).
      { unfold user_gain. apply qsumf_ext. intros r Hr. apply filter_In in Hr. apply qsumf_ext. intros t _. unfold gain_at. rewrite Hv by tauto. reflexivity. }
      assert (E2 : user_stake val d u tl = user_stake w d u tl).
      { unfold user_stake. apply qsumf_ext. intros r Hr. apply filter_In in Hr. apply qsumf_ext. intros t _. unfold gain_at. rewrite Hv by tauto. reflexivity. }
      rewrite E1, E2 in N. exact N. }
    split; apply F; [reflexivity|]. intros r Hr.
    destruct (dict_fill_spec (match rp with Some m => m | None => [] end) d) as [_ I]. rewrite (I Hu r Hr), <- rvalue_worth. reflexivity.
  Qed.

  Notation total := (qsumf (fun t => qabs (t_price t * t_qty t))).
  Lemma side_near s n : (length (filter (on_side s d) tl) <= n)%nat ->
    near (A (map (fun t => R (t_price t * t_qty t)) (filter (on_side s d) tl))) (money s d tl) ((B n - 1) * total (filter (on_side s d) tl)).
  Proof.
    intro L. pose proof (terms_near R e Hrel A (fun t => t_price t * t_qty t) (fun t => R (t_price t * t_qty t)) 1 (filter (on_side s d) tl)) as N.
    assert (H : forall x : trans, In x (filter (on_side s d) tl) -> machine R (R (t_price x * t_qty x)) /\
      near (R (t_price x * t_qty x)) (t_price x * t_qty x) ((B 1 - 1) * qabs (t_price x * t_qty x))).
    { intros t _. split; [apply rnd_machine | apply (product_near R e Hrel)]. }
    specialize (N H). fold (money s d tl) in N. unfold money in *. destruct (filter (on_side s d) tl) as [|t0 l0] eqn:El.
    - cbn [map]. rewrite (asum_zeros R A 0 : A [] = 0), (qsumf_nil (fun t => t_price t * t_qty t)), (qsumf_nil (fun t => qabs (t_price t * t_qty t))), Qcmult_0_r. split; qlra.
    - apply (near_weaken _ _ _ _ N). apply (B_more R e Hrel); [apply qsumf_nonneg; intros; apply qabs_nonneg|]. cbn [length] in *. lia.
  Qed.
  Lemma money_turnover : qabs (money true d tl - money false d tl) <= turnover d tl.
  Proof.
    unfold turnover, money. pose proof (qabs_sum (fun t => t_price t * t_qty t) (filter (on_side true d) tl)) as N1.
    pose proof (qabs_sum (fun t => t_price t * t_qty t) (filter (on_side false d) tl)) as N2.
    cbv beta in N1, N2. set (x := qsumf (fun t => t_price t * t_qty t) (filter (on_side true d) tl)) in *. set (y := qsumf (fun t => t_price t * t_qty t) (filter (on_side false d) tl)) in *.
    pose proof (qabs_minus x y). qlra.
  Qed.
  Lemma sides_near n : (longest_side d tl <= n)%nat ->
    near (R (A (map (fun t => R (t_price t * t_qty t)) (filter (on_side true d) tl)) - A (map (fun t => R (t_price t * t_qty t)) (filter (on_side false d) tl))))
      (money true d tl - money false d tl) ((B (Datatypes.S n) - 1) * turnover d tl).
  Proof.
    unfold longest_side. intro L. apply (rnd_more R e Hrel); [|exact money_turnover].
    pose proof (near_minus _ _ _ _ _ _ (side_near true n ltac:(lia)) (side_near false n ltac:(lia))) as N. apply (near_weaken _ _ _ _ N).
    unfold turnover. set (x := total _). set (y := total _). replace ((B n - 1) * (x + y)) with ((B n - 1) * x + (B n - 1) * y) by ring. qlra.
  Qed.
  (** the profit of the market maker *)
  Theorem market_r_error rp p rp' : labels_unique d -> calculate_profits_r R A G d tl rp None = (Ok p, rp') ->
    qabs (pr_market p - (money true d tl - money false d tl)) <= (B (longest_side d tl + 1) - 1) * turnover d tl.
  Proof.
    intros Hu E. apply profits_r_ok in E. subst p. cbn [pr_market]. rewrite market_r_sides, asum_zeros by exact Hu.
    set (x := R (_ - _)). replace (x + 0) with x by ring. unfold x. rewrite rnd_idem. apply near_abs.
    rewrite Nat.add_1_r. apply sides_near. lia.
  Qed.
  Theorem market_r_error_fees rp f p rp' : labels_unique d -> (forall x, In x f -> machine R x) -> calculate_profits_r R A G d tl rp (Some f) = (Ok p, rp') ->
    qabs (pr_market p - (money true d tl - money false d tl + qsum f)) <= (B (Nat.max (longest_side d tl) (length f) + 2) - 1) * (turnover d tl + qsumf qabs f).
  Proof.
    intros Hu Hf E. apply profits_r_ok in E. subst p. cbn [pr_market]. rewrite market_r_sides by exact Hu.
    set (n := Nat.max _ _). apply near_abs. replace (n + 2)%nat with (Datatypes.S (Datatypes.S n)) by lia.
    assert (T0 : 0 <= turnover d tl).
    { unfold turnover. assert (0 <= total (filter (on_side true d) tl)) by (apply qsumf_nonneg; intros; apply qabs_nonneg).
      assert (0 <= total (filter (on_side false d) tl)) by (apply qsumf_nonneg; intros; apply qabs_nonneg). qlra. }
    apply (rnd_more R e Hrel).
    - pose proof (sums_signed R e Hrel _ _ (asum_ok R A f) Hf) as N2.
      pose proof (near_plus _ _ _ _ _ _ (sides_near n ltac:(unfold n; lia)) N2) as N. apply (near_weaken _ _ _ _ N).
      pose proof (B_more R e Hrel (length f - 1) (Datatypes.S n) (qsumf qabs f) (aabs_nonneg f) ltac:(unfold n; lia)) as M.
      set (x := turnover d tl) in *. set (y := qsumf qabs f) in *. replace ((B (Datatypes.S n) - 1) * (x + y)) with ((B (Datatypes.S n) - 1) * x + (B (Datatypes.S n) - 1) * y) by ring. qlra.
    - pose proof (qabs_plus (money true d tl - money false d tl) (qsum f)). pose proof money_turnover. pose proof (qabs_sum' f). qlra.
  Qed.

  Lemma div_abs y c F : 0 < c -> qabs y <= F -> qabs (y / c) <= F / c.
  Proof.
    intros P L. pose proof (qinv_pos c P) as Z. unfold Qcdiv. rewrite qabs_mult, (qabs_pos (/ c)) by qlra. apply qmult_le_r; [qlra | exact L].
  Qed.
  Lemma div_near x y c k F : near x y ((B k - 1) * F) -> 0 < c -> qabs y <= F -> near (R (x / c)) (y / c) ((B (Datatypes.S k) - 1) * (F / c)).
  Proof.
    intros N P L. apply (rnd_more R e Hrel); [|apply div_abs; assumption]. pose proof (qinv_pos c P) as Z.
    pose proof (near_scale _ _ _ (/ c) N) as M. rewrite (qabs_pos (/ c)) in M by qlra. unfold Qcdiv. rewrite Qcmult_assoc. exact M.
  Qed.
  (** the ratios, for a given value of the optimum *)
  Theorem traded_r_error obj x : (forall t, In t tl -> machine R (t_qty t)) -> percentage_traded_r R A obj tl = Some x ->
    qabs (x - qsumf t_qty tl / qz 2 / obj) <= (B (length tl + 2) - 1) * (qsumf (fun t => qabs (t_qty t)) tl / qz 2 / obj).
  Proof.
    intros Hm. unfold percentage_traded_r, ratio_r. destruct (qlt_spec 0 obj) as [P|]; [|discriminate]. intros [= <-]. apply near_abs.
    replace (length tl + 2)%nat with (Datatypes.S (Datatypes.S (length tl))) by lia.
    pose proof (sums_signed R e Hrel _ _ (asum_ok R A (map t_qty tl))) as N. rewrite map_length in N.
    assert (Hm' : forall x, In x (map t_qty tl) -> machine R x) by (intros y Hy; apply in_map_iff in Hy; destruct Hy as (t & <- & Ht); apply Hm, Ht).
    specialize (N Hm'). rewrite qsumf_map in N. change (qsum (map t_qty tl)) with (qsumf t_qty tl) in N. set (F := qsumf (fun t => qabs (t_qty t)) tl) in *.
    set (s := qsumf t_qty tl) in *.
    assert (F0 : 0 <= F) by (apply qsumf_nonneg; intros; apply qabs_nonneg). assert (sF : qabs s <= F) by apply qabs_sum.
    assert (Z2 : 0 < qz 2) by (vm_compute; reflexivity).
    assert (N1 : near (A (map t_qty tl)) s ((B (length tl) - 1) * F)) by (apply (near_weaken _ _ _ _ N), (B_more R e Hrel); [exact F0 | lia]).
    apply div_near; [apply div_near; assumption | exact P | apply div_abs; assumption].
  Qed.
  Theorem welfare_r_error obj x : labels_unique d -> percentage_welfare_r R A obj d tl = Some x ->
    qabs (x - (traded_surplus price d tl - (money true d tl - money false d tl)) / obj) <= (B (longest_side d tl + 3) - 1) * (stake price d tl / obj).
  Proof.
    intro Hu. unfold percentage_welfare_r, ratio_r. destruct (qlt_spec 0 obj) as [P|]; [|discriminate]. intros [= <-]. apply near_abs.
    replace (longest_side d tl + 3)%nat with (Datatypes.S (Datatypes.S (Datatypes.S (longest_side d tl)))) by lia.
    rewrite <- total_gain by exact Hu.
    set (f := fun tr : trans * row => gain_at price (t_price (fst tr)) (snd tr) * t_qty (fst tr)).
    set (J := join tl d). set (Lb := filter (fun tr : trans * row => buying (snd tr)) J). set (Ls := filter (fun tr : trans * row => negb (buying (snd tr))) J).
    set (g := qsumf _ d).
    assert (K : forall (F : trans * row -> Qc), qsumf (fun r => qsumf (fun t => F (t, r)) (filter (fun t => Nat.eqb (t_bid t) (lbl r)) tl)) d = qsumf F Lb + qsumf F Ls).
    { intro F. unfold Lb, Ls, J. rewrite (join_sum buying F), (join_sum (fun r => negb (buying r)) F). apply qsumf_filter_split. }
    assert (E1 : g = qsumf f Lb + qsumf f Ls) by exact (K f).
    assert (E2 : stake price d tl = qsumf (fun x => qabs (f x)) Lb + qsumf (fun x => qabs (f x)) Ls) by exact (K (fun x => qabs (f x))).
    assert (Gb : qabs g <= stake price d tl).
    { rewrite E1, E2. pose proof (qabs_plus (qsumf f Lb) (qsumf f Ls)). pose proof (qabs_sum f Lb). pose proof (qabs_sum f Ls). qlra. }
    assert (Lb' : (length Lb <= longest_side d tl)%nat /\ (length Ls <= longest_side d tl)%nat).
    { unfold longest_side, Lb, Ls, J. destruct (filter_buying tl d) as [H1 H2]. rewrite H1, H2.
      pose proof (f_equal (@length _) (join_side_map true (fun t => t) tl d Hu)) as M1. pose proof (f_equal (@length _) (join_side_map false (fun t => t) tl d Hu)) as M2.
      rewrite !map_length in M1, M2. rewrite M1, M2. split; lia. }
    destruct Lb' as [L1 L2]. set (n := longest_side d tl) in *.
    assert (T : forall s L, (length L <= n)%nat -> (forall tr : trans * row, In tr L -> buying (snd tr) = s) ->
      near (A (map (fun tr : trans * row => R (R (if s then price (snd tr) - t_price (fst tr) else t_price (fst tr) - price (snd tr)) * t_qty (fst tr))) L)) (qsumf f L)
        ((B (Datatypes.S n) - 1) * qsumf (fun x => qabs (f x)) L)).
    { intros s L Ln Hs. pose proof (terms_near R e Hrel A f (fun tr => R (R (if s then price (snd tr) - t_price (fst tr) else t_price (fst tr) - price (snd tr)) * t_qty (fst tr))) 2 L) as N.
      assert (H : forall x, In x L -> machine R (R (R (if s then price (snd x) - t_price (fst x) else t_price (fst x) - price (snd x)) * t_qty (fst x))) /\
        near (R (R (if s then price (snd x) - t_price (fst x) else t_price (fst x) - price (snd x)) * t_qty (fst x))) (f x) ((B 2 - 1) * qabs (f x))).
      { intros [t r] Hx. split; [apply rnd_machine|]. specialize (Hs _ Hx). cbn [snd fst] in *. unfold f, gain_at. cbn [snd fst]. rewrite Hs.
        set (q := if s then _ else _). change (near (R (R q * t_qty t)) (q * t_qty t) ((B 2 - 1) * qabs (q * t_qty t))).
        apply (rnd_more R e Hrel _ _ 1); [|qlra]. rewrite qabs_mult, Qcmult_assoc. apply near_scale.
        replace (B 1 - 1) with e by (change (B 1) with ((1 + e) * 1); ring). apply (rnd_near R e Hrel). }
      specialize (N H). destruct L as [|x0 L0].
      - cbn [map]. rewrite (asum_zeros R A 0 : A [] = 0), (qsumf_nil f), (qsumf_nil (fun x => qabs (f x))), Qcmult_0_r. split; qlra.
      - apply (near_weaken _ _ _ _ N). apply (B_more R e Hrel); [apply qsumf_nonneg; intros; apply qabs_nonneg|]. cbn [length] in *. lia. }
    apply div_near; [|exact P | exact Gb]. apply (rnd_more R e Hrel); [|exact Gb].
    pose proof (near_plus _ _ _ _ _ _ (T true Lb L1 ltac:(intros tr Hx; apply filter_In in Hx; tauto))
      (T false Ls L2 ltac:(intros tr Hx; apply filter_In in Hx; destruct (buying (snd tr)); [destruct Hx; discriminate | reflexivity]))) as N.
    rewrite E1. apply (near_weaken _ _ _ _ N). rewrite E2. set (x := qsumf _ Lb). set (y := qsumf _ Ls).
    replace ((B (Datatypes.S n) - 1) * (x + y)) with ((B (Datatypes.S n) - 1) * x + (B (Datatypes.S n) - 1) * y) by ring. qlra.
  Qed.
End Err.

(** ** Signs *)
(** Trades that are not at a loss never show a loss. *)
Lemma gain_r_nonneg R p v q (buys : bool) : 0 <= q -> (q = 0 \/ if buys then p <= v else v <= p) -> 0 <= get_gain_r R p v buys q.
Proof.
  intros Q H. unfold get_gain_r. apply rnd_nonneg. destruct H as [->|H]; [rewrite Qcmult_0_r; qlra|]. apply qmult_nonneg; [|exact Q].
  destruct buys; [apply rnd_nonneg; qlra|]. rewrite <- rnd_opp. apply rnd_nonneg. qlra.
Qed.
Theorem profits_r_nonneg R (A G : adder R) d tl rp fees p rp' :
  (forall t r, In t tl -> In r d -> lbl r = t_bid t -> 0 <= t_qty t /\ (t_qty t = 0 \/ if buying r then t_price t <= price r else price r <= t_price t)) ->
  calculate_profits_r R A G d tl rp fees = (Ok p, rp') -> forall x, In x (pr_bid p) -> 0 <= x.
Proof.
  intros H E. apply profits_r_ok in E. subst p. cbn [pr_bid]. intros x Hx. unfold player_profits_r in Hx.
  apply in_map_iff in Hx. destruct Hx as (u & <- & _). apply (sums_nonneg R _ _ (asum_ok R G _)). intros y Hy.
  apply in_map_iff in Hy. destruct Hy as ([t r] & <- & Hj). apply filter_In in Hj. destruct Hj as [Hj _]. apply join_in in Hj. destruct Hj as (Ht & Hr & El).
  destruct (H t r Ht Hr El). apply gain_r_nonneg; assumption.
Qed.

(** peer to peer: both sides have the same list of payments *)
Lemma deals_payments {Y} (f : Qc -> Qc -> Y) R d c L tl : labels_unique d -> Deals_r R d c [] L tl ->
  map (fun t => f (t_price t) (t_qty t)) (filter (on_side true d) tl) = map (fun t => f (t_price t) (t_qty t)) (filter (on_side false d) tl).
Proof.
  intro Hu.
  assert (Gen : forall tl0 L tl', Deals_r R d c tl0 L tl' ->
    map (fun t => f (t_price t) (t_qty t)) (filter (on_side true d) tl0) = map (fun t => f (t_price t) (t_qty t)) (filter (on_side false d) tl0) ->
    map (fun t => f (t_price t) (t_qty t)) (filter (on_side true d) tl') = map (fun t => f (t_price t) (t_qty t)) (filter (on_side false d) tl')).
  { induction 1 as [tl0|tl0 x y L0 tl' Hx Hy Bx By HD IH]; intro H; [exact H|]. apply IH. rewrite !filter_app, !map_app, H. f_equal.
    assert (Sx : forall s q p a b, on_side s d (mkTrans (lbl x) q p a b) = Bool.eqb true s) by (intros s q p a b; rewrite (on_side_in _ d (mkTrans (lbl x) q p a b) x Hu Hx eq_refl), Bx; reflexivity).
    assert (Sy : forall s q p a b, on_side s d (mkTrans (lbl y) q p a b) = Bool.eqb false s) by (intros s q p a b; rewrite (on_side_in _ d (mkTrans (lbl y) q p a b) y Hu Hy eq_refl), By; reflexivity).
    unfold deal_r. destruct (qleb (price y) (price x)); cbn [filter]; rewrite !Sx, !Sy; reflexivity. }
  intro H. apply (Gen _ _ _ H). reflexivity.
Qed.
Theorem p2p_r_market_zero R (A G : adder R) d c r : map lbl d = seq 0 (length d) -> qty_nonneg d -> machine_qty R d ->
  forall tm ex, p2p_random_r R A d c r = Ok (tm, ex) -> forall rp p rp', calculate_profits_r R A G d (tm_trans tm) rp None = (Ok p, rp') -> pr_market p = 0.
Proof.
  intros Hl Hq Hm tm ex E rp p rp' Ep. destruct (p2p_rounded R A d c r Hl Hq Hm) as (tm' & gtl & E' & D & _). rewrite E in E'. injection E' as <- _.
  pose proof (labels_ok d Hl) as Hu. apply profits_r_ok in Ep. subst p. cbn [pr_market]. rewrite market_r_sides, asum_zeros by exact Hu.
  rewrite (deals_payments (fun p q => R (p * q)) R d c _ _ Hu D). set (x := A _). replace (x - x) with 0 by ring. rewrite rnd_zero. replace (0 + 0) with 0 by ring. apply rnd_zero.
Qed.

(** ** Accounting *)
Lemma filter_shorter {X} (f : X -> bool) l : (length (filter f l) <= length l)%nat.
Proof. induction l as [|x l IH]; [simpl; lia|]. cbn [filter length]. destruct (f x); cbn [length]; lia. Qed.
Lemma join_length ts d : labels_unique d -> (length (join ts d) <= length ts)%nat.
Proof.
  intro Hu. induction ts as [|t ts IH]; [simpl; lia|]. unfold join. cbn [flat_map length]. rewrite app_length, map_length. fold (join ts d).
  destruct (one_row d (t_bid t) Hu) as [->|(r & _ & _ & ->)]; cbn [length]; lia.
Qed.
Lemma deals_le d u tl : labels_unique d -> (deals d u tl <= length tl)%nat.
Proof.
  intro Hu. unfold deals, by_user. rewrite <- (join_count (fun r => Z.eqb (user r) u)). pose proof (join_length tl d Hu).
  pose proof (filter_shorter (fun tr : trans * row => (user (snd tr) =? u)%Z) (join tl d)). lia.
Qed.
Lemma Forall2_near {X} (f g : X -> Qc) us : forall l, Forall2 (fun u x => qabs (x - f u) <= g u) us l -> near (qsum l) (qsumf f us) (qsumf g us).
Proof.
  induction us as [|u us IH]; intros l H; inversion_clear H as [|? x ? l' Hx Hr]; [split; rewrite !qsumf_nil; simpl; qlra|].
  rewrite !qsumf_cons. change (qsum (x :: l')) with (x + qsum l'). apply near_plus; [|apply IH, Hr].
  unfold qabs in Hx. destruct (qle_spec 0 (x - f u)); split; qlra.
Qed.
Theorem accounting_r R e (A G : adder R) d tl rp p rp' : rel_error R e -> labels_unique d -> calculate_profits_r R A G d tl rp None = (Ok p, rp') ->
  qabs (qsum (pr_bid p) + pr_market p - traded_surplus price d tl) <= ((1 + e) ^ (length tl + 1) - 1) * (stake price d tl + turnover d tl).
Proof.
  intros Hrel Hu E. destruct (profits_r_error R e Hrel A G d tl rp None p rp' Hu E) as (us & S & I & F & _).
  pose proof (market_r_error R e Hrel A G d tl rp p rp' Hu E) as M. apply near_abs.
  assert (N1 : near (qsum (pr_bid p)) (traded_surplus price d tl - (money true d tl - money false d tl)) (((1 + e) ^ (length tl + 1) - 1) * stake price d tl)).
  { apply Forall2_near in F. rewrite <- total_gain by exact Hu.
    rewrite <- (sum_by_user (fun r => qsumf (fun t => gain_at price (t_price t) r * t_qty t) (filter (fun t => Nat.eqb (t_bid t) (lbl r)) tl)) us (lt_NoDup us S) d) by (intros r Hr; apply I; eauto).
    apply (near_weaken _ _ _ _ F). unfold stake.
    rewrite <- (sum_by_user (fun r => qsumf (fun t => qabs (gain_at price (t_price t) r * t_qty t)) (filter (fun t => Nat.eqb (t_bid t) (lbl r)) tl)) us (lt_NoDup us S) d) by (intros r Hr; apply I; eauto).
    rewrite <- qsumf_scale. apply qsumf_le. intros u _. apply (B_more R e Hrel); [|pose proof (deals_le d u tl Hu); lia].
    apply qsumf_nonneg. intros r _. apply qsumf_nonneg. intros t _. apply qabs_nonneg. }
  assert (N2 : near (pr_market p) (money true d tl - money false d tl) (((1 + e) ^ (length tl + 1) - 1) * turnover d tl)).
  { assert (T0 : 0 <= turnover d tl) by (pose proof (money_turnover d tl); pose proof (qabs_nonneg (money true d tl - money false d tl)); qlra).
    assert (L : (longest_side d tl + 1 <= length tl + 1)%nat).
    { unfold longest_side. pose proof (filter_shorter (on_side true d) tl). pose proof (filter_shorter (on_side false d) tl). lia. }
    pose proof (B_more R e Hrel _ _ _ T0 L) as W. unfold qabs in M. destruct (qle_spec 0 (pr_market p - (money true d tl - money false d tl))); split; qlra. }
  pose proof (near_plus _ _ _ _ _ _ N1 N2) as N. set (k := (1 + e) ^ (length tl + 1) - 1) in *.
  replace (k * (stake price d tl + turnover d tl)) with (k * stake price d tl + k * turnover d tl) by ring.
  clearbody k. clear - N. generalize dependent (k * stake price d tl). generalize (k * turnover d tl). intros x y [Na Nb]. split; qlra.
Qed.
