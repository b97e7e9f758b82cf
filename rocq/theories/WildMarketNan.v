(** [Market.run('huang')] with infinite and NaN prices: NaN bids have no effect, tables with rational prices, errors. *)
From Verif Require Import QcTac Num NumFacts ListFacts ModelBase ModelHuang ModelMerge ModelMarket ModelAny ModelWild ModelWildMarket Spec SpecWild SpecWildMarket
  MergeFacts WildCap WildTop WildMarket WildMarketTop WildMarketCap.

Section Alike.
  Variables d d' : wdf.
  Hypothesis H : Forall2 nan_alike d d'.
  Lemma alike_users : map w_user d = map w_user d'.
  Proof. induction H as [|x y l l' Hxy F IH]; [reflexivity|]. cbn. rewrite IH by exact F. destruct Hxy as [->|(_ & _ & -> & _)]; reflexivity. Qed.
  Lemma alike_max : w_user_max d = w_user_max d'.
  Proof. assert (E := alike_users). destruct d, d'; cbn [map] in E; try discriminate; [reflexivity|]. injection E as E1 E2. cbn. rewrite E1, E2. reflexivity. Qed.
  Lemma alike_filter (p : wrow -> bool) k : filter (fun x => neqb (n_round 5 (w_price x)) k) (filter p d) = filter (fun x => neqb (n_round 5 (w_price x)) k) (filter p d').
  Proof.
    induction H as [|x y l l' Hxy F IH]; [reflexivity|]. specialize (IH F). destruct Hxy as [->|(N1 & N2 & _)]; cbn [filter].
    - destruct (p y); cbn [filter]; [rewrite IH|]; auto.
    - assert (A : neqb (n_round 5 (w_price x)) k = false) by (rewrite N1; reflexivity). assert (B : neqb (n_round 5 (w_price y)) k = false) by (rewrite N2; reflexivity).
      destruct (p x), (p y); cbn [filter]; rewrite ?A, ?B; exact IH.
  Qed.
  Lemma alike_keys (p : wrow -> bool) : w_side_keys 5 (filter p d) = w_side_keys 5 (filter p d').
  Proof.
    induction H as [|x y l l' Hxy F IH]; [reflexivity|]. specialize (IH F). unfold w_side_keys in *. destruct Hxy as [->|(N1 & N2 & _)]; cbn [filter].
    - destruct (p y); [|exact IH]. cbn [map]. unfold n_keys in *. cbn [fold_right]. rewrite IH. reflexivity.
    - destruct (p x), (p y); cbn [map]; unfold n_keys in *; cbn [fold_right]; rewrite ?N1, ?N2; cbn [n_round]; exact IH.
  Qed.
  Lemma alike_groups (p : wrow -> bool) smp keys g cnt : w_merge_groups 5 smp (filter p d) keys g cnt = w_merge_groups 5 smp (filter p d') keys g cnt.
  Proof.
    revert g cnt. induction keys as [|k keys IH]; intros g cnt; [reflexivity|]. cbn [w_merge_groups]. rewrite (alike_filter p k).
    destruct (new_id _ cnt) as [[u c]|e]; [|reflexivity]. cbn [bind]. rewrite IH. reflexivity.
  Qed.
  Lemma alike_merge smp cnt : w_merge 5 smp d cnt = w_merge 5 smp d' cnt.
  Proof.
    unfold w_merge. cbv zeta. rewrite alike_max. unfold w_buyers, w_sellers. rewrite (alike_keys w_buying), alike_groups.
    destruct (w_merge_groups 5 smp (filter w_buying d') _ 0 _) as [[[mb g] c]|e]; [|reflexivity]. cbn [bind]. rewrite (alike_keys (fun x => negb (w_buying x))), alike_groups. reflexivity.
  Qed.
End Alike.

Lemma alike_in d d' x : Forall2 nan_alike d d' -> In x d -> w_price x <> NaN -> In x d'.
Proof. induction 1 as [|a b l l' Hab F IH]; [contradiction|]. intros [<-|Hx] N; [|right; auto]. destruct Hab as [->|(C & _)]; [left; reflexivity | congruence]. Qed.
Lemma alike_sym d d' : Forall2 nan_alike d d' -> Forall2 nan_alike d' d.
Proof. induction 1 as [|a b l l' Hab F IH]; constructor; [|exact IH]. destruct Hab as [->|(A & B & C & D)]; [left; reflexivity | right; auto]. Qed.
Lemma alike_labels d d' : Forall2 nan_alike d d' -> map w_lbl d = map w_lbl d'.
Proof. induction 1 as [|a b l l' Hab F IH]; [reflexivity|]. cbn. rewrite IH. destruct Hab as [->|(_ & _ & _ & ->)]; reflexivity. Qed.

Theorem run_nan S smp cnt d d' : w_positions d -> Forall2 nan_alike d d' -> w_run_huang S smp cnt d = w_run_huang S smp cnt d'.
Proof.
  intros HP F. unfold w_run_huang. rewrite (alike_merge d d' F smp cnt). destruct (w_merge_ok smp d' cnt) as (mb & ms & c & E & Fb & Fs & _). rewrite E. cbn [bind].
  destruct (w_merged_run S (map fst (mb ++ ms))) as [[ts e]|e]; [|reflexivity]. cbn [bind].
  assert (HP' : w_positions d') by (unfold w_positions; rewrite <- (alike_labels d d' F), <- (F2_len _ _ _ F); exact HP).
  assert (K : w_split d (map snd (mb ++ ms)) ts = w_split d' (map snd (mb ++ ms)) ts); [|rewrite K; reflexivity].
  induction ts as [|t ts IH]; [reflexivity|]. cbn [w_split]. rewrite IH.
  assert (O : w_split_one d (map snd (mb ++ ms)) t = w_split_one d' (map snd (mb ++ ms)) t); [|rewrite O; reflexivity].
  unfold w_split_one. destruct (nth_error (map snd (mb ++ ms)) (x_bid t)) as [rows|] eqn:Er; [|reflexivity].
  destruct (nth_error (map fst (mb ++ ms)) (x_bid t)) as [r|] eqn:Ef.
  2:{ rewrite nth_error_map in Er, Ef. destruct (nth_error (mb ++ ms) (x_bid t)); discriminate. }
  destruct (m_row d' mb ms Fb Fs _ r rows Ef Er) as (rs & -> & _ & Hin & _ & Nr & _).
  rewrite (w_iloc_ok d' rs HP' (fun x Hx => proj1 (Hin x Hx))).
  rewrite (w_iloc_ok d rs HP); [reflexivity|]. intros x Hx. destruct (Hin x Hx) as (I1 & _ & I3). apply (alike_in d' d x (alike_sym _ _ F) I1). intro C. rewrite C in I3. cbn in I3. congruence.
Qed.

(** ** Rational prices *)
Lemma beyond_int (d : wdf) : no_nan d -> exists n, beyond (qz n) (map round_row d).
Proof.
  intros Hn. induction d as [|x d IH].
  - exists 1%Z. split; [rewrite qz_1; qlra | intros y q []].
  - destruct IH as (n & Hp & Hb); [intros y Hy; apply Hn; right; exact Hy|].
    assert (M : forall a : Qc, exists m, - qz m < a /\ a < qz m).
    { intro a. destruct (floor_bounds a) as [A B]. set (f := QArith.Qround.Qfloor (this a)) in *. exists (Z.abs f + 1)%Z.
      rewrite qz_plus, qz_1. destruct (Z.abs_spec f) as [[Z1 ->]|[Z1 ->]].
      - apply (proj1 (qz_le 0 f)) in Z1. rewrite qz_0 in Z1. split; qlra.
      - rewrite qz_opp. assert (Z2 : (f + 1 <= 0)%Z) by lia. apply (proj1 (qz_le (f + 1) 0)) in Z2. rewrite qz_plus, qz_1, qz_0 in Z2. split; qlra. }
    destruct (M (cap 1 (n_round 5 (w_price x)))) as (m & M1 & M2). exists (Z.max n m).
    assert (Le1 : qz n <= qz (Z.max n m)) by (apply (proj1 (qz_le _ _)); lia). assert (Le2 : qz m <= qz (Z.max n m)) by (apply (proj1 (qz_le _ _)); lia).
    split; [qlra|]. intros y q [<-|Hy] E; [|destruct (Hb y q Hy E); split; qlra].
    cbn [round_row w_price] in E. rewrite E in M1, M2. cbn [cap] in M1, M2. split; qlra.
Qed.
Theorem run_finite S smp cnt (d : df) : (forall r, In r d -> 0 < qty r) -> exists S' P, same_run P (w_run_huang S smp cnt (map wrow_of d)) (run_algo S' (AHuang smp cnt) d).
Proof.
  intro Hq. assert (Hn : no_nan (map wrow_of d)) by (intros x Hx; apply in_map_iff in Hx; destruct Hx as (r & <- & _); discriminate).
  destruct (beyond_int (map wrow_of d) Hn) as (n & Hb).
  assert (Z : wanted_at_any_price (map wrow_of d) = 0).
  { unfold wanted_at_any_price. rewrite filter_nil; [reflexivity|]. intros x Hx. apply in_map_iff in Hx. destruct Hx as (r & <- & _). cbn. apply andb_false_r. }
  destruct (run_large_prices S smp cnt (map wrow_of d) n) as (S' & R).
  - intros x Hx. apply in_map_iff in Hx. destruct Hx as (r & <- & Hr). apply Hq, Hr.
  - exact Hn.
  - exact Hb.
  - rewrite Z. apply qsumf_nonneg. intros x Hx. apply filter_In in Hx. destruct Hx as [Hx _]. apply in_map_iff in Hx. destruct Hx as (r & <- & Hr). apply Qclt_le_weak, Hq, Hr.
  - rewrite cap_of in R. eauto.
Qed.

(** ** Errors *)
Theorem run_errors S smp cnt d : w_positions d -> w_qty_pos d -> no_nan d -> (forall x, In x d -> w_buying x = false -> nltb (w_price x) (Fin 0) = false) ->
  (w_lone_price d /\ w_run_huang S smp cnt d = Err KeyError) \/ (~ w_lone_price d /\ exists ts e, w_run_huang S smp cnt d = Ok (ts, e)).
Proof.
  intros HP Hq Hn Hs. destruct (w_merge_ok smp d cnt) as (mb & ms & c & E & Fb & Fs & _).
  destruct (w_sellers d) as [|s ls] eqn:El.
  - assert (Hb : forall x, In x d -> w_buying x = true).
    { intros x Hx. destruct (w_buying x) eqn:B; [reflexivity|]. exfalso. assert (I : In x (w_sellers d)) by (apply filter_In; rewrite B; auto). rewrite El in I. contradiction. }
    assert (Eb : w_buyers d = d) by (apply filter_all; exact Hb). cbn in Fs. inversion Fs; subst ms. rewrite Eb in Fb. assert (Lk := F2_len _ _ _ Fb). rewrite app_nil_r in E.
    assert (Kin : forall k, In k (w_side_keys 5 d) <-> exists x, In x d /\ n_round 5 (w_price x) = k).
    { intro k. unfold w_side_keys. rewrite n_keys_In, in_map_iff. split; [intros [(x & A & B) _]; eauto|]. intros (x & A & B). split; [eauto|]. rewrite <- B. specialize (Hn x A). destruct (w_price x); cbn; congruence. }
    assert (Nd := n_keys_NoDup (map (fun x => n_round 5 (w_price x)) d)). fold (w_side_keys 5 d) in Nd.
    unfold w_run_huang. rewrite E. cbn [bind]. unfold w_merged_run.
    destruct (w_side_keys 5 d) as [|k [|k' ks]] eqn:Ek.
    + inversion Fb; subst mb. cbn. right. split; [|eauto]. intros (k & Ne & _). destruct d as [|x d0]; [congruence|]. destruct (proj2 (Kin (n_round 5 (w_price x)))). exists x. split; [left; reflexivity | reflexivity].
    + inversion Fb as [|? rm ? ? W F']; subst. inversion F'; subst. cbn [map]. destruct W as (_ & _ & W & _). rewrite W. left. split; [|reflexivity].
      exists k. split.
      * destruct (proj1 (Kin k) (or_introl eq_refl)) as (x & Hx & _). intro C. rewrite C in Hx. contradiction.
      * intros x Hx. split; [apply Hb, Hx|]. destruct (proj2 (Kin (n_round 5 (w_price x)))) as [C|[]]; [eauto|]. congruence.
    + inversion Fb as [|? rm ? l1 W F']; subst. inversion F' as [|? rm' ? l2 W' F'']; subst. right. split.
      * intros (j & _ & Hj). assert (A : k = j) by (destruct (proj1 (Kin k) (or_introl eq_refl)) as (x & Hx & Ex); rewrite <- Ex; apply Hj, Hx).
        assert (B : k' = j) by (destruct (proj1 (Kin k') (or_intror (or_introl eq_refl))) as (x & Hx & Ex); rewrite <- Ex; apply Hj, Hx).
        inversion Nd as [|? ? N1 N2]; subst. apply N1. left. congruence.
      * cbn [map]. assert (Eq : w_buyers (map fst (rm :: rm' :: l2)) = map fst (rm :: rm' :: l2)) by (apply filter_all; apply (entries_buying _ _ _ _ Fb)).
        cbn [map] in Eq. rewrite Eq, Nat.eqb_refl, orb_true_r. cbn. eauto.
  - right. assert (Is : In s d /\ w_buying s = false) by (assert (I : In s (w_sellers d)) by (rewrite El; left; reflexivity); apply filter_In in I; destruct I as [I1 I2]; apply negb_true_iff in I2; auto).
    split; [intros (k & _ & C); destruct (C s (proj1 Is)) as [C1 _]; destruct Is; congruence|].
    destruct (w_buyers d) as [|b lb] eqn:Eb.
    + cbn in Fb. inversion Fb; subst mb. unfold w_run_huang. rewrite E. cbn [bind]. unfold w_merged_run. cbn [app].
      assert (W : forall r, In r (map fst ms) -> w_buying r = false) by (apply (entries_buying _ _ _ _ Fs)).
      assert (L : match map fst ms with [r] => w_buying r | _ => false end = false) by (destruct (map fst ms) as [|r [|]]; [reflexivity | apply W; left; reflexivity | reflexivity]).
      rewrite L. unfold w_buyers. rewrite filter_nil by exact W. cbn. eauto.
    + assert (Ib : In b d /\ w_buying b = true) by (assert (I : In b (w_buyers d)) by (rewrite Eb; left; reflexivity); apply filter_In in I; exact I).
      destruct (run_fair S smp cnt d HP Hq) as (ss & bs & e & R & _); [exists b; destruct Ib; auto | exists s; destruct Is; auto | exact Hs|]. eauto.
Qed.
