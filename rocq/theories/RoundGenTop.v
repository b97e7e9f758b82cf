(** The generator of random bids in rounded arithmetic: what it returns. *)
From Coq Require Import QArith.Qround.
From Verif Require Import QcTac Num ModelBase ModelHuang ModelDatasets ModelRound ModelRoundDatasets ListFacts UpdateFacts AllocFacts RoundFacts DatasetFacts Spec SpecRound SpecRoundGen RoundGen.

Lemma fst_comb {A B} (la : list A) : forall lb : list B, length la = length lb -> map fst (combine la lb) = la.
Proof. induction la as [|a la IH]; intros [|b lb] H; simpl in *; try discriminate; [reflexivity|]. f_equal. apply IH. lia. Qed.
Lemma snd_comb {A B} (la : list A) : forall lb : list B, length la = length lb -> map snd (combine la lb) = lb.
Proof. induction la as [|a la IH]; intros [|b lb] H; simpl in *; try discriminate; [reflexivity|]. f_equal. apply IH. lia. Qed.

(** bids made of two lists *)
Section Made.
  Variables (q : nat) (qs vs : list Qc) (buys : bool) (u0 : Z).
  Hypothesis L1 : length qs = q.
  Hypothesis L2 : length vs = q.
  Definition mk_side : list bid :=
    map (fun jqv => mkBid (fst (snd jqv)) (snd (snd jqv)) (u0 + Z.of_nat (fst jqv))%Z buys 0 true) (combine (seq 0 q) (combine qs vs)).
  Let L3 : length (combine qs vs) = q. Proof. rewrite combine_length. lia. Qed.
  Lemma mk_users : map b_user mk_side = map (fun j => (u0 + Z.of_nat j)%Z) (seq 0 q).
  Proof. unfold mk_side. rewrite map_map. cbn [b_user]. rewrite <- (map_map fst (fun j => (u0 + Z.of_nat j)%Z)), fst_comb by (rewrite seq_length; lia). reflexivity. Qed.
  Lemma mk_qty : map b_qty mk_side = qs.
  Proof. unfold mk_side. rewrite map_map. cbn [b_qty]. rewrite <- (map_map snd fst), snd_comb by (rewrite seq_length; lia). apply fst_comb. lia. Qed.
  Lemma mk_price : map b_price mk_side = vs.
  Proof. unfold mk_side. rewrite map_map. cbn [b_price]. rewrite <- (map_map snd snd), snd_comb by (rewrite seq_length; lia). apply snd_comb. lia. Qed.
  Lemma mk_length : length mk_side = q.
  Proof. rewrite <- (map_length b_qty), mk_qty. exact L1. Qed.
  Lemma mk_fields b : In b mk_side -> b_buying b = buys /\ b_time b = 0 /\ b_div b = true /\ In (b_qty b) qs /\ In (b_price b) vs.
  Proof.
    intro H. pose proof (in_map b_qty _ _ H) as Iq. pose proof (in_map b_price _ _ H) as Ip. rewrite mk_qty in Iq. rewrite mk_price in Ip.
    apply in_map_iff in H. destruct H as (x & <- & _). auto.
  Qed.
End Made.

Lemma nodup_on {A B} (f : A -> B) l : (forall x y, In x l -> In y l -> f x = f y -> x = y) -> NoDup l -> NoDup (map f l).
Proof.
  intros I N. induction N as [|a l N _ IH]; simpl; constructor; [|apply IH; intros x y Hx Hy; apply I; right; assumption].
  intro H. apply in_map_iff in H. destruct H as (x & E & Hx). apply I in E; [subst; contradiction | right; exact Hx | left; reflexivity].
Qed.

Section Top.
  Variables (R : rounding) (u : Qc).
  Hypothesis RE : rel_error R u.
  Hypothesis U4 : u <= qf 1 4.
  Variables (nb ns : nat) (os ob : Qc) (r : chooser) (eps : Qc).
  Let mx := Nat.max nb ns.
  Let e := grid_step R mx eps.
  Let n := arange_len_r R e.
  Hypothesis He : 0 < eps.
  Hypothesis W : whole R (Nat.max 1 n).

  Definition side_r (k : nat) (o : Qc) (q : nat) (buys : bool) (u0 : Z) : list bid :=
    mk_side q (map (arange_at_r R e) (ch r k n q)) (map (fun i => R (arange_at_r R e i + o)) (ch r (S k) n q)) buys u0.
  Hypothesis Wm : machine R (qnat mx).
  Lemma step_pos : 0 < e. Proof. apply (step_ok R u mx eps RE U4 Wm He). Qed.
  Lemma enough : (mx <= n)%nat. Proof. apply (step_ok R u mx eps RE U4 Wm He). Qed.
  Lemma one : machine R 1. Proof. replace (1:Qc) with (qnat 1) by (apply Qc_is_canon; reflexivity). apply W. lia. Qed.
  Lemma gen_ok : generate_r R nb ns os ob r eps = Ok (side_r 0 ob nb true 0 ++ side_r 2 os ns false (Z.of_nat nb)).
  Proof.
    pose proof enough as En. unfold generate_r. fold mx.
    assert (qeqb eps 0 = false) as -> by (apply qeqb_neq; intro Z; rewrite Z in He; revert He; apply Qcle_not_lt, Qcle_refl).
    assert (E : (if qltb (R (1 / eps)) (qnat mx) then (if Nat.eqb mx 0 then Err ZeroDivisionError else Ok (R (R (1 / qnat mx) / qz 2))) else Ok eps) = Ok e).
    { unfold e, grid_step. destruct (qlt_spec (R (1 / eps)) (qnat mx)) as [L|]; [|reflexivity]. destruct (Nat.eqb_spec mx 0) as [Z|]; [|reflexivity].
      exfalso. rewrite Z in L. assert (P : 0 <= R (1 / eps)) by (apply rnd_nonneg; unfold Qcdiv; rewrite Qcmult_1_l; apply Qclt_le_weak, qinv_pos, He).
      change (qnat 0) with (0 : Qc) in L. revert L. apply Qcle_not_lt, P. }
    rewrite E. cbn [bind]. unfold gen_side_r at 1. fold n. destruct (Nat.leb_spec nb n) as [_|X]; [|unfold mx in En; lia]. cbn [bind].
    unfold gen_side_r. fold n. destruct (Nat.leb_spec ns n) as [_|X]; [reflexivity | unfold mx in En; lia].
  Qed.

  Section Side.
    Variables (k : nat) (o : Qc) (q : nat) (buys : bool) (u0 : Z).
    Hypothesis Hq : (q <= mx)%nat.
    Let Hn : (q <= n)%nat. Proof. pose proof enough. lia. Qed.
    Let A : length (map (arange_at_r R e) (ch r k n q)) = q. Proof. rewrite map_length. apply ch_len, Hn. Qed.
    Let B : length (map (fun i => R (arange_at_r R e i + o)) (ch r (S k) n q)) = q. Proof. rewrite map_length. apply ch_len, Hn. Qed.
    Lemma drawn_le j i : In i (ch r j n q) -> (i < n)%nat /\ qnat i * e <= 1.
    Proof.
      intro H. apply ch_range in H; [|exact Hn]. split; [exact H|]. apply (pos_le R e i step_pos); [apply W; lia | exact H].
    Qed.
    Lemma sider_length : length (side_r k o q buys u0) = q. Proof. apply mk_length; assumption. Qed.
    Lemma sider_users : map b_user (side_r k o q buys u0) = map (fun j => (u0 + Z.of_nat j)%Z) (seq 0 q). Proof. apply mk_users; assumption. Qed.
    Lemma sider_fields b : machine R o -> In b (side_r k o q buys u0) -> b_buying b = buys /\ b_time b = 0 /\ b_div b = true /\
      0 <= b_qty b /\ b_qty b <= 1 /\ o <= b_price b /\ b_price b <= R (1 + o) /\ machine R (b_qty b) /\ machine R (b_price b).
    Proof.
      intros Mo H. destruct (mk_fields q _ _ buys u0 A B b H) as (F1 & F2 & F3 & Iq & Ip). apply in_map_iff in Iq, Ip.
      destruct Iq as (i & <- & Hi). destruct Ip as (j & <- & Hj). destruct (drawn_le _ _ Hi) as [Li _]. destruct (drawn_le _ _ Hj) as [Lj _].
      destruct (at_bounds R e i step_pos one (W i ltac:(lia)) Li) as [I0 I1]. destruct (at_bounds R e j step_pos one (W j ltac:(lia)) Lj) as [J0 J1].
      repeat (split; [assumption|]). split; [apply rnd_ge; [exact Mo | qlra]|]. split; [apply rnd_mono; qlra|]. split; [apply rnd_machine | apply rnd_machine].
    Qed.
    Lemma sider_qtys : u + u < e -> NoDup (map b_qty (side_r k o q buys u0)).
    Proof.
      intro Hs. unfold side_r. rewrite mk_qty by assumption. apply nodup_on; [|apply ch_nodup, Hn]. intros x y Hx Hy E.
      destruct (drawn_le _ _ Hx) as [_ Lx]. destruct (drawn_le _ _ Hy) as [_ Ly]. destruct (Nat.lt_trichotomy x y) as [L|[L|L]]; [|exact L|]; exfalso.
      - pose proof (at_apart R u e x y RE step_pos Lx Ly L). rewrite E in H. qlra.
      - pose proof (at_apart R u e y x RE step_pos Ly Lx L). rewrite E in H. qlra.
    Qed.
    Lemma sider_prices : (u + u) * (qz 2 + qabs o) < e -> NoDup (map b_price (side_r k o q buys u0)).
    Proof.
      intro Hs. unfold side_r. rewrite mk_price by assumption. apply nodup_on; [|apply ch_nodup, Hn]. intros x y Hx Hy E.
      destruct (drawn_le _ _ Hx) as [_ Lx]. destruct (drawn_le _ _ Hy) as [_ Ly]. destruct (Nat.lt_trichotomy x y) as [L|[L|L]]; [|exact L|]; exfalso.
      - pose proof (price_apart R u e o x y RE step_pos Lx Ly L one Hs). rewrite E in H. revert H. apply Qcle_not_lt, Qcle_refl.
      - pose proof (price_apart R u e o y x RE step_pos Ly Lx L one Hs). rewrite E in H. revert H. apply Qcle_not_lt, Qcle_refl.
    Qed.
  End Side.

  Theorem generate_r_ok : machine R os -> machine R ob -> exists bs ss, generate_r R nb ns os ob r eps = Ok (bs ++ ss) /\
    length bs = nb /\ length ss = ns /\ map b_user (bs ++ ss) = map Z.of_nat (seq 0 (nb + ns)) /\
    (forall b, In b bs -> b_buying b = true /\ ob <= b_price b /\ b_price b <= R (1 + ob)) /\
    (forall b, In b ss -> b_buying b = false /\ os <= b_price b /\ b_price b <= R (1 + os)) /\
    (forall b, In b (bs ++ ss) -> 0 <= b_qty b /\ b_qty b <= 1 /\ machine R (b_qty b) /\ machine R (b_price b) /\ b_time b = 0 /\ b_div b = true) /\
    (u + u < e -> NoDup (map b_qty bs) /\ NoDup (map b_qty ss)) /\
    ((u + u) * (qz 2 + qabs ob) < e -> NoDup (map b_price bs)) /\ ((u + u) * (qz 2 + qabs os) < e -> NoDup (map b_price ss)).
  Proof.
    intros Ms Mb. assert (Hb : (nb <= mx)%nat) by (unfold mx; lia). assert (Hs : (ns <= mx)%nat) by (unfold mx; lia).
    exists (side_r 0 ob nb true 0), (side_r 2 os ns false (Z.of_nat nb)). split; [exact gen_ok|].
    split; [apply sider_length; assumption|]. split; [apply sider_length; assumption|]. split.
    { rewrite map_app, !sider_users by assumption. rewrite seq_app, map_app. f_equal.
      cbn [Nat.add]. replace (seq nb ns) with (map (fun j => (nb + j)%nat) (seq 0 ns)) by (clear; revert nb; induction ns as [|m IH]; intro nb; [reflexivity|]; simpl; rewrite Nat.add_0_r; f_equal; rewrite <- seq_shift, map_map, <- (IH (S nb)); apply map_ext; intro; lia).
      rewrite map_map. apply map_ext. intro; lia. }
    split; [intros b H; apply sider_fields in H; try assumption; tauto|]. split; [intros b H; apply sider_fields in H; try assumption; tauto|].
    split; [intros b H; apply in_app_iff in H; destruct H as [H|H]; apply sider_fields in H; try assumption; tauto|].
    split; [intro K; split; apply sider_qtys; assumption|]. split; intro K; apply sider_prices; assumption.
  Qed.
End Top.

(** with exact operations it is the exact generator *)
Theorem generate_exact nb ns os ob r eps : generate_r exact nb ns os ob r eps = generate nb ns os ob r eps.
Proof. reflexivity. Qed.
