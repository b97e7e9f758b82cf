(** A person with bids on one side and in one half of MUDA gains nothing by any other bids under any names. *)
From Verif Require Import QcTac Num ModelBase ModelCurves ModelHuang ModelMuda ListFacts StoreFacts
  Spec SpecTrade SpecMuda SpecAlias TradeFacts MudaSide MudaHalf MudaSolve MudaOutcome MudaFacts MudaTruth MudaPrice AliasBest.

Lemma named_cons w W r : named (w :: W) r = Z.eqb (user r) w || named W r.
Proof. reflexivity. Qed.
Lemma named_In W r : named W r = true <-> In (user r) W.
Proof.
  unfold named. rewrite existsb_exists. split; [intros (w & Hw & E); apply Z.eqb_eq in E; rewrite E; exact Hw | intro H; exists (user r); rewrite Z.eqb_refl; auto].
Qed.
Lemma not_by_names_one u d : not_by_names [u] d = not_by u d.
Proof. apply filter_ext. intro r. unfold named. simpl. rewrite orb_false_r. reflexivity. Qed.
Lemma filter_swap {A} (p q : A -> bool) l : filter p (filter q l) = filter q (filter p l).
Proof. rewrite !filter_filter. apply filter_ext. intro x. apply andb_comm. Qed.
Lemma fill_gain_app e e' p y : fill_gain (e ++ e') p y = fill_gain e p y + fill_gain e' p y.
Proof. apply qsumf_app. Qed.
Lemma fill_gain_perm e e' p y : Permutation e e' -> fill_gain e p y = fill_gain e' p y.
Proof. apply qsumf_perm. Qed.

(** ** The fees of several names are at least the fee of the person *)
Section Group.
  Variables (h : df) (p : Qc) (fees : list Qc) (tl : list trans) (f1 : list Qc) (b : bool).
  Hypotheses (Hq : qty_nonneg h) (Hu : labels_unique h) (Hn : forall r, In r h -> (0 <= user r)%Z).
  Hypothesis H : HalfOk h p fees tl f1.
  Let x := fun i => traded_by i tl.
  Let N := side_of b h.
  Let Q := side_qty (negb b) h p.

  Lemma group_Q : 0 <= Q.
  Proof.
    destruct (x_fill h p fees tl f1 Hu H b) as [X1 X2]. fold N in X1, X2. fold Q in X2. refine (Qcle_trans _ _ _ _ X2). apply qsumf_nonneg. intros r Hr. apply X1, Hr.
  Qed.
  Lemma group_fee W : NoDup W -> (forall w, In w W -> (0 <= w)%Z /\ fee_of fees w = 0) -> (forall r, In r h -> named W r = true -> buying r = b) ->
    exists v, best_gain (not_by_names W N) p Q (fill_gain (not_by_names W N) p x + v) /\ v <= names_fee W f1.
  Proof.
    assert (Nq : qty_nonneg N) by (intros r Hr; unfold N, side_of in Hr; apply filter_In in Hr; apply Hq, Hr).
    assert (Nu : labels_unique N) by (apply NoDup_filter_map, Hu).
    induction 1 as [|w W Hw Hd IH]; intros Hz Hb.
    - exists 0. split; [|apply Qcle_refl]. assert (E : not_by_names [] N = N) by (apply filter_all; reflexivity). rewrite E, Qcplus_0_r. apply (ho_best _ _ _ _ _ H).
    - destruct IH as (v & B & Lv).
      { intros z Hz'. apply Hz. right; exact Hz'. }
      { intros r Hr E. apply Hb; [exact Hr|]. rewrite named_cons, E. apply orb_true_r. }
      set (Wr := by_user w N). set (X := filter (named W) (not_by w N)). set (A := filter (fun r => negb (named W r)) (not_by w N)).
      assert (EA : not_by_names (w :: W) N = A).
      { unfold A, not_by, not_by_names. rewrite filter_filter. apply filter_ext. intro r. rewrite named_cons. apply negb_orb. }
      assert (EW : by_user w (not_by_names W N) = Wr).
      { unfold Wr, by_user, not_by_names. rewrite filter_filter. apply filter_ext. intro r. destruct (Z.eqb_spec (user r) w) as [E|E]; [|apply andb_false_r].
        rewrite andb_true_r. apply negb_true_iff. rewrite <- not_true_iff_false, named_In, E. exact Hw. }
      assert (EA' : not_by w (not_by_names W N) = A) by (unfold A, not_by, not_by_names; apply filter_swap).
      assert (P1 : Permutation N (Wr ++ not_by w N)) by apply filter_negb_perm.
      assert (P2 : Permutation (not_by w N) (X ++ A)) by apply filter_negb_perm.
      assert (P3 : Permutation (not_by_names W N) (Wr ++ A)) by (rewrite <- EW, <- EA'; apply filter_negb_perm).
      assert (P4 : Permutation N (Wr ++ X ++ A)) by (rewrite P1; apply Permutation_app_head, P2).
      assert (HuA : labels_unique A) by (unfold A, not_by; do 2 apply NoDup_filter_map; exact Nu).
      assert (HqA : qty_nonneg A) by (intros r Hr; apply Nq; unfold A, not_by in Hr; do 2 (apply filter_In in Hr; destruct Hr as [Hr _]); exact Hr).
      destruct (best_exists A p Q HqA HuA group_Q) as (a & Ba).
      pose proof (ho_best _ _ _ _ _ H b) as BN. fold N in BN. fold Q in BN. fold x in BN.
      assert (Bw : best_gain (not_by w N) p Q (fill_gain (not_by w N) p x + fee_of f1 w)).
      { apply (fee_externality h p fees tl f1 Hq Hu Hn H b w); [apply Hz; left; reflexivity | | apply Hz; left; reflexivity].
        intros r Hr E. apply Hb; [exact Hr|]. rewrite named_cons, E, Z.eqb_refl. reflexivity. }
      assert (S : fill_gain N p x - (fill_gain (not_by w N) p x + fee_of f1 w) <= fill_gain (not_by_names W N) p x + v - a).
      { apply (substitutes Wr X A p Q); try assumption.
        - intros r Hr. apply Nq. apply (Permutation_in _ (Permutation_sym P4) Hr).
        - unfold labels_unique. apply (Permutation_NoDup (Permutation_map lbl P4)), Nu.
        - apply group_Q.
        - apply (best_perm N); assumption.
        - apply (best_perm (not_by w N)); assumption.
        - apply (best_perm (not_by_names W N)); assumption. }
      exists (a - fill_gain A p x). rewrite EA. split; [replace (fill_gain A p x + (a - fill_gain A p x)) with a by ring; exact Ba|].
      unfold names_fee in *. rewrite qsumf_cons.
      rewrite (fill_gain_perm _ _ p x P1), (fill_gain_perm _ _ p x P3), !fill_gain_app in S. qlra.
  Qed.
End Group.

(** ** One half *)
Lemma side_others b u h : (forall r, In r h -> user r = u -> buying r = b) -> side_of (negb b) h = side_of (negb b) (not_by u h).
Proof.
  intro Hb. unfold side_of, not_by. rewrite filter_filter. apply filter_ext_in'. intros r Hr. destruct (Z.eqb_spec (user r) u) as [E|]; [|reflexivity].
  rewrite (Hb r Hr E). destruct b; reflexivity.
Qed.
Lemma side_others_names b W h : (forall r, In r h -> named W r = true -> buying r = b) -> side_of (negb b) h = side_of (negb b) (not_by_names W h).
Proof.
  intro Hb. unfold side_of, not_by_names. rewrite filter_filter. apply filter_ext_in'. intros r Hr. destruct (named W r) eqn:E; [|reflexivity].
  rewrite (Hb r Hr E). destruct b; reflexivity.
Qed.
Lemma side_qty_side b h p : side_qty b h p = side_qty b (side_of b h) p.
Proof.
  unfold side_qty, side_of, demand_at, supply_at. destruct b; rewrite filter_filter; f_equal; apply filter_ext; intro r; destruct (buying r); reflexivity.
Qed.
Lemma use_bound b D X y p : 0 <= p -> (forall r, In r D -> buying r = b) -> uses b D X y -> use_gain b D y (p * X) <= fill_gain D p y.
Proof.
  intros Hp Hb [_ H2]. assert (E : fill_gain D p y = if b then qsumf (fun r => price r * y (lbl r)) D - p * qsumf (fun r => y (lbl r)) D
    else p * qsumf (fun r => y (lbl r)) D - qsumf (fun r => price r * y (lbl r)) D).
  { unfold fill_gain. destruct b; rewrite <- qsumf_scale, <- qsumf_minus; apply qsumf_ext; intros r Hr; unfold gain; rewrite (Hb r Hr); ring. }
  rewrite E. unfold use_gain. destruct b; [|rewrite H2; apply Qcle_refl].
  assert (0 <= p * (X - qsumf (fun r => y (lbl r)) D)) by (apply qmult_nonneg; qlra).
  replace (p * (X - qsumf (fun r => y (lbl r)) D)) with (p * X - p * qsumf (fun r => y (lbl r)) D) in * by ring. qlra.
Qed.

Section Half.
  Variables (u : Z) (W : list Z) (b : bool) (h h' : df).
  Hypotheses (Hq : qty_nonneg h) (Hu : labels_unique h) (Hn : forall r, In r h -> (0 <= user r)%Z) (Hb : forall r, In r h -> user r = u -> buying r = b).
  Hypotheses (Hq' : qty_nonneg h') (Hu' : labels_unique h') (Hn' : forall r, In r h' -> (0 <= user r)%Z) (Hb' : forall r, In r h' -> named W r = true -> buying r = b).
  Hypotheses (H0 : (0 <= u)%Z) (Wd : NoDup W) (W0 : forall w, In w W -> (0 <= w)%Z) (Ho : not_by_names W h' = not_by u h).

  Lemma half_alias p fees fees0 tl f1 tl' f1' y : 0 <= p -> fee_of fees u = 0 -> (forall w, In w W -> fee_of fees0 w = 0) ->
    HalfOk h p fees tl f1 -> HalfOk h' p fees0 tl' f1' -> uses b (by_user u h) (names_qty h' W tl') y ->
    use_gain b (by_user u h) y (p * names_qty h' W tl') - names_fee W f1' <= fill_gain (by_user u h) p (fun i => traded_by i tl) - fee_of f1 u.
  Proof.
    intros Hp Hf Hf0 H H' Hy. set (x := fun i => traded_by i tl). set (x' := fun i => traded_by i tl').
    assert (Db : forall r, In r (by_user u h) -> buying r = b) by (intros r Hr; unfold by_user in Hr; apply filter_In in Hr; apply Hb; [apply Hr | apply Z.eqb_eq, Hr]).
    pose proof (use_bound b (by_user u h) _ y p Hp Db Hy) as U.
    assert (EQ : side_qty (negb b) h' p = side_qty (negb b) h p) by (rewrite (side_qty_side _ h'), (side_qty_side _ h), (side_others b u h Hb), (side_others_names b W h' Hb'), Ho; reflexivity).
    assert (EO : not_by_names W (side_of b h') = not_by u (side_of b h)) by (unfold not_by_names, not_by, side_of in *; rewrite filter_swap, Ho, filter_swap; reflexivity).
    pose proof (fee_externality h p fees tl f1 Hq Hu Hn H b u H0 Hb Hf) as F. fold x in F.
    destruct (group_fee h' p fees0 tl' f1' b Hq' Hu' Hn' H' W Wd) as (v & F' & Lv); [intros w Hw; auto | exact Hb'|]. fold x' in F'.
    rewrite EO, EQ in F'. pose proof (best_unique _ _ _ _ _ F F') as E.
    assert (EB : by_user u (side_of b h) = by_user u h).
    { unfold by_user, side_of. rewrite filter_swap. apply filter_all. intros r Hr. rewrite (Db r Hr). apply eqb_reflx. }
    assert (EB' : by_names W (side_of b h') = by_names W h').
    { unfold by_names, side_of. rewrite filter_swap. apply filter_all. intros r Hr. apply filter_In in Hr. rewrite (Hb' r) by apply Hr. apply eqb_reflx. }
    set (D := by_user u h) in *. set (O := not_by u (side_of b h)) in *. set (X := names_qty h' W tl') in *.
    assert (P : Permutation (side_of b h) (D ++ O)) by (rewrite <- EB; apply filter_negb_perm).
    assert (P' : Permutation (side_of b h') (by_names W h' ++ O)) by (rewrite <- EB', <- EO; apply filter_negb_perm).
    destruct (fill_perm _ _ p _ _ P' (x_fill h' p fees0 tl' f1' Hu' H' b)) as [FX _]. fold x' in FX.
    destruct (fill_part _ _ _ _ p FX) as (_ & FO & _). rewrite EQ in FO.
    assert (EX : qsumf (fun r => x' (lbl r)) (by_names W h') = X) by reflexivity. rewrite EX in FO.
    assert (FD : fill D X y) by (destruct Hy as [Y1 Y2]; split; [exact Y1 | destruct b; [exact Y2 | rewrite Y2; apply Qcle_refl]]).
    assert (DU : labels_unique (D ++ O)) by (apply (Permutation_NoDup (Permutation_map lbl P)), NoDup_filter_map, Hu).
    pose proof (glue_fill D O DU _ _ _ _ FD FO) as G. replace (X + (side_qty (negb b) h p - X)) with (side_qty (negb b) h p) in G by ring.
    pose proof (best_perm _ _ p _ _ P (ho_best _ _ _ _ _ H b)) as BN. fold x in BN. apply (proj2 BN) in G. rewrite glue_gain in G by exact DU.
    rewrite (fill_gain_perm _ _ p x P), fill_gain_app in G. fold D in G. qlra.
  Qed.
  Lemma names_pay_price tl p : (forall t, In t tl -> t_price t = p) -> names_pay h' W tl = p * names_qty h' W tl.
  Proof.
    intro H. unfold names_pay, names_qty. rewrite <- qsumf_scale. apply qsumf_ext. intros r _. unfold traded_by. rewrite <- qsumf_scale. apply qsumf_ext.
    intros t Ht. apply filter_In in Ht. rewrite (H t) by apply Ht. reflexivity.
  Qed.
  Lemma none_alias fees fees0 y : fee_of fees u = 0 -> (forall w, In w W -> fee_of fees0 w = 0) -> uses b (by_user u h) (names_qty h' W []) y ->
    use_gain b (by_user u h) y (names_pay h' W []) - names_fee W fees0 <= profit h u [] - fee_of fees u.
  Proof.
    intros Hf Hf0 Hy.
    assert (Z : use_gain b (by_user u h) y (names_pay h' W []) - names_fee W fees0 = 0); [|rewrite Z, Hf; unfold profit; rewrite (qsumf_zero _ (by_user u h)) by reflexivity; apply Qcle_refl].
    assert (N0 : names_fee W fees0 = 0) by (apply qsumf_zero, Hf0). assert (M0 : names_pay h' W [] = 0) by (apply qsumf_zero; reflexivity).
    assert (X0 : names_qty h' W [] = 0) by (apply qsumf_zero; reflexivity). rewrite X0 in Hy. destruct Hy as [Y1 Y2].
    assert (Y0 : forall r, In r (by_user u h) -> y (lbl r) = 0).
    { intros r Hr. apply Qcle_antisym; [|apply Y1, Hr]. apply Qcle_trans with (qsumf (fun r => y (lbl r)) (by_user u h)).
      - apply (qsumf_in_le (fun r => y (lbl r))); [intros z Hz; apply Y1, Hz | exact Hr].
      - destruct b; [exact Y2 | rewrite Y2; apply Qcle_refl]. }
    assert (U0 : qsumf (fun r => price r * y (lbl r)) (by_user u h) = 0) by (apply qsumf_zero; intros r Hr; rewrite (Y0 r Hr); ring).
    rewrite N0, M0. unfold use_gain. rewrite U0. destruct b; ring.
  Qed.
  Lemma half_res_alias p fees fees0 tl f1 tl' f1' y : (forall q, p = Fin q -> 0 <= q) -> fee_of fees u = 0 -> (forall w, In w W -> fee_of fees0 w = 0) ->
    HalfRes h p fees tl f1 -> HalfRes h' p fees0 tl' f1' -> uses b (by_user u h) (names_qty h' W tl') y ->
    use_gain b (by_user u h) y (names_pay h' W tl') - names_fee W f1' <= profit h u tl - fee_of f1 u.
  Proof.
    intros Hp Hf Hf0 H H' Hy. destruct p as [q| | |]; simpl in H, H'.
    - rewrite (profit_price u h tl q) by (intros t Ht; apply (ho_const _ _ _ _ _ H t Ht)).
      rewrite (names_pay_price tl' q) by (intros t Ht; apply (ho_const _ _ _ _ _ H' t Ht)).
      eapply half_alias; eauto.
    - destruct H as [-> ->], H' as [-> ->]. apply none_alias; assumption.
    - destruct H as [-> ->], H' as [-> ->]. apply none_alias; assumption.
    - destruct H as [-> ->], H' as [-> ->]. apply none_alias; assumption.
  Qed.
End Half.

(** ** The whole mechanism *)
Lemma by_user_half u ls d : (forall x, In x d -> user x = u -> In (lbl x) ls) -> by_user u (rows_in ls d) = by_user u d.
Proof.
  intro H. unfold by_user, rows_in. rewrite filter_filter. apply filter_ext_in'. intros r Hr. destruct (Z.eqb_spec (user r) u) as [E|]; [|apply andb_false_r].
  rewrite andb_true_r. apply mem_In, H; assumption.
Qed.
Lemma by_names_half W ls d : (forall x, In x d -> named W x = true -> In (lbl x) ls) -> by_names W (rows_in ls d) = by_names W d.
Proof.
  intro H. unfold by_names, rows_in. rewrite filter_filter. apply filter_ext_in'. intros r Hr. destruct (named W r) eqn:E; [|apply andb_false_r].
  rewrite andb_true_r. apply mem_In, H; assumption.
Qed.
Lemma names_in_half d W ls tl tl' : (forall x, In x d -> named W x = true -> In (lbl x) ls) ->
  (forall i, In i ls -> filter (fun t => Nat.eqb (t_bid t) i) tl = filter (fun t => Nat.eqb (t_bid t) i) tl') ->
  names_qty d W tl = names_qty (rows_in ls d) W tl' /\ names_pay d W tl = names_pay (rows_in ls d) W tl'.
Proof.
  intros H F. unfold names_qty, names_pay. rewrite (by_names_half W ls d H). split; apply qsumf_ext; intros r Hr; unfold by_names in Hr; apply filter_In in Hr; destruct Hr as [H1 H2]; unfold traded_by; rewrite F by (apply H; assumption); reflexivity.
Qed.
Lemma none_of tl i : (forall t, In t tl -> t_bid t <> i) -> filter (fun t => Nat.eqb (t_bid t) i) tl = [].
Proof. intro H. apply filter_none. intros t Ht. apply Nat.eqb_neq, H, Ht. Qed.

Lemma muda_alias S d d' fl fl' tlL tlR pl pr f1 f2 tlL' tlR' pl' pr' f1' f2' u W b y :
  qty_nonneg d -> price_nonneg d -> labels_unique d -> (forall r, In r d -> (0 <= user r)%Z) -> (0 <= u)%Z -> (forall r, In r d -> user r = u -> buying r = b) ->
  qty_nonneg d' -> labels_unique d' -> (forall r, In r d' -> (0 <= user r)%Z) -> NoDup W -> (forall w, In w W -> (0 <= w)%Z) -> (forall r, In r d' -> named W r = true -> buying r = b) ->
  MudaOk S d fl tlL tlR pl pr f1 f2 -> MudaOk S d' fl' tlL' tlR' pl' pr' f1' f2' ->
  not_by_names W (rows_in (left_of d' fl') d') = not_by u (rows_in (left_of d fl) d) ->
  not_by_names W (rows_in (right_of d' fl') d') = not_by u (rows_in (right_of d fl) d) ->
  (forall x, In x d -> user x = u -> In (lbl x) (left_of d fl)) /\ (forall x, In x d' -> named W x = true -> In (lbl x) (left_of d' fl')) \/
  (forall x, In x d -> user x = u -> In (lbl x) (right_of d fl)) /\ (forall x, In x d' -> named W x = true -> In (lbl x) (right_of d' fl')) ->
  uses b (by_user u d) (names_qty d' W (tlL' ++ tlR')) y ->
  use_gain b (by_user u d) y (names_pay d' W (tlL' ++ tlR')) - names_fee W f2' <= profit d u (tlL ++ tlR) - fee_of f2 u.
Proof.
  intros Hq Hp Hu Hn H0 Hb Hq' Hu' Hn' Wd W0 Hb' M M' El Er Hh Hy.
  pose proof (tlL_lbl _ _ _ _ _ _ _ _ _ M') as TL. pose proof (tlR_lbl _ _ _ _ _ _ _ _ _ M') as TR.
  pose proof (profit_split S d fl tlL tlR pl pr f1 f2 M u) as P. rewrite P. clear P.
  destruct M as [Mpl Mpr Ml Mr], M' as [Mpl' Mpr' Ml' Mr'].
  set (hl := rows_in (left_of d fl) d) in *. set (hr := rows_in (right_of d fl) d) in *.
  set (hl' := rows_in (left_of d' fl') d') in *. set (hr' := rows_in (right_of d' fl') d') in *.
  assert (Sub : forall ls e r, In r (rows_in ls e) -> In r e) by (intros ls e r H; apply rows_in_In in H; apply H).
  assert (Hpos : forall ls q, find_competitive_price S (rows_in ls d) = Ok (Fin q) -> 0 <= q).
  { intros ls q E. assert (Hp' : price_nonneg (rows_in ls d)) by (intros r Hr; apply Hp, (Sub ls d r Hr)).
    destruct (price_finite S (rows_in ls d) (half_qty ls d Hq) Hp' q E) as [(rb & rs & _ & H2 & _ & _ & H3 & _) _]. specialize (Hp' rs H2). qlra. }
  destruct Hh as [[Hh Hh']|[Hh Hh']].
  - assert (Ar : forall r, In r hr -> user r <> u) by (intros r H E; apply rows_in_In in H; destruct H as [H1 H2]; apply (L_R d fl (lbl r)); [apply Hh; assumption | exact H2]).
    assert (Ar' : forall r, In r hr' -> named W r = false).
    { intros r H. apply not_true_iff_false. intro E. apply rows_in_In in H. destruct H as [H1 H2]. apply (L_R d' fl' (lbl r)); [apply Hh'; assumption | exact H2]. }
    assert (Sr : hr' = hr).
    { unfold not_by_names, not_by in Er. rewrite !filter_all in Er; [exact Er | |].
      - intros r H. apply negb_true_iff, Z.eqb_neq, Ar, H.
      - intros r H. apply negb_true_iff, Ar', H. }
    assert (pr' = pr) by congruence. subst pr'.
    destruct (names_in_half d' W (left_of d' fl') (tlL' ++ tlR') tlL' Hh') as [Nq Np].
    { intros i Hi. rewrite filter_app, (none_of tlR'); [apply app_nil_r|]. intros t Ht E. apply (L_R d' fl' i Hi). rewrite <- E. apply TR, Ht. }
    fold hl' in Nq, Np. rewrite Nq in Hy. rewrite Np. rewrite (absent_profit u hr) by exact Ar.
    rewrite (absent_fee u hr pl f1 tlR f2) by (auto; intros r H; apply Hn, (Sub _ _ _ H)).
    assert (Nf : names_fee W f2' = names_fee W f1').
    { apply qsumf_ext. intros w Hw. apply (absent_fee w hr' pl' f1' tlR' f2'); auto.
      - intros r H. apply Hn', (Sub _ _ _ H).
      - intros r H E. specialize (Ar' r H). rewrite <- not_true_iff_false, named_In, E in Ar'. contradiction. }
    rewrite Nf. rewrite <- (by_user_half u (left_of d fl) d Hh) in *. fold hl in Hy |- *.
    assert (T : use_gain b (by_user u hl) y (names_pay hl' W tlL') - names_fee W f1' <= profit hl u tlL - fee_of f1 u); [|qlra].
    apply (half_res_alias u W b hl hl') with (p := pr) (fees := zero_fees d) (fees0 := zero_fees d'); auto.
    + apply half_qty, Hq.
    + apply rows_in_unique, Hu.
    + intros r H. apply Hn, (Sub _ _ _ H).
    + intros r H. apply Hb, (Sub _ _ _ H).
    + apply half_qty, Hq'.
    + apply rows_in_unique, Hu'.
    + intros r H. apply Hn', (Sub _ _ _ H).
    + intros r H. apply Hb', (Sub _ _ _ H).
    + intros q ->. apply (Hpos (right_of d fl)), Mpr.
    + apply fees_zero.
    + intros w _. apply fees_zero.
  - assert (Al : forall r, In r hl -> user r <> u) by (intros r H E; apply rows_in_In in H; destruct H as [H1 H2]; apply (L_R d fl (lbl r)); [exact H2 | apply Hh; assumption]).
    assert (Al' : forall r, In r hl' -> named W r = false).
    { intros r H. apply not_true_iff_false. intro E. apply rows_in_In in H. destruct H as [H1 H2]. apply (L_R d' fl' (lbl r)); [exact H2 | apply Hh'; assumption]. }
    assert (Sl : hl' = hl).
    { unfold not_by_names, not_by in El. rewrite !filter_all in El; [exact El | |].
      - intros r H. apply negb_true_iff, Z.eqb_neq, Al, H.
      - intros r H. apply negb_true_iff, Al', H. }
    assert (pl' = pl) by congruence. subst pl'.
    destruct (names_in_half d' W (right_of d' fl') (tlL' ++ tlR') tlR' Hh') as [Nq Np].
    { intros i Hi. rewrite filter_app, (none_of tlL'); [reflexivity|]. intros t Ht E. apply (L_R d' fl' i); [rewrite <- E; apply TL, Ht | exact Hi]. }
    fold hr' in Nq, Np. rewrite Nq in Hy. rewrite Np. rewrite (absent_profit u hl) by exact Al.
    assert (Z1 : fee_of f1 u = 0) by (rewrite (absent_fee u hl pr (zero_fees d) tlL f1); [apply fees_zero | intros r H; apply Hn, (Sub _ _ _ H) | assumption..]).
    assert (Z2 : forall w, In w W -> fee_of f1' w = 0).
    { intros w Hw. rewrite (absent_fee w hl' pr' (zero_fees d') tlL' f1'); auto; [apply fees_zero | intros r H; apply Hn', (Sub _ _ _ H) |].
      intros r H E. specialize (Al' r H). rewrite <- not_true_iff_false, named_In, E in Al'. contradiction. }
    rewrite <- (by_user_half u (right_of d fl) d Hh) in *. fold hr in Hy |- *.
    assert (T : use_gain b (by_user u hr) y (names_pay hr' W tlR') - names_fee W f2' <= profit hr u tlR - fee_of f2 u); [|qlra].
    apply (half_res_alias u W b hr hr') with (p := pl) (fees := f1) (fees0 := f1'); auto.
    + apply half_qty, Hq.
    + apply rows_in_unique, Hu.
    + intros r H. apply Hn, (Sub _ _ _ H).
    + intros r H. apply Hb, (Sub _ _ _ H).
    + apply half_qty, Hq'.
    + apply rows_in_unique, Hu'.
    + intros r H. apply Hn', (Sub _ _ _ H).
    + intros r H. apply Hb', (Sub _ _ _ H).
    + intros q ->. apply (Hpos (left_of d fl)), Mpl.
Qed.
Lemma alias_truthful S d d' fl fl' tm tm' l r pl pr fees l' r' pl' pr' fees' u W b y :
  qty_nonneg d -> price_nonneg d -> labels_unique d -> (forall x, In x d -> (0 <= user x)%Z) -> (0 <= u)%Z -> (forall x, In x d -> user x = u -> buying x = b) ->
  qty_nonneg d' -> labels_unique d' -> (forall x, In x d' -> (0 <= user x)%Z) -> NoDup W -> (forall w, In w W -> (0 <= w)%Z) -> (forall x, In x d' -> named W x = true -> buying x = b) ->
  muda S d fl = Ok (tm, XMuda l r pl pr fees) -> muda S d' fl' = Ok (tm', XMuda l' r' pl' pr' fees') ->
  not_by_names W (rows_in l' d') = not_by u (rows_in l d) -> not_by_names W (rows_in r' d') = not_by u (rows_in r d) ->
  (forall x, In x d -> user x = u -> In (lbl x) l) /\ (forall x, In x d' -> named W x = true -> In (lbl x) l') \/
  (forall x, In x d -> user x = u -> In (lbl x) r) /\ (forall x, In x d' -> named W x = true -> In (lbl x) r') ->
  uses b (by_user u d) (names_qty d' W (tm_trans tm')) y ->
  use_gain b (by_user u d) y (names_pay d' W (tm_trans tm')) - names_fee W fees' <= profit d u (tm_trans tm) - fee_of fees u.
Proof.
  intros Hq Hp Hu Hn H0 Hb Hq' Hu' Hn' Wd W0 Hb' E E'.
  destruct (muda_ok S d fl tm _ Hq Hu E) as (tlL & tlR & pl1 & pr1 & f1 & f2 & M & Et & X). injection X as -> -> <- <- <-.
  destruct (muda_ok S d' fl' tm' _ Hq' Hu' E') as (tlL' & tlR' & pl1' & pr1' & f1' & f2' & M' & Et' & X'). injection X' as -> -> <- <- <-.
  rewrite Et, Et'. intros. eapply muda_alias; eauto.
Qed.
Lemma side_group_fee S d p fees tm fees' b W : qty_nonneg d -> labels_unique d -> (forall r, In r d -> (0 <= user r)%Z) ->
  solve_market_side S d (Fin p) fees = Ok (tm, fees') -> NoDup W -> (forall w, In w W -> (0 <= w)%Z /\ fee_of fees w = 0) ->
  (forall r, In r d -> named W r = true -> buying r = b) ->
  exists v, GroupFee d p b W (tm_trans tm) v /\ 0 <= v /\ v <= names_fee W fees'.
Proof.
  intros Hq Hu Hn E Wd W0 Hb. pose proof (half_ok S d p fees tm fees' Hq Hu E) as H.
  destruct (group_fee d p fees (tm_trans tm) fees' b Hq Hu Hn H W Wd W0 Hb) as (v & B & L). exists v. split; [exact B|]. split; [|exact L].
  assert (F : fill (not_by_names W (side_of b d)) (side_qty (negb b) d p) (fun i => traded_by i (tm_trans tm))).
  { destruct (x_fill d p fees (tm_trans tm) fees' Hu H b) as [X1 X2]. split.
    - intros r Hr. apply X1. unfold not_by_names in Hr. apply filter_In in Hr. apply Hr.
    - refine (Qcle_trans _ _ _ _ X2). rewrite (qsumf_filter_split _ (named W) (side_of b d)).
      assert (0 <= qsumf (fun r => traded_by (lbl r) (tm_trans tm)) (filter (named W) (side_of b d))) by (apply qsumf_nonneg; intros r Hr; apply filter_In in Hr; apply X1, Hr).
      unfold not_by_names. qlra. }
  apply (proj2 B) in F. qlra.
Qed.
