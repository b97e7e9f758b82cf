(** No user with bids in one half and on one side gains by misreporting. *)
From Verif Require Import QcTac Num ModelBase ModelCurves ModelHuang ModelMuda ListFacts StoreFacts
  Spec SpecTrade SpecMuda TradeFacts MudaSide MudaHalf MudaSolve MudaOutcome MudaFacts.

Section Misreport.
  Variable u : Z.
  Notation R := (misreport u).

  Lemma mis_lbl d d' : Forall2 R d d' -> map lbl d' = map lbl d.
  Proof. induction 1 as [|r r' d d' [H _] _ IH]; simpl; congruence. Qed.
  Lemma mis_filter P P' d d' : (forall r r', R r r' -> P' r' = P r) -> Forall2 R d d' -> Forall2 R (filter P d) (filter P' d').
  Proof. intro HP. induction 1 as [|r r' d d' H _ IH]; simpl; [constructor|]. rewrite (HP r r' H). destruct (P r); [constructor|]; assumption. Qed.
  Lemma mis_sum (f f' : row -> Qc) d d' : (forall r r', In r d -> R r r' -> f' r' = f r) -> Forall2 R d d' -> qsumf f' d' = qsumf f d.
  Proof.
    intro HP. induction 1 as [|r r' d d' H _ IH]; [reflexivity|]. rewrite !qsumf_cons, IH by (intros a b Ha; apply HP; right; exact Ha).
    rewrite (HP r r' (or_introl eq_refl) H). reflexivity.
  Qed.
  Lemma mis_in d d' r : Forall2 R d d' -> In r d -> exists r', In r' d' /\ R r r'.
  Proof. induction 1 as [|a a' d d' H _ IH]; [contradiction|]. intros [->|Hr]; [exists a'; simpl; auto|]. destruct (IH Hr) as (r' & H1 & H2). exists r'. simpl; auto. Qed.
  Lemma mis_in' d d' r' : Forall2 R d d' -> In r' d' -> exists r, In r d /\ R r r'.
  Proof. induction 1 as [|a a' d d' H _ IH]; [contradiction|]. intros [->|Hr]; [exists a; simpl; auto|]. destruct (IH Hr) as (r & H1 & H2). exists r. simpl; auto. Qed.
  Lemma mis_others d d' : Forall2 R d d' -> not_by u d' = not_by u d.
  Proof.
    induction 1 as [|r r' d d' (_ & Hu' & _ & _ & _ & H) _ IH]; [reflexivity|]. unfold not_by in *. simpl. rewrite Hu'.
    destruct (Z.eqb_spec (user r) u) as [E|E]; simpl; [exact IH|]. rewrite IH, (H E). reflexivity.
  Qed.
  Lemma mis_same d d' : Forall2 R d d' -> (forall r, In r d -> user r <> u) -> d' = d.
  Proof.
    induction 1 as [|r r' d d' (_ & _ & _ & _ & _ & H) _ IH]; intro Hn; [reflexivity|].
    rewrite (H (Hn r (or_introl eq_refl))). f_equal. apply IH. intros a Ha. apply Hn. right; exact Ha.
  Qed.
  Lemma mis_side b d d' : Forall2 R d d' -> Forall2 R (side_of b d) (side_of b d').
  Proof. apply mis_filter. intros r r' (_ & _ & H & _). rewrite H. reflexivity. Qed.
  Lemma mis_rows ls d d' : Forall2 R d d' -> Forall2 R (rows_in ls d) (rows_in ls d').
  Proof. apply mis_filter. intros r r' (H & _). rewrite H. reflexivity. Qed.
  Lemma mis_opp b p d d' : Forall2 R d d' -> (forall r, In r d -> user r = u -> buying r = b) -> side_qty (negb b) d' p = side_qty (negb b) d p.
  Proof.
    intros H Hb. assert (E : side_of (negb b) d' = side_of (negb b) d).
    { apply mis_same; [apply mis_side, H|]. intros r Hr Eu. unfold side_of in Hr. apply filter_In in Hr. destruct Hr as [Hr Eb]. apply eqb_prop in Eb.
      rewrite (Hb r Hr Eu) in Eb. destruct b; discriminate. }
    assert (G : forall e, side_qty (negb b) e p = qsumf qty (filter (fun r => if negb b then qleb p (price r) else qleb (price r) p) (side_of (negb b) e))).
    { intro e. unfold side_of. rewrite filter_filter. destruct b; simpl; unfold supply_at, demand_at; f_equal; apply filter_ext; intro r; destruct (buying r); reflexivity. }
    rewrite !G, E. reflexivity.
  Qed.

  (** one half *)
  Lemma half_truthful h h' p fees fees0 tl f1 tl' f1' b : qty_nonneg h -> labels_unique h ->
    (forall r, In r h -> (0 <= user r)%Z) -> (0 <= u)%Z -> (forall r, In r h -> user r = u -> buying r = b) -> Forall2 R h h' ->
    fee_of fees u = 0 -> fee_of fees0 u = 0 -> HalfOk h p fees tl f1 -> HalfOk h' p fees0 tl' f1' ->
    fill_gain (by_user u h) p (fun i => traded_by i tl') - fee_of f1' u <= fill_gain (by_user u h) p (fun i => traded_by i tl) - fee_of f1 u.
  Proof.
    intros Hq Hu Hn H0 Hb HR Hf Hf0 H H'.
    set (x := fun i => traded_by i tl). set (x' := fun i => traded_by i tl').
    assert (Hq' : qty_nonneg h') by (intros r' Hr'; destruct (mis_in' h h' r' HR Hr') as (r & _ & _ & _ & _ & G & _); exact G).
    assert (Hu' : labels_unique h') by (unfold labels_unique; rewrite (mis_lbl h h' HR); exact Hu).
    assert (Hn' : forall r, In r h' -> (0 <= user r)%Z) by (intros r' Hr'; destruct (mis_in' h h' r' HR Hr') as (r & Hr & _ & E & _); rewrite E; apply Hn, Hr).
    assert (Hb' : forall r, In r h' -> user r = u -> buying r = b).
    { intros r' Hr' E. destruct (mis_in' h h' r' HR Hr') as (r & Hr & _ & E1 & E2 & _). rewrite E2. apply Hb; [exact Hr | congruence]. }
    pose proof (fee_externality h p fees tl f1 Hq Hu Hn H b u H0 Hb Hf) as F.
    pose proof (fee_externality h' p fees0 tl' f1' Hq' Hu' Hn' H' b u H0 Hb' Hf0) as F'.
    rewrite (mis_others _ _ (mis_side b _ _ HR)), (mis_opp b p h h' HR Hb) in F'.
    pose proof (best_unique _ _ _ _ _ F F') as E. fold x in E. fold x' in E.
    assert (T : fill_gain (side_of b h) p x' <= fill_gain (side_of b h) p x).
    { apply (proj2 (ho_best _ _ _ _ _ H b)). destruct (x_fill h' p fees0 tl' f1' Hu' H' b) as [X1 X2]. fold x' in X1, X2. split.
      - intros r Hr. destruct (mis_in _ _ r (mis_side b _ _ HR) Hr) as (r' & Hr' & El & _ & _ & _ & Eq & _). specialize (X1 r' Hr'). rewrite El in X1. split; [apply X1|]. apply Qcle_trans with (qty r'); [apply X1 | exact Eq].
      - rewrite (mis_opp b p h h' HR Hb) in X2. refine (Qcle_trans _ _ _ _ X2). assert (Q0 : forall a c : Qc, a = c -> c <= a) by (intros a c ->; apply Qcle_refl). apply Q0.
        apply (mis_sum (fun r => x' (lbl r)) (fun r => x' (lbl r)) (side_of b h) (side_of b h')); [|apply mis_side, HR].
        intros r r' _ (El & _). rewrite El. reflexivity. }
    assert (T' : forall y, fill_gain (side_of b h) p y = fill_gain (by_user u (side_of b h)) p y + fill_gain (not_by u (side_of b h)) p y) by (intro y; unfold fill_gain, by_user, not_by; apply qsumf_filter_split).
    rewrite !T' in T.
    assert (Z : forall y, fill_gain (by_user u h) p y = fill_gain (by_user u (side_of b h)) p y).
    { intro y. unfold fill_gain, by_user, side_of. rewrite filter_filter, !qsumf_filter. apply qsumf_ext. intros r Hr.
      destruct (Z.eqb_spec (user r) u) as [Eu|]; [|rewrite andb_false_r; reflexivity]. rewrite (Hb r Hr Eu), eqb_reflx. reflexivity. }
    rewrite !Z. qlra.
  Qed.
  Lemma half_res_truthful h h' p fees fees0 tl f1 tl' f1' b : qty_nonneg h -> labels_unique h ->
    (forall r, In r h -> (0 <= user r)%Z) -> (0 <= u)%Z -> (forall r, In r h -> user r = u -> buying r = b) -> Forall2 R h h' ->
    fee_of fees u = 0 -> fee_of fees0 u = 0 -> HalfRes h p fees tl f1 -> HalfRes h' p fees0 tl' f1' ->
    profit h u tl' - fee_of f1' u <= profit h u tl - fee_of f1 u.
  Proof.
    intros Hq Hu Hn H0 Hb HR Hf Hf0 H H'. destruct p as [q| | |]; simpl in H, H'.
    2-4: destruct H as [-> ->], H' as [-> ->]; rewrite Hf, Hf0; apply Qcle_refl.
    rewrite (profit_price u h tl q) by (intros t Ht; apply (ho_const _ _ _ _ _ H t Ht)).
    rewrite (profit_price u h tl' q) by (intros t Ht; apply (ho_const _ _ _ _ _ H' t Ht)).
    apply (half_truthful h h' q fees fees0 tl f1 tl' f1' b); assumption.
  Qed.
  (** a half without bids of [u] *)
  Lemma absent_fee h p fees tl f1 : (forall r, In r h -> (0 <= user r)%Z) -> (0 <= u)%Z -> (forall r, In r h -> user r <> u) ->
    HalfRes h p fees tl f1 -> fee_of f1 u = fee_of fees u.
  Proof.
    intros Hn H0 Ha H. destruct p as [q| | |]; simpl in H; [|destruct H as [_ ->]; reflexivity..].
    destruct (ho_fees _ _ _ _ _ H Hn) as (_ & _ & F2). apply F2; [exact H0|]. intros (t & r & _ & Hr & _ & _ & E). exact (Ha r Hr E).
  Qed.
  Lemma absent_profit h tl : (forall r, In r h -> user r <> u) -> profit h u tl = 0.
  Proof.
    intro Ha. unfold profit, by_user. rewrite filter_none; [reflexivity|]. intros r Hr. apply Z.eqb_neq, Ha, Hr.
  Qed.

  Lemma muda_truthful S d d' fl tlL tlR pl pr f1 f2 tlL' tlR' pl' pr' f1' f2' b :
    qty_nonneg d -> labels_unique d -> (forall r, In r d -> (0 <= user r)%Z) -> (0 <= u)%Z ->
    (forall r, In r d -> user r = u -> buying r = b) -> Forall2 R d d' ->
    (forall r, In r d -> user r = u -> In (lbl r) (left_of d fl)) \/ (forall r, In r d -> user r = u -> In (lbl r) (right_of d fl)) ->
    MudaOk S d fl tlL tlR pl pr f1 f2 -> MudaOk S d' fl tlL' tlR' pl' pr' f1' f2' ->
    profit d u (tlL' ++ tlR') - fee_of f2' u <= profit d u (tlL ++ tlR) - fee_of f2 u.
  Proof.
    intros Hq Hu Hn H0 Hb HR Hh M M'.
    assert (El : left_of d' fl = left_of d fl) by (unfold left_of; rewrite (mis_lbl _ _ HR); reflexivity).
    assert (Er : right_of d' fl = right_of d fl) by (unfold right_of; rewrite (mis_lbl _ _ HR), El; reflexivity).
    pose proof (profit_split S d fl tlL tlR pl pr f1 f2 M u) as P.
    assert (P' : profit d u (tlL' ++ tlR') = profit (rows_in (left_of d fl) d) u tlL' + profit (rows_in (right_of d fl) d) u tlR').
    { rewrite profit_app. f_equal; apply profit_half.
      - intros t Ht. rewrite <- El. exact (tlL_lbl S d' fl tlL' tlR' pl' pr' f1' f2' M' t Ht).
      - intros t Ht. rewrite <- Er. exact (tlR_lbl S d' fl tlL' tlR' pl' pr' f1' f2' M' t Ht). }
    rewrite P, P'. clear P P'.
    assert (Uz : zero_fees d' = zero_fees d).
    { unfold zero_fees. do 3 f_equal. clear - HR. induction HR as [|r r' d d' (_ & H & _) _ IH]; simpl; congruence. }
    destruct M as [Mpl Mpr Ml Mr], M' as [Mpl' Mpr' Ml' Mr']. rewrite El, Er, Uz in *.
    assert (Dis : forall r, In r d -> In (lbl r) (left_of d fl) -> ~ In (lbl r) (right_of d fl)) by (intros r _; apply L_R).
    set (hl := rows_in (left_of d fl) d) in *. set (hr := rows_in (right_of d fl) d) in *.
    assert (Nl : forall r, In r hl -> In r d) by (intros r H; apply rows_in_In in H; apply H).
    assert (Nr : forall r, In r hr -> In r d) by (intros r H; apply rows_in_In in H; apply H).
    destruct Hh as [Hh|Hh].
    - assert (Ar : forall r, In r hr -> user r <> u) by (intros r H E; apply rows_in_In in H; destruct H as [H1 H2]; apply (Dis r H1); [apply Hh; assumption | exact H2]).
      assert (Sr : rows_in (right_of d fl) d' = hr) by (apply mis_same; [apply mis_rows, HR | exact Ar]).
      rewrite Sr in *. assert (pr' = pr) by congruence. subst pr'.
      rewrite !(absent_profit hr) by exact Ar.
      rewrite (absent_fee hr pl f1 tlR f2), (absent_fee hr pl' f1' tlR' f2') by (auto; intros r H; apply Hn, Nr, H).
      assert (T : profit hl u tlL' - fee_of f1' u <= profit hl u tlL - fee_of f1 u); [|qlra].
      eapply (half_res_truthful hl _ pr (zero_fees d) (zero_fees d) tlL f1 tlL' f1' b); eauto.
      + apply half_qty, Hq.
      + apply rows_in_unique, Hu.
      + apply mis_rows, HR.
      + apply fees_zero.
      + apply fees_zero.
    - assert (Al : forall r, In r hl -> user r <> u) by (intros r H E; apply rows_in_In in H; destruct H as [H1 H2]; apply (Dis r H1); [exact H2 | apply Hh; assumption]).
      assert (Sl : rows_in (left_of d fl) d' = hl) by (apply mis_same; [apply mis_rows, HR | exact Al]).
      rewrite Sl in *. assert (pl' = pl) by congruence. subst pl'.
      rewrite !(absent_profit hl) by exact Al.
      assert (Z1 : fee_of f1 u = 0) by (rewrite (absent_fee hl pr (zero_fees d) tlL f1); [apply fees_zero | intros r H; apply Hn, Nl, H | assumption..]).
      assert (Z2 : fee_of f1' u = 0) by (rewrite (absent_fee hl pr' (zero_fees d) tlL' f1'); [apply fees_zero | intros r H; apply Hn, Nl, H | assumption..]).
      assert (T : profit hr u tlR' - fee_of f2' u <= profit hr u tlR - fee_of f2 u); [|qlra].
      eapply (half_res_truthful hr _ pl f1 f1' tlR f2 tlR' f2' b); eauto.
      + apply half_qty, Hq.
      + apply rows_in_unique, Hu.
      + apply mis_rows, HR.
  Qed.
End Misreport.
