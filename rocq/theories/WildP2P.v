(** Peer to peer trading and its profits with infinite and NaN prices. *)
From Verif Require Import QcTac Num NumFacts ListFacts ModelBase ModelHuang ModelP2P ModelRound ModelMuda ModelStats ModelAny ModelWild ModelWildMuda ModelWildMarket ModelWildStats ModelWildP2P
  Spec SpecAny SpecAnyRel SpecWild SpecWildMuda SpecWildMarket SpecWildStats SpecWildP2P AnyRel AnyLast WildStats WildStatsMaker.

Lemma arow_labels d : w_positions d -> map a_lbl (map arow_w d) = seq 0 (length (map arow_w d)).
Proof. intro H. rewrite map_map, map_length. exact H. Qed.
Lemma positions_nodup d : w_positions d -> NoDup (map w_lbl d).
Proof. unfold w_positions. intros ->. apply seq_NoDup. Qed.

(** ** Prices of deals *)
Lemma ninf_zero p q : q = 0 -> ninf_times p q = NaN.
Proof. intros ->. reflexivity. Qed.
Lemma ninf_up p q : 0 < q -> ninf_times p q = if p then PInf else NInf.
Proof. intro H. unfold ninf_times. destruct (qeq_spec q 0) as [->|N]; [exfalso; qlra|]. destruct (qlt_spec 0 q); [reflexivity | exfalso; qlra]. Qed.
Ltac inf_step := repeat match goal with |- context [ninf_times ?p ?q] => first [rewrite (ninf_zero p q) by auto | rewrite (ninf_up p q) by auto] end.
Theorem mix_cases c pb ps : 0 <= c -> c <= 1 -> nleb ps pb = true ->
  (w_mix c pb ps = NaN <-> (pb = PInf /\ ps = NInf) \/ (c = 0 /\ infinite pb) \/ (c = 1 /\ infinite ps)) /\
  (w_mix c pb ps <> NaN -> nleb ps (w_mix c pb ps) = true /\ nleb (w_mix c pb ps) pb = true).
Proof.
  intros H0 H1 L.
  assert (C : c = 0 \/ c = 1 \/ (0 < c /\ 0 < 1 - c)).
  { destruct (qeq_spec c 0) as [?|A]; [auto|]. destruct (qeq_spec c 1) as [?|B]; [auto|]. right. right. split; [destruct (qlt_spec 0 c) | destruct (qlt_spec 0 (1 - c))]; auto; exfalso; [apply A | apply B]; apply Qcle_antisym; qlra. }
  assert (N01 : (0 : Qc) <> 1) by discriminate. assert (N10 : (1 : Qc) <> 0) by discriminate.
  assert (U : 0 < 1) by reflexivity.
  unfold w_mix, infinite. destruct C as [->|[->|[A B]]].
  - replace (1 - 0) with 1 by ring. destruct pb as [b| | |], ps as [s| | |]; cbn [nleb] in L; try discriminate; cbn [nmul]; inf_step; cbn [nadd];
      (split; [split; [intro E; try discriminate E; auto 10 | intros [[E1 E2]|[[E1 [E2|E2]]|[E1 [E2|E2]]]]; try discriminate; try reflexivity; exfalso; auto] | intro E; try congruence; try (split; reflexivity)]).
    all: apply qleb_le in L; cbn [nleb]; rewrite !qleb_le; replace (b * 0 + 1 * s) with s by ring; split; qlra.
  - replace (1 - 1) with 0 by ring. destruct pb as [b| | |], ps as [s| | |]; cbn [nleb] in L; try discriminate; cbn [nmul]; inf_step; cbn [nadd];
      (split; [split; [intro E; try discriminate E; auto 10 | intros [[E1 E2]|[[E1 [E2|E2]]|[E1 [E2|E2]]]]; try discriminate; try reflexivity; exfalso; auto] | intro E; try congruence; try (split; reflexivity)]).
    all: apply qleb_le in L; cbn [nleb]; rewrite !qleb_le; replace (b * 1 + 0 * s) with b by ring; split; qlra.
  - assert (c <> 0) by (intros ->; qlra). assert (c <> 1) by (intros ->; qlra).
    destruct pb as [b| | |], ps as [s| | |]; cbn [nleb] in L; try discriminate; cbn [nmul]; inf_step; cbn [nadd];
      (split; [split; [intro E; try discriminate E; auto 10 | intros [[E1 E2]|[[E1 [E2|E2]]|[E1 [E2|E2]]]]; try discriminate; try reflexivity; exfalso; auto] | intro E; try congruence; try (split; reflexivity)]).
    all: apply qleb_le in L; cbn [nleb]; rewrite !qleb_le.
    all: assert (X : 0 <= c * (b - s)) by (apply qmult_nonneg; qlra); assert (Y : 0 <= (1 - c) * (b - s)) by (apply qmult_nonneg; qlra).
    all: replace (b * c + (1 - c) * s) with (s + c * (b - s)) by ring; split; [qlra|]; replace (s + c * (b - s)) with (b - (1 - c) * (b - s)) by ring; qlra.
Qed.

(** ** The transactions *)
Lemma gets_cons t T i : w_gets (t :: T) i = (if Nat.eqb (x_bid t) i then x_qty t else 0) + w_gets T i.
Proof. unfold w_gets. cbn [filter]. destruct (Nat.eqb (x_bid t) i); [rewrite qsumf_cons; reflexivity | ring]. Qed.
Lemma gets_app T T' i : w_gets (T ++ T') i = w_gets T i + w_gets T' i.
Proof. unfold w_gets. rewrite filter_app, qsumf_app. reflexivity. Qed.
Lemma meetings_app c d L L' T T' : meetings c d L T -> meetings c d L' T' -> meetings c d (L ++ L') (T ++ T').
Proof. intros H H'. induction H; [exact H'|]. cbn [app]. eapply m_more; eauto. Qed.

Section Run.
  Variable c : Qc.
  Variable d : wdf.
  Hypothesis HP : w_positions d.
  Notation da := (map arow_w d).

  Lemma in_da a : In a da -> exists x, In x d /\ a = arow_w x.
  Proof. intro H. apply in_map_iff in H. destruct H as (x & <- & Hx). eauto. Qed.
  Lemma deals_met q L T q' : deals (ops_w c) da q L T q' ->
    (forall p, In p L -> (exists x, In x da /\ a_buying x = true /\ a_lbl x = fst p) /\ (exists y, In y da /\ a_buying y = false /\ a_lbl y = snd p)) ->
    (forall i, 0 <= q i) -> meetings c d L T /\ (forall i, 0 <= q' i /\ w_gets T i + q' i = q i).
  Proof.
    pose proof (positions_nodup d HP) as N. induction 1 as [q q' E|q x y L T q1 q' Hx Hy Le E1 D IH|q x y L T q' Hx Hy Le D IH]; intros HL Hq.
    - split; [constructor|]. intro i. rewrite E. split; [apply Hq|]. unfold w_gets. cbn [filter]. rewrite qsumf_nil. ring.
    - destruct (in_da x Hx) as (x' & Hx' & ->), (in_da y Hy) as (y' & Hy' & ->). cbn [arow_w a_lbl a_price ops_w o_le o_min o_sub o_mix o_pos] in *.
      destruct (HL _ (or_introl eq_refl)) as [(b & Hb & Bb & Lb) (s & Hs & Bs & Ls)]. destruct (in_da b Hb) as (b' & Hb' & ->), (in_da s Hs) as (s' & Hs' & ->). cbn [arow_w a_lbl a_buying fst snd] in *.
      apply (unique_row d _ _ N Hb' Hx') in Lb. apply (unique_row d _ _ N Hs' Hy') in Ls. subst b' s'.
      set (m := qmin (q (w_lbl x')) (q (w_lbl y'))) in *.
      assert (M : 0 <= m /\ m <= q (w_lbl x') /\ m <= q (w_lbl y')).
      { subst m. unfold qmin. pose proof (Hq (w_lbl x')). pose proof (Hq (w_lbl y')). destruct (qle_spec (q (w_lbl x')) (q (w_lbl y'))); repeat split; qlra. }
      assert (Q1 : forall i, 0 <= q1 i).
      { intro i. rewrite E1. destruct (Nat.eqb_spec i (w_lbl x')) as [->|]; cbn [orb]; [qlra|]. destruct (Nat.eqb_spec i (w_lbl y')) as [->|]; [qlra | apply Hq]. }
      destruct (IH (fun p Hp => HL p (or_intror Hp)) Q1) as [I1 I2]. split.
      + eapply m_more; eauto. repeat split; cbn [x_bid x_qty x_price x_source]; try tauto. rewrite Le. reflexivity.
      + intro i. destruct (I2 i) as [P1 P2]. split; [exact P1|]. rewrite !gets_cons. cbn [x_bid x_qty]. rewrite E1 in P2. rewrite (Nat.eqb_sym i (w_lbl x')), (Nat.eqb_sym i (w_lbl y')) in P2.
        destruct (Nat.eqb_spec (w_lbl x') i) as [A|A], (Nat.eqb_spec (w_lbl y') i) as [B|B]; cbn [orb] in P2.
        * exfalso. assert (x' = y') by (apply (unique_row d); auto; congruence). subst y'. congruence.
        * replace (m + (0 + w_gets T i) + q' i) with (m + (w_gets T i + q' i)) by ring. rewrite P2. ring.
        * replace (0 + (m + w_gets T i) + q' i) with (m + (w_gets T i + q' i)) by ring. rewrite P2. ring.
        * rewrite <- P2. ring.
    - destruct (in_da x Hx) as (x' & Hx' & ->), (in_da y Hy) as (y' & Hy' & ->). cbn [arow_w a_lbl a_price ops_w o_le o_none o_free] in *.
      destruct (HL _ (or_introl eq_refl)) as [(b & Hb & Bb & Lb) (s & Hs & Bs & Ls)]. destruct (in_da b Hb) as (b' & Hb' & ->), (in_da s Hs) as (s' & Hs' & ->). cbn [arow_w a_lbl a_buying fst snd] in *.
      apply (unique_row d _ _ N Hb' Hx') in Lb. apply (unique_row d _ _ N Hs' Hy') in Ls. subst b' s'.
      destruct (IH (fun p Hp => HL p (or_intror Hp)) Hq) as [I1 I2]. split.
      + eapply m_more; eauto. repeat split; cbn [x_bid x_qty x_price x_source]; [apply Qcle_refl|]. rewrite Le. auto.
      + intro i. destruct (I2 i) as [P1 P2]. split; [exact P1|]. rewrite !gets_cons. cbn [x_bid x_qty]. rewrite <- P2. destruct (Nat.eqb _ i), (Nat.eqb _ i); ring.
  Qed.
  Lemma rounds_met first met q g T q' : rounds (ops_w c) da first met q g T q' -> (forall i, 0 <= q i) ->
    meetings c d (concat g) T /\ (forall i, 0 <= q' i /\ w_gets T i + q' i = q i).
  Proof.
    induction 1 as [first met q q' _ E|first met q L T q1 g T' q' _ _ HL _ _ D _ IH]; intro Hq.
    - split; [constructor|]. intro i. rewrite E. split; [apply Hq|]. unfold w_gets. cbn [filter]. rewrite qsumf_nil. ring.
    - destruct (deals_met q L T q1 D) as [M1 M2]; [intros p Hp; destruct (HL p Hp) as (A & B & _); auto | exact Hq|].
      destruct (IH (fun i => proj1 (M2 i))) as [I1 I2]. split; [cbn [concat]; apply meetings_app; assumption|].
      intro i. destruct (M2 i) as [_ E1], (I2 i) as [P E2]. split; [exact P|]. rewrite gets_app, <- E1, <- E2. ring.
  Qed.
  Lemma start_label x : In x d -> start (ops_w c) da (w_lbl x) = w_qty x.
  Proof.
    intro Hx. unfold start. pose proof (positions_nodup d HP) as N.
    destruct (find _ da) as [a|] eqn:F.
    - apply find_some in F. destruct F as [Ha E]. apply Nat.eqb_eq in E. destruct (in_da a Ha) as (z & Hz & ->). cbn [arow_w a_lbl a_qty] in *. rewrite (unique_row d z x N Hz Hx E). reflexivity.
    - exfalso. assert (K := find_none _ _ F (arow_w x) (in_map arow_w d x Hx)). cbn in K. rewrite Nat.eqb_refl in K. discriminate.
  Qed.
  Lemma start_nonneg : w_qty_nonneg d -> forall i, 0 <= start (ops_w c) da i.
  Proof.
    intros H i. unfold start. destruct (find _ da) as [a|] eqn:F; [|apply Qcle_refl]. apply find_some in F. destruct (in_da a (proj1 F)) as (z & Hz & ->). apply H, Hz.
  Qed.

  Hypothesis Hq : w_qty_nonneg d.
  Variable r : nat -> nat.
  Theorem p2p_meetings : exists T g, w_p2p c d r = Ok (T, g) /\ meetings c d (concat g) T /\ (forall x, In x d -> 0 <= w_gets T (w_lbl x) /\ w_gets T (w_lbl x) <= w_qty x).
  Proof.
    destruct (last_run (ops_w c) da (arow_labels d HP) r) as (T & g & q' & E & R). exists T, g. split; [exact E|].
    destruct (rounds_met _ _ _ _ _ _ R (start_nonneg Hq)) as [M1 M2]. split; [exact M1|]. intros x Hx. destruct (M2 (w_lbl x)) as [A B]. rewrite (start_label x Hx) in B.
    split; [|rewrite <- B; qlra]. clear - M1. unfold w_gets. induction M1 as [|a y t u L T _ _ _ _ (_ & _ & _ & _ & E & _ & P & _) _ IH]; [cbn [filter]; rewrite qsumf_nil; apply Qcle_refl|].
    cbn [filter]. assert (0 <= x_qty u) by (rewrite E; exact P). destruct (Nat.eqb (x_bid t) _), (Nat.eqb (x_bid u) _); rewrite ?qsumf_cons; qlra.
  Qed.
End Run.

(** ** Profits *)
Lemma meetings_in c d L T t : meetings c d L T -> In t T -> exists x y t1 t2, In x d /\ In y d /\ w_buying x = true /\ w_buying y = false /\ w_meet c x y t1 t2 /\ (t = t1 \/ t = t2).
Proof. induction 1 as [|x y t1 t2 L T Hx Hy Bx By M _ IH]; intros I; [destruct I|]. destruct I as [<-|[<-|I]]; [| |apply IH, I]; exists x, y, t1, t2; auto 10. Qed.

Definition no_loss (v : num) : Prop := v = NaN \/ v = PInf \/ exists q, v = Fin q /\ 0 <= q.
Lemma skip_no_loss l : Forall no_loss l -> at_least 0 (nsum_skip l).
Proof.
  intro H. unfold nsum_skip. assert (G : forall a, at_least 0 a -> at_least 0 (fold_left nadd (filter (fun x => match x with NaN => false | _ => true end) l) a)).
  { induction H as [|v l Hv _ IH]; intros a Ha; [exact Ha|]. cbn [filter]. destruct Hv as [->|[->|(q & -> & Hq)]]; [apply IH, Ha| |]; cbn [fold_left]; apply IH; destruct Ha as [->|(p & -> & Hp)]; cbn [nadd].
    1-3: left; reflexivity. right. eexists. split; [reflexivity|]. qlra. }
  apply G. right. exists 0. split; [reflexivity | apply Qcle_refl].
Qed.
Lemma gain_no_loss p v (b : bool) q : 0 <= q -> tolerant 0 (w_gap p v b) -> no_loss (w_gain p v b q).
Proof.
  intros Hq T. unfold w_gain, no_loss. destruct T as [->|[->|(g & -> & Hg)]]; cbn [nmul]; [auto| |].
  - rewrite (ninf_pos _ Hq). destruct (qltb 0 q); auto.
  - right. right. eexists. split; [reflexivity|]. apply qmult_nonneg; [qlra | exact Hq].
Qed.
Lemma gain_zero p v (b : bool) : no_loss (w_gain p v b 0).
Proof.
  unfold w_gain, no_loss. destruct (w_gap p v b) as [g| | |]; cbn [nmul]; rewrite ?ninf_zero by reflexivity; auto. right. right. eexists. split; [reflexivity|]. replace (g * 0) with 0 by ring. apply Qcle_refl.
Qed.
Lemma gap_nan v (b : bool) : w_gap NaN v b = NaN.
Proof. unfold w_gap. destruct v, b; reflexivity. Qed.
Theorem meetings_players c d L T : 0 <= c -> c <= 1 -> NoDup (map w_lbl d) -> meetings c d L T -> Forall (at_least 0) (w_players d T w_price).
Proof.
  intros H0 H1 N M. unfold w_players. apply Forall_map, Forall_forall. intros u _. apply skip_no_loss. apply Forall_map, Forall_forall. intros tr Htr. apply filter_In in Htr. destruct Htr as [Htr _].
  destruct (join_in _ _ _ Htr) as (I1 & I2 & I3). destruct (meetings_in _ _ _ _ _ M I1) as (x & y & t1 & t2 & Hx & Hy & Bx & By & (A1 & A2 & _ & _ & Eq & Ep & Q & K) & Ht).
  destruct (nleb (w_price y) (w_price x)) eqn:Le.
  - destruct (mix_cases c (w_price x) (w_price y) H0 H1 Le) as [_ W].
    destruct Ht as [Ht|Ht]; rewrite Ht; rewrite Ht in I3; [|rewrite Ep, Eq]; apply gain_no_loss; auto; rewrite K.
    + assert (snd tr = x) as -> by (apply (unique_row d); auto; congruence). rewrite Bx. destruct (w_mix c (w_price x) (w_price y)) eqn:Em; [| | |left; apply gap_nan]; apply gap_le; apply W; discriminate.
    + assert (snd tr = y) as -> by (apply (unique_row d); auto; congruence). rewrite By. destruct (w_mix c (w_price x) (w_price y)) eqn:Em; [| | |left; apply gap_nan]; apply gap_le; apply W; discriminate.
  - destruct K as [K _]. destruct Ht as [Ht|Ht]; rewrite Ht; rewrite ?Eq, K; apply gain_zero.
Qed.

Lemma side_cons b t (x : wrow) l : filter (of_side b) ((t, x) :: l) = if Bool.eqb (w_buying x) b then (t, x) :: filter (of_side b) l else filter (of_side b) l.
Proof. reflexivity. Qed.
Lemma meetings_money c d L T : NoDup (map w_lbl d) -> meetings c d L T ->
  map money (filter (of_side true) (w_join T d)) = map money (filter (of_side false) (w_join T d)).
Proof.
  intros N M. induction M as [|x y t u L T Hx Hy Bx By (A1 & A2 & _ & _ & Eq & Ep & _) M IH]; [reflexivity|].
  unfold w_join. cbn [flat_map]. fold (w_join T d). rewrite A1, A2, (label_row d x N Hx), (label_row d y N Hy). cbn [map app]. rewrite !side_cons, Bx, By. cbn [Bool.eqb map].
  rewrite IH. f_equal. unfold money. cbn [fst]. rewrite Eq, Ep. reflexivity.
Qed.
Definition is_fin (v : num) : bool := match v with Fin _ => true | _ => false end.
Lemma fold_fin l : forall a, is_fin (fold_left nadd l a) = is_fin a && forallb is_fin l.
Proof.
  induction l as [|v l IH]; intro a; cbn [fold_left forallb]; [rewrite andb_true_r; reflexivity|]. rewrite IH. destruct a, v; cbn; try reflexivity.
Qed.
Lemma join_fin c d L T : NoDup (map w_lbl d) -> meetings c d L T -> forallb is_fin (map money (filter (of_side true) (w_join T d))) = forallb paid_number T.
Proof.
  intros N M. induction M as [|x y t u L T Hx Hy Bx By (A1 & A2 & _ & _ & Eq & Ep & _) M IH]; [reflexivity|].
  unfold w_join. cbn [flat_map]. fold (w_join T d). rewrite A1, A2, (label_row d x N Hx), (label_row d y N Hy). cbn [map app]. rewrite !side_cons, Bx, By. cbn [Bool.eqb map forallb].
  rewrite IH. unfold paid_number at 2. unfold paid_number at 2. rewrite Eq, Ep. unfold money at 1. cbn [fst]. unfold is_fin. destruct (nmul (x_price t) (Fin (x_qty t))); reflexivity.
Qed.
Theorem meetings_market c d L T fees : NoDup (map w_lbl d) -> meetings c d L T ->
  w_market d T fees = nadd (if forallb paid_number T then Fin 0 else NaN) (nsum fees).
Proof.
  intros N M. pose proof (meetings_money c d L T N M) as E. pose proof (join_fin c d L T N M) as F. unfold w_market. cbv zeta. unfold money, of_side in E, F. rewrite <- E. f_equal.
  rewrite <- F. set (l := map _ _). pose proof (fold_fin l (Fin 0)) as G. cbn [is_fin andb] in G. rewrite <- G. fold (nsum l). destruct (nsum l); cbn; try reflexivity. f_equal. ring.
Qed.

(** ** Rational prices, and large ones instead of infinite ones *)
Theorem p2p_finite c (d : df) r :
  match p2p_random d c r with
  | Ok (tm, XP2P g) => w_p2p c (map wrow_of d) r = Ok (map SpecWildMuda.same_trans (tm_trans tm), g)
  | Ok _ => False
  | Err e => w_p2p c (map wrow_of d) r = Err e
  end.
Proof.
  rewrite last_exact. unfold w_p2p.
  assert (K : same_result eq (fun q n => n = Fin q) (a_run (ops_q c) (map arow_of d) r) (a_run (ops_w c) (map arow_w (map wrow_of d)) r)).
  { apply (any_related (fun q n => n = Fin q)).
    - constructor; cbn [ops_q ops_r ops_w o_le o_mix o_free o_none o_min o_sub o_pos o_is0 o_more]; auto; try (intros; subst; reflexivity).
      intros l l' H. assert (l = l') as -> by (induction H; congruence). reflexivity.
    - induction d as [|x l IH]; simpl; constructor; auto. constructor; reflexivity. }
  unfold SpecAnyRel.same_result in K. destruct (a_run (ops_q c) _ r) as [[T g]|e], (a_run (ops_w c) _ r) as [[T' g']|e']; try contradiction; [|congruence].
  destruct K as [F <-]. cbn [tm_trans]. f_equal. f_equal. induction F as [|t t' T T' [B Q' P S A] F IH]; [reflexivity|]. cbn [map]. rewrite <- IH. f_equal.
  destruct t, t'. cbn in *. unfold SpecWildMuda.same_trans, trans_of. cbn. congruence.
Qed.
Lemma cap_leb P a b : 0 < P -> a <> NaN -> b <> NaN -> (forall q, a = Fin q -> - P < q /\ q < P) -> (forall q, b = Fin q -> - P < q /\ q < P) -> qleb (cap P a) (cap P b) = nleb a b.
Proof.
  intros HP Na Nb Ha Hb. destruct a as [a| | |], b as [b| | |]; try congruence; cbn [cap nleb];
    repeat match goal with H : forall q, Fin ?a = Fin q -> _ |- _ => specialize (H a eq_refl) end;
    try reflexivity; match goal with |- qleb ?x ?y = _ => destruct (qle_spec x y); try reflexivity; exfalso; qlra end.
Qed.
Theorem p2p_large c c' d P r : no_nan d -> beyond P d ->
  match w_p2p c d r, p2p_random (map (cap_row P) d) c' r with
  | Ok (T, g), Ok (tm, XP2P g') => Forall2 same_but_price T (tm_trans tm) /\ g = g'
  | Err e, Err e' => e = e'
  | _, _ => False
  end.
Proof.
  intros Hn [HP Hb]. rewrite last_exact. unfold w_p2p.
  assert (K : same_result eq (fun _ _ => True) (a_run (ops_w c) (map arow_w d) r) (a_run (ops_q c') (map arow_of (map (cap_row P) d)) r)).
  { apply any_order; try reflexivity.
    - clear. induction d; simpl; constructor; auto.
    - assert (G : forall (l : wdf) x x', In (x, x') (combine (map arow_w l) (map arow_of (map (cap_row P) l))) -> exists z, In z l /\ x = arow_w z /\ x' = arow_of (cap_row P z)).
      { induction l as [|z l IH]; [intros x x' []|]. intros x x' [H|H]; [injection H as <- <-; exists z; simpl; auto|]. destruct (IH _ _ H) as (w & Hw & E). exists w. simpl. auto. }
      intros x x' y y' H1 H2. destruct (G _ _ _ H1) as (z & Hz & -> & ->), (G _ _ _ H2) as (w & Hw & -> & ->). apply cap_leb; [exact HP | apply Hn, Hw | apply Hn, Hz | intros q E; exact (Hb w q Hw E) | intros q E; exact (Hb z q Hz E)]. }
  unfold SpecAnyRel.same_result in K. destruct (a_run (ops_w c) _ r) as [[T g]|e], (a_run (ops_q c') _ r) as [[T' g']|e']; try contradiction; [|congruence].
  destruct K as [F <-]. cbn [tm_trans]. split; [|reflexivity]. induction F as [|t t' T T' [B Q' Pp S A] F IH]; [constructor|]. cbn [map]. constructor; [|exact IH]. unfold same_but_price, trans_of. cbn. auto.
Qed.

(** ** The statements for runs *)
Lemma run_meetings c d r T g : w_positions d -> w_qty_nonneg d -> w_p2p c d r = Ok (T, g) -> meetings c d (concat g) T.
Proof. intros HP Hq E. destruct (p2p_meetings c d HP Hq r) as (T' & g' & E' & M & _). rewrite E in E'. injection E' as <- <-. exact M. Qed.
Theorem p2p_players c d r T g : 0 <= c -> c <= 1 -> w_positions d -> w_qty_nonneg d -> w_p2p c d r = Ok (T, g) -> Forall (at_least 0) (w_players d T w_price).
Proof. intros H0 H1 HP Hq E. apply (meetings_players c d (concat g)); auto using positions_nodup. eapply run_meetings; eauto. Qed.
Theorem p2p_market c d r T g fees : w_positions d -> w_qty_nonneg d -> w_p2p c d r = Ok (T, g) ->
  w_market d T fees = nadd (if forallb paid_number T then Fin 0 else NaN) (nsum fees).
Proof. intros HP Hq E. apply (meetings_market c d (concat g)); auto using positions_nodup. eapply run_meetings; eauto. Qed.
Theorem p2p_nan c d r T g x t : w_positions d -> w_qty_nonneg d -> w_p2p c d r = Ok (T, g) -> In x d -> w_price x = NaN -> In t T -> x_bid t = w_lbl x ->
  x_qty t = 0 /\ x_price t = Fin 0 /\ x_active t = true.
Proof.
  intros HP Hq E Hx Nx Ht Bt. pose proof (positions_nodup d HP) as N. destruct (meetings_in _ _ _ _ _ (run_meetings _ _ _ _ _ HP Hq E) Ht) as (a & b & t1 & t2 & Ha & Hb & _ & _ & (A1 & A2 & _ & _ & Eq & Ep & _ & K) & C).
  assert (W : a = x \/ b = x) by (destruct C as [->| ->]; [left | right]; apply (unique_row d); auto; congruence).
  assert (Le : nleb (w_price b) (w_price a) = false) by (destruct W as [->| ->]; rewrite Nx; [destruct (w_price b)|]; reflexivity).
  rewrite Le in K. destruct K as (K1 & K2 & K3 & K4). destruct C as [->| ->]; rewrite ?Eq, ?Ep; auto.
Qed.
