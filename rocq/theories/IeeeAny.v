(** Peer to peer trading on doubles. *)
From Coq Require Import Floats.SpecFloat.
From Verif Require Import QcTac ModelBase ModelMerge MergeFacts ModelRound ModelFloat ModelP2P ModelAny ListFacts StoreFacts RoundFacts SpecGrid GridFacts SpecDouble BoundFacts ModelBounded DoubleFacts SpecIeee SpecIeeeRun IeeeRound IeeeOps SpecAnyRel AnyFacts AnyTop AnyRel AnyNum.

Lemma pick_incl ps r fuel : forall k active tmp tr T a k', pick_round fuel ps r k active tmp tr = Ok (T, a, k') -> (forall p, In p tr -> In p ps) -> forall p, In p T -> In p ps.
Proof.
  induction fuel as [|fuel IH]; intros k active tmp tr T a k' E Ht; simpl in E.
  - destruct (where_true tmp); [injection E as <- _ _; exact Ht | discriminate].
  - destruct (where_true tmp) as [|x w]; [injection E as <- _ _; exact Ht|].
    destruct (nth_error ps _) as [t|] eqn:En; [|discriminate]. apply (IH _ _ _ _ _ _ _ E). intros p Hp. apply in_app_or in Hp.
    destruct Hp as [Hp|[<-|[]]]; [apply Ht, Hp | eapply nth_error_In; eauto].
Qed.

(** ** Related runs, when the difference is related for the quantities of a deal only *)
Section Deals.
  Context {P Q X P' Q' X' : Type}.
  Variables (SP : P -> P' -> Prop) (SQ : Q -> Q' -> Prop) (SX : X -> X' -> Prop).
  Variables (o : ops P Q X) (o' : ops P' Q' X').
  Hypothesis Ole : forall p p' q q', SP p p' -> SP q q' -> o_le o p q = o_le o' p' q'.
  Hypothesis Omix : forall p p' q q', SP p p' -> SP q q' -> SX (o_mix o p q) (o_mix o' p' q').
  Hypothesis Ofree : SX (o_free o) (o_free o').
  Hypothesis Onone : SQ (o_none o) (o_none o').
  Hypothesis Odeal : forall p p' q q', SQ p p' -> SQ q q' ->
    SQ (o_min o p q) (o_min o' p' q') /\ SQ (o_sub o p (o_min o p q)) (o_sub o' p' (o_min o' p' q')) /\ SQ (o_sub o q (o_min o p q)) (o_sub o' q' (o_min o' p' q')).
  Hypothesis Opos : forall p p', SQ p p' -> o_pos o p = o_pos o' p'.
  Hypothesis Ois0 : forall p p', SQ p p' -> o_is0 o p = o_is0 o' p'.
  Hypothesis Omore : forall l l', Forall2 SQ l l' -> o_more o l = o_more o' l'.
  Variables (d : list (arow P Q)) (d' : list (arow P' Q')).
  Hypothesis Hd : Forall2 (same_row SP SQ) d d'.
  Hypothesis Hlbl : NoDup (map a_lbl d).
  Variable r : nat -> nat.

  Lemma pair_neq p : In p (a_pairs d) -> fst p <> snd p.
  Proof.
    unfold a_pairs, a_buyers, a_sellers. intro H. apply in_flat_map in H. destruct H as (b & Hb & H). apply in_map_iff in H. destruct H as (s & <- & Hs). cbn [fst snd].
    apply in_map_iff in Hb, Hs. destruct Hb as (x & <- & Hx), Hs as (y & <- & Hy). apply filter_In in Hx, Hy. destruct Hx as [Ix Bx], Hy as [Iy By].
    intro E. assert (x = y) by (apply (NoDup_map_in a_lbl d); assumption). subst y. rewrite Bx in By. discriminate.
  Qed.
  Lemma set_nth_other {A} (l : list A) : forall i j x a, i <> j -> nth j (set_nth i x l) a = nth j l a.
  Proof. induction l as [|y l IH]; intros [|i] [|j] x a H; simpl; auto; try congruence; apply IH; congruence. Qed.
  Lemma deal_trade p q q' T T' : fst p <> snd p -> Forall2 SQ q q' -> Forall2 (same_trans SQ SX) T T' ->
    Forall2 SQ (fst (a_trade o (map a_price d) (q, T) p)) (fst (a_trade o' (map a_price d') (q', T') p)) /\
    Forall2 (same_trans SQ SX) (snd (a_trade o (map a_price d) (q, T) p)) (snd (a_trade o' (map a_price d') (q', T') p)).
  Proof.
    destruct p as [b s]. cbn [fst snd]. intros Ne Hq HT. unfold a_trade.
    assert (Hp : Forall2 SP (map a_price d) (map a_price d')) by (apply (F2_map (same_row SP SQ)); [exact Hd | intros x y H; apply H]).
    pose proof (F2_nth_error SP _ _ b Hp) as Hb. pose proof (F2_nth_error SP _ _ s Hp) as Hs.
    destruct (nth_error (map a_price d) b) as [pb|], (nth_error (map a_price d') b) as [pb'|]; try contradiction; [|auto].
    destruct (nth_error (map a_price d) s) as [p0|], (nth_error (map a_price d') s) as [p0'|]; try contradiction; [|auto].
    rewrite (Ole _ _ _ _ Hs Hb). destruct (o_le o' p0' pb'); cbn [fst snd].
    - assert (Hqb := F2_nth SQ _ _ b _ _ Hq Onone). assert (Hqs := F2_nth SQ _ _ s _ _ Hq Onone).
      destruct (Odeal _ _ _ _ Hqb Hqs) as (Hm & H1 & H2). rewrite !set_nth_other by exact Ne. split.
      + apply F2_set_nth; [apply F2_set_nth; assumption | assumption].
      + apply Forall2_app; [exact HT|]. constructor; [|constructor; [|constructor]]; constructor; cbn [x_bid x_qty x_price x_source x_active]; auto.
    - split; [exact Hq|]. apply Forall2_app; [exact HT|]. constructor; [|constructor; [|constructor]]; constructor; cbn [x_bid x_qty x_price x_source x_active]; auto.
  Qed.
  Lemma deal_trades L : (forall p, In p L -> fst p <> snd p) -> forall q q' T T', Forall2 SQ q q' -> Forall2 (same_trans SQ SX) T T' ->
    Forall2 SQ (fst (fold_left (a_trade o (map a_price d)) L (q, T))) (fst (fold_left (a_trade o' (map a_price d')) L (q', T'))) /\
    Forall2 (same_trans SQ SX) (snd (fold_left (a_trade o (map a_price d)) L (q, T))) (snd (fold_left (a_trade o' (map a_price d')) L (q', T'))).
  Proof.
    induction L as [|p L IH]; intros HL q q' T T' Hq HT; [split; assumption|]. cbn [fold_left].
    destruct (deal_trade p q q' T T' (HL p (or_introl eq_refl)) Hq HT) as [H1 H2].
    destruct (a_trade o _ _ p) as [q1 T1]. destruct (a_trade o' _ _ p) as [q1' T1']. cbn [fst snd] in H1, H2. apply IH; auto. intros z Hz. apply HL. right; exact Hz.
  Qed.
  Lemma deal_next ps q q' a : Forall2 SQ q q' -> a_next o d ps q a = a_next o' d' ps q' a.
  Proof.
    intro Hq. unfold a_next. rewrite <- (rel_buyers SP SQ d d' Hd), <- (rel_sellers SP SQ d d' Hd).
    assert (E : forall b, o_is0 o (nth b q (o_none o)) = o_is0 o' (nth b q' (o_none o'))) by (intro b; apply Ois0; apply F2_nth; assumption).
    rewrite !(filter_ext _ _ E). reflexivity.
  Qed.
  Lemma deal_loop ps fuel : (forall p, In p ps -> fst p <> snd p) -> forall k a tmp q q' T T' g, Forall2 SQ q q' -> Forall2 (same_trans SQ SX) T T' ->
    same_result SQ SX (a_loop o fuel d ps (map a_price d) r k a tmp q T g) (a_loop o' fuel d' ps (map a_price d') r k a tmp q' T' g).
  Proof.
    intro Hps. induction fuel as [|fuel IH]; intros k a tmp q q' T T' g Hq HT; cbn [a_loop]; rewrite (Omore q q' Hq);
    destruct (o_more o' q' && existsb (fun b => b) tmp); simpl; auto.
    destruct (pick_round (length ps) ps r k a tmp []) as [[[L a'] k']|e] eqn:Pk; cbn [bind]; [|reflexivity].
    assert (HL : forall p, In p L -> fst p <> snd p) by (intros p Hp; apply Hps; apply (pick_incl _ _ _ _ _ _ _ _ _ _ Pk); [intros z [] | exact Hp]).
    destruct (deal_trades L HL q q' T T' Hq HT) as [H1 H2].
    destruct (fold_left (a_trade o _) L (q, T)) as [q1 T1]. destruct (fold_left (a_trade o' _) L (q', T')) as [q1' T1']. cbn [fst snd] in H1, H2.
    rewrite (deal_next ps q1 q1' a' H1). apply IH; assumption.
  Qed.
  Theorem deal_related : same_result SQ SX (a_run o d r) (a_run o' d' r).
  Proof.
    unfold a_run. rewrite <- (rel_pairs SP SQ d d' Hd), (Forall2_length_eq _ _ _ Hd). destruct (forallb _ _); [|reflexivity].
    apply deal_loop; [exact pair_neq | | constructor]. apply (F2_map (same_row SP SQ)); [exact Hd | intros x y H; apply H].
  Qed.
End Deals.

(** ** Doubles *)
Definition dqty (q : Qc) (x : spec_float) : Prop := dval q x /\ 0 <= q.
Definition dprice (q : Qc) (x : spec_float) : Prop := dval q x /\ qabs q <= pow2 1022.
(** a double or, for a sum that is too large, infinity *)
Definition dsum (q : Qc) (x : spec_float) : Prop := 0 <= q /\ (dval q x \/ (x = S754_infinity false /\ 1 <= q)).

Lemma below_overflow a : a <= p2 1023 -> a < overflow.
Proof. intro H. apply Qcle_lt_trans with big; [|apply overflow_big]. apply Qcle_trans with (p2 1023); [exact H | apply big_p2; lia]. Qed.
Lemma float_val v z : float_of v z -> qabs v < overflow -> dval (binary64 v) z.
Proof. intros [A _] L. split; apply (A L). Qed.
Lemma dval_big q x : dval q x -> qabs q <= big.
Proof. intros [A B]. rewrite <- B. apply number_big, proper_number, A. Qed.
Lemma p2_machine e : (-1074 <= e <= 971)%Z -> binary64 (p2 e) = p2 e.
Proof. intro H. apply (proj2 (rounds_machine _ _ binary64_rounds _)). exists 1%Z, e. split; [exact H|]. split; [reflexivity|]. rewrite pow2_p2, qz_1. ring. Qed.
Lemma p2_machine' e : (971 <= e <= 1023)%Z -> binary64 (p2 e) = p2 e.
Proof.
  intro H. apply (proj2 (rounds_machine _ _ binary64_rounds _)). exists (2 ^ (e - 971))%Z, 971%Z. split; [split; lia|]. split.
  - rewrite Z.abs_eq by (apply Z.pow_nonneg; lia). apply Z.pow_lt_mono_r; lia.
  - rewrite pow2_p2, <- p2_nonneg_int by lia. rewrite <- p2_plus. f_equal. lia.
Qed.
Lemma round_abs q B : binary64 B = B -> qabs q <= B -> qabs (binary64 q) <= B.
Proof.
  intros HB H. assert (H1 : q <= B /\ - B <= q) by (revert H; unfold qabs; destruct (qle_spec 0 q); intro; split; qlra). destruct H1 as [H1 H2].
  pose proof (b64_mono q B H1) as M1. pose proof (b64_mono (- B) q H2) as M2. rewrite b64_opp in M2. change (b64_round B) with (binary64 B) in M1, M2. rewrite HB in M1, M2. change (b64_round q) with (binary64 q) in M1, M2.
  unfold qabs. destruct (qle_spec 0 (binary64 q)); qlra.
Qed.
Lemma abs_mult_le a c B : 0 <= c -> c <= 1 -> qabs a <= B -> qabs (a * c) <= B.
Proof.
  intros C0 C1 H. assert (E : qabs (a * c) = qabs a * c).
  { unfold qabs. destruct (qle_spec 0 a), (qle_spec 0 (a * c)); try ring.
    - exfalso. assert (0 <= a * c) by (apply qmult_nonneg; assumption). qlra.
    - assert (0 <= - a * c) by (apply qmult_nonneg; qlra). assert (a * c = 0) as -> by (replace (- a * c) with (- (a * c)) in H2 by ring; qlra). replace (- a * c) with (- (a * c)) by ring. assert (a * c = 0) as -> by (replace (- a * c) with (- (a * c)) in H2 by ring; qlra). ring. }
  rewrite E. apply Qcle_trans with (qabs a * 1); [apply qmult_le_l; [unfold qabs; destruct (qle_spec 0 a); qlra | exact C1] | rewrite Qcmult_1_r; exact H].
Qed.
Lemma abs_plus_le a b A B : qabs a <= A -> qabs b <= B -> qabs (a + b) <= A + B.
Proof. unfold qabs. destruct (qle_spec 0 a), (qle_spec 0 b), (qle_spec 0 (a + b)); intros; qlra. Qed.
Lemma one_val : dval 1 d_one.
Proof.
  assert (H : float_of (qz 1 * p2 0) d_one) by apply normalize_ok. replace (qz 1 * p2 0) with 1 in H by (rewrite qz_1, p2_0; ring).
  apply float_val in H; [|apply below_overflow; rewrite qabs_pos by discriminate; rewrite <- p2_0; apply p2_le; lia].
  assert (E : binary64 1 = 1) by (rewrite <- p2_0; apply p2_machine; lia). rewrite E in H. exact H.
Qed.
Lemma b64_nonneg q : 0 <= q -> 0 <= binary64 q.
Proof. intro H. pose proof (b64_mono 0 q H) as M. exact M. Qed.

Section Coefficient.
  Variable c : spec_float.
  Hypothesis Hc : proper c.
  Hypothesis C0 : 0 <= fval c.
  Hypothesis C1 : fval c <= 1.
  Lemma rest_val : dval (binary64 (1 - fval c)) (d_sub d_one c) /\ 0 <= binary64 (1 - fval c) /\ binary64 (1 - fval c) <= 1.
  Proof.
    destruct one_val as [P1 V1]. assert (E1 : binary64 1 = 1) by (rewrite <- p2_0; apply p2_machine; lia). split; [|split].
    - unfold d_sub. rewrite <- V1. apply float_val; [apply sub_ok; assumption|]. apply below_overflow. rewrite V1, qabs_pos by qlra. apply Qcle_trans with (p2 0); [rewrite p2_0; qlra | apply p2_le; lia].
    - apply b64_nonneg. qlra.
    - rewrite <- E1 at 2. apply (b64_mono (1 - fval c) 1). qlra.
  Qed.
  Lemma mix_val pb pb' ps ps' : dprice pb pb' -> dprice ps ps' ->
    dval (binary64 (binary64 (pb * fval c) + binary64 (binary64 (1 - fval c) * ps))) (d_add (d_mul pb' c) (d_mul (d_sub d_one c) ps')).
  Proof.
    intros [[B1 B2] B3] [[S1 S2] S3]. rewrite pow2_p2 in B3, S3. destruct rest_val as ((R1 & R2) & R3 & R4). set (w := binary64 (1 - fval c)) in *.
    assert (M22 : binary64 (p2 1022) = p2 1022) by (apply p2_machine'; lia). assert (L23 : p2 1022 <= p2 1023) by (apply p2_le; lia).
    assert (X1 : qabs (pb * fval c) <= p2 1022) by (apply abs_mult_le; assumption).
    assert (X2 : qabs (w * ps) <= p2 1022) by (rewrite Qcmult_comm; apply abs_mult_le; assumption).
    assert (Y1 : dval (binary64 (pb * fval c)) (d_mul pb' c)) by (rewrite <- B2; apply float_val; [apply mul_ok; assumption | rewrite B2; apply below_overflow; apply Qcle_trans with (p2 1022); assumption]).
    assert (Y2 : dval (binary64 (w * ps)) (d_mul (d_sub d_one c) ps')).
    { rewrite <- R2, <- S2. apply float_val; [apply mul_ok; assumption | rewrite R2, S2; apply below_overflow; apply Qcle_trans with (p2 1022); assumption]. }
    destruct Y1 as [P1 V1], Y2 as [P2 V2]. rewrite <- V1, <- V2. apply float_val; [apply add_ok; assumption|]. apply below_overflow. rewrite V1, V2.
    replace 1023%Z with (1022 + 1)%Z by lia. rewrite p2_succ. apply abs_plus_le; apply round_abs; assumption.
  Qed.
  Lemma dsum_add q x q' x' : dsum q x -> dsum q' x' -> dsum (binary64 (q + q')) (d_add x x').
  Proof.
    intros [N H] [N' H']. assert (Nn : 0 <= q + q') by qlra. split; [apply b64_nonneg, Nn|].
    assert (M1 : binary64 1 = 1) by (rewrite <- p2_0; apply p2_machine; lia).
    assert (Pos : 1 <= q + q' -> 1 <= binary64 (q + q')).
    { intro L. pose proof (b64_mono 1 (q + q') L) as M. change (b64_round 1) with (binary64 1) in M. rewrite M1 in M. exact M. }
    destruct H as [[P V]|[-> L]].
    - destruct H' as [[P' V']|[-> L']].
      + assert (F : float_of (q + q') (d_add x x')) by (rewrite <- V, <- V'; apply add_ok; assumption). destruct (qlt_spec (q + q') overflow) as [L|L].
        * left. apply float_val; [exact F|]. rewrite qabs_pos by exact Nn. exact L.
        * right. destruct F as [_ F]. rewrite F by (rewrite qabs_pos by exact Nn; exact L). rewrite (proj2 (qltb_ge _ _) Nn). split; [reflexivity|]. apply Pos.
          apply Qcle_trans with overflow; [|exact L]. apply Qclt_le_weak, below_overflow. rewrite <- p2_0. apply p2_le. lia.
      + right. split; [destruct x; try (destruct P as [_ []]; fail); reflexivity|]. apply Pos. qlra.
    - right. split; [|apply Pos; qlra]. destruct H' as [[P' V']|[-> L']]; [|reflexivity]. destruct x'; try (destruct P' as [_ []]; fail); reflexivity.
  Qed.
  Lemma zero_val : dval 0 d_zero.
  Proof. split; [split; [reflexivity | exact I] | reflexivity]. Qed.
  Lemma diff_val p p' m m' : dqty p p' -> dval m m' -> 0 <= m -> m <= p -> dqty (binary64 (p - m)) (d_sub p' m').
  Proof.
    intros [Hp Np] [Pm Vm] N0 L. pose proof (dval_big _ _ Hp) as B. destruct Hp as [Pp Vp]. split; [|apply b64_nonneg; qlra].
    rewrite <- Vp, <- Vm. apply float_val; [apply sub_ok; assumption|]. rewrite Vp, Vm, qabs_pos by qlra. rewrite qabs_pos in B by exact Np.
    apply Qcle_lt_trans with big; [|apply overflow_big]. apply Qcle_trans with p; [qlra | exact B].
  Qed.
  Theorem double_run (d : list (arow Qc Qc)) d' r : Forall2 (same_row dprice dqty) d d' -> NoDup (map a_lbl d) ->
    same_result dqty dval (a_run (ops_r binary64 (np_sum binary64) (fval c)) d r) (a_run (ops_d c) d' r).
  Proof.
    intros Hd Hl. apply (deal_related dprice dqty dval); auto; cbn [ops_r ops_d o_le o_mix o_free o_none o_min o_sub o_pos o_is0 o_more].
    - intros p p' q q' [[P V] _] [[P' V'] _]. rewrite leb_ok by assumption. rewrite V, V'. reflexivity.
    - intros p p' q q' Hp Hq. apply mix_val; assumption.
    - exact zero_val.
    - split; [exact zero_val | discriminate].
    - intros p p' q q' Hp Hq. assert (Hp' := Hp). assert (Hq' := Hq). destruct Hp' as [[P V] N], Hq' as [[P' V'] N']. rewrite (ltb_ok q' p' P' P), V, V'.
      unfold qmin. destruct (qlt_spec q p) as [L|L], (qle_spec p q) as [K|K]; try (exfalso; qlra).
      + split; [exact Hq|]. split; apply diff_val; auto; try (split; assumption); qlra.
      + split; [exact Hp|]. split; apply diff_val; auto; try (split; assumption); qlra.
    - intros p p' [[P V] N]. destruct zero_val as [Z0 Z1]. rewrite (ltb_ok d_zero p' Z0 P), V, Z1. reflexivity.
    - intros p p' [[P V] N]. destruct zero_val as [Z0 Z1]. rewrite (eqb_ok p' d_zero P Z0), V, Z1. reflexivity.
    - intros l l' H. rewrite <- any_sum_np.
      assert (S : dsum (any_sum (fun x y => binary64 (x + y)) 0 l) (any_sum d_add d_zero l')).
      { apply (rel_sum dsum); [split; [discriminate | left; exact zero_val] | intros x x' y y'; apply dsum_add |].
        clear - H. induction H as [|q x l l' [V N] H IH]; constructor; [split; [exact N | left; exact V] | exact IH]. }
      destruct S as [N [[P V]|[-> L]]].
      + destruct zero_val as [Z0 Z1]. rewrite (ltb_ok d_zero _ Z0 P), V, Z1. reflexivity.
      + change (SFltb d_zero (S754_infinity false)) with true. apply qltb_lt. apply Qclt_le_trans with 1; [reflexivity | exact L].
  Qed.
End Coefficient.
