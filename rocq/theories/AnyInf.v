(** Peer to peer trading with infinite quantities and prices. *)
From Verif Require Import QcTac Num ModelBase ModelHuang ModelP2P ModelRound ModelAny ListFacts StoreFacts P2PFacts SpecAny AnyFacts AnyRel AnyNum.

(** ** The meetings of a round do not influence each other *)
Section Parallel.
  Context {P Q X : Type}.
  Variable o : ops P Q X.
  Variable d : list (arow P Q).
  Hypothesis Hl : map a_lbl d = seq 0 (length d).

  Lemma deals_rest q L T q' : deals o d q L T q' -> forall i, ~ In i (bids_of L) -> q' i = q i.
  Proof.
    induction 1 as [q q' E | q x y L T q1 q' Hx Hy Hle E H IH | q x y L T q' Hx Hy Hle H IH]; intros i Hi; auto.
    - simpl in Hi. rewrite IH by tauto. rewrite E.
      destruct (Nat.eqb_spec i (a_lbl x)) as [C|_]; [exfalso; apply Hi; left; congruence|].
      destruct (Nat.eqb_spec i (a_lbl y)) as [C|_]; [exfalso; apply Hi; right; left; congruence|]. reflexivity.
    - simpl in Hi. apply IH. tauto.
  Qed.
  Lemma deals_pair q L T q' : deals o d q L T q' -> NoDup (bids_of L) -> forall x y, In x d -> In y d -> In (a_lbl x, a_lbl y) L ->
    (o_le o (a_price y) (a_price x) = true ->
       q' (a_lbl x) = o_sub o (q (a_lbl x)) (o_min o (q (a_lbl x)) (q (a_lbl y))) /\
       q' (a_lbl y) = o_sub o (q (a_lbl y)) (o_min o (q (a_lbl x)) (q (a_lbl y)))) /\
    (o_le o (a_price y) (a_price x) = false -> q' (a_lbl x) = q (a_lbl x) /\ q' (a_lbl y) = q (a_lbl y)).
  Proof.
    induction 1 as [q q' E | q u w L T q1 q' Hu Hw Hle E H IH | q u w L T q' Hu Hw Hle H IH]; intros ND x y Hx Hy I; [contradiction| |];
    simpl in ND; inversion_clear ND as [|? ? N1 N2]; inversion_clear N2 as [|? ? N3 N4]; fold (bids_of L) in *.
    - destruct I as [I|I].
      + injection I as E1 E2. assert (u = x) by (apply (any_same d Hl); assumption). assert (w = y) by (apply (any_same d Hl); assumption). subst u w.
        split; [|congruence]. intros _. rewrite !(deals_rest _ _ _ _ H) by (simpl in N1; tauto). rewrite !E, !Nat.eqb_refl, orb_true_r. auto.
      + assert (B : In (a_lbl x) (bids_of L) /\ In (a_lbl y) (bids_of L)).
        { unfold bids_of. rewrite !in_flat_map. split; (eexists; split; [exact I|]); simpl; auto. }
        assert (G : q1 (a_lbl x) = q (a_lbl x) /\ q1 (a_lbl y) = q (a_lbl y)).
        { rewrite !E. assert (F : forall z, In z (bids_of L) -> Nat.eqb z (a_lbl u) || Nat.eqb z (a_lbl w) = false).
          { intros z Hz. apply orb_false_iff. split; apply Nat.eqb_neq; intros ->; simpl in N1; tauto. }
          rewrite !F by tauto. auto. }
        destruct G as [G1 G2]. rewrite <- G1, <- G2. apply IH; assumption.
    - destruct I as [I|I].
      + injection I as E1 E2. assert (u = x) by (apply (any_same d Hl); assumption). assert (w = y) by (apply (any_same d Hl); assumption). subst u w.
        split; [congruence|]. intros _. rewrite !(deals_rest _ _ _ _ H) by (simpl in N1; tauto). auto.
      + apply IH; assumption.
  Qed.
  (** what happens to one bid in a round *)
  Lemma deals_one first met q L T q' : (forall p, In p L -> may_meet o d first met q p) -> NoDup (bids_of L) -> deals o d q L T q' ->
    forall z, In z d -> q' (a_lbl z) = q (a_lbl z) \/
      exists u w, In u d /\ In w d /\ a_buying u = true /\ a_buying w = false /\ (z = u \/ z = w) /\
        q' (a_lbl z) = o_sub o (q (a_lbl z)) (o_min o (q (a_lbl u)) (q (a_lbl w))).
  Proof.
    intros HL ND D z Hz. destruct (in_dec Nat.eq_dec (a_lbl z) (bids_of L)) as [I|I]; [|left; eapply deals_rest; eauto].
    unfold bids_of in I. apply in_flat_map in I. destruct I as ([b s] & Hp & I). cbn [fst snd] in I.
    destruct (HL _ Hp) as ((u & Hu & Bu & Eu) & (w & Hw & Bw & Ew) & _). cbn [fst snd] in Eu, Ew. subst b s.
    assert (Z : z = u \/ z = w) by (destruct I as [E|[E|[]]]; [left | right]; apply (any_same d Hl); auto).
    destruct (deals_pair _ _ _ _ D ND u w Hu Hw Hp) as [G1 G2]. destruct (o_le o (a_price w) (a_price u)).
    - right. exists u, w. repeat split; auto. destruct (G1 eq_refl). destruct Z as [->| ->]; assumption.
    - left. destruct (G2 eq_refl). destruct Z as [->| ->]; assumption.
  Qed.
End Parallel.

Lemma amount_min a b : amount a -> amount b -> amount (if nltb b a then b else a).
Proof. intros Ha Hb. destruct (nltb b a); assumption. Qed.

Section Infinite.
  Variable c : num.
  Variable d : list (arow num num).
  Hypothesis Hl : map a_lbl d = seq 0 (length d).
  Let o := ops_n c.

  (** ** One infinite bid *)
  Section One.
    Variable x : arow num num.
    Hypothesis Hx : In x d.
    (** the price of a bid on the other side is acceptable *)
    Definition accepts (y : arow num num) : Prop :=
      In y d /\ a_buying y = negb (a_buying x) /\
      (if a_buying x then nleb (a_price y) (a_price x) else nleb (a_price x) (a_price y)) = true.
    Definition pair_with (y : arow num num) : nat * nat := if a_buying x then (a_lbl x, a_lbl y) else (a_lbl y, a_lbl x).
    Definition large (q : nat -> num) : Prop := q (a_lbl x) = PInf /\ forall z, In z d -> z <> x -> exists p, 0 <= p /\ q (a_lbl z) = Fin p.

    Lemma large_round first met q L T q' : large q -> (forall p, In p L -> may_meet o d first met q p) -> NoDup (bids_of L) -> deals o d q L T q' ->
      large q' /\ (forall z, In z d -> z <> x -> q (a_lbl z) = Fin 0 -> q' (a_lbl z) = Fin 0) /\
      (forall y, accepts y -> In (pair_with y) L -> q' (a_lbl y) = Fin 0).
    Proof.
      intros [Lx Lo] HL ND D.
      assert (S1 : forall p, nsub (Fin p) (Fin p) = Fin 0) by (intro p; rewrite nsub_fin; apply (f_equal Fin); ring).
      assert (S2 : forall p, nsub PInf (Fin p) = PInf) by reflexivity.
      (* the two values that meet *)
      assert (M : forall u w, In u d -> In w d -> a_buying u = true -> a_buying w = false ->
        (u = x -> exists p, 0 <= p /\ q (a_lbl w) = Fin p /\ o_min o (q (a_lbl u)) (q (a_lbl w)) = Fin p) /\
        (w = x -> exists p, 0 <= p /\ q (a_lbl u) = Fin p /\ o_min o (q (a_lbl u)) (q (a_lbl w)) = Fin p) /\
        (u <> x -> w <> x -> exists p p' m, 0 <= m /\ m <= p /\ m <= p' /\ q (a_lbl u) = Fin p /\ q (a_lbl w) = Fin p' /\ o_min o (q (a_lbl u)) (q (a_lbl w)) = Fin m)).
      { intros u w Hu Hw Bu Bw. cbn [o ops_n o_min]. split; [|split].
        - intros ->. destruct (Lo w Hw) as (p & Hp & E); [congruence|]. exists p. rewrite Lx, E. auto.
        - intros ->. destruct (Lo u Hu) as (p & Hp & E); [congruence|]. exists p. rewrite Lx, E. auto.
        - intros Nu Nw. destruct (Lo u Hu Nu) as (p & Hp & E). destruct (Lo w Hw Nw) as (p' & Hp' & E'). rewrite E, E'. cbn [nltb].
          destruct (qlt_spec p' p) as [L1|L1].
          + exists p, p', p'. repeat split; auto; [apply Qclt_le_weak, L1 | apply Qcle_refl].
          + exists p, p', p. repeat split; auto; apply Qcle_refl. }
      split; [|split].
      - split.
        + destruct (deals_one o d Hl first met q L T q' HL ND D x Hx) as [E|(u & w & Hu & Hw & Bu & Bw & Z & E)]; [congruence|].
          destruct (M u w Hu Hw Bu Bw) as (M1 & M2 & _). rewrite E, Lx. destruct Z as [Z|Z]; [destruct (M1 (eq_sym Z)) as (p & _ & _ & ->) | destruct (M2 (eq_sym Z)) as (p & _ & _ & ->)]; apply S2.
        + intros z Hz Nz. destruct (deals_one o d Hl first met q L T q' HL ND D z Hz) as [E|(u & w & Hu & Hw & Bu & Bw & Z & E)].
          { rewrite E. apply Lo; assumption. }
          destruct (M u w Hu Hw Bu Bw) as (M1 & M2 & M3). rewrite E. cbn [o ops_n o_sub].
          assert (Dx : u = x \/ w = x \/ (u <> x /\ w <> x)).
          { destruct (Nat.eq_dec (a_lbl u) (a_lbl x)) as [e|n]; [left; apply (any_same d Hl); assumption|].
            destruct (Nat.eq_dec (a_lbl w) (a_lbl x)) as [e|n']; [right; left; apply (any_same d Hl); assumption|]. right. right. split; congruence. }
          destruct Dx as [->|[->|[Nu Nw]]].
          * destruct (M1 eq_refl) as (p & Hp & E1 & Em). cbn [o ops_n] in Em. destruct Z as [Z|Z]; [congruence|]. subst z. rewrite E1. cbn [o ops_n] in *. rewrite E1 in Em. rewrite Em, S1. exists 0. split; [apply Qcle_refl | reflexivity].
          * destruct (M2 eq_refl) as (p & Hp & E1 & Em). destruct Z as [Z|Z]; [|congruence]. subst z. cbn [o ops_n] in *. rewrite Em, E1, S1. exists 0. split; [apply Qcle_refl | reflexivity].
          * destruct (M3 Nu Nw) as (p & p' & m & Hm & L1 & L2 & E1 & E2 & Em). cbn [o ops_n] in *. rewrite Em. destruct Z as [-> | ->]; [rewrite E1 | rewrite E2]; rewrite nsub_fin; eexists; (split; [|reflexivity]); qlra.
      - intros z Hz Nz E0. destruct (deals_one o d Hl first met q L T q' HL ND D z Hz) as [E|(u & w & Hu & Hw & Bu & Bw & Z & E)]; [congruence|].
        destruct (M u w Hu Hw Bu Bw) as (M1 & M2 & M3). rewrite E, E0.
        assert (Dx : u = x \/ w = x \/ (u <> x /\ w <> x)).
        { destruct (Nat.eq_dec (a_lbl u) (a_lbl x)) as [e|n]; [left; apply (any_same d Hl); assumption|].
          destruct (Nat.eq_dec (a_lbl w) (a_lbl x)) as [e|n']; [right; left; apply (any_same d Hl); assumption|]. right. right. split; congruence. }
        assert (G : exists m, o_min o (q (a_lbl u)) (q (a_lbl w)) = Fin m /\ m = 0).
        { destruct Dx as [->|[->|[Nu Nw]]].
          - destruct (M1 eq_refl) as (p & Hp & E1 & Em). destruct Z as [Z|Z]; [congruence|]. subst z. exists p. split; [exact Em|]. congruence.
          - destruct (M2 eq_refl) as (p & Hp & E1 & Em). destruct Z as [Z|Z]; [|congruence]. subst z. exists p. split; [exact Em|]. congruence.
          - destruct (M3 Nu Nw) as (p & p' & m & Hm & L1 & L2 & E1 & E2 & Em). exists m. split; [exact Em|].
            destruct Z as [-> | ->]; [assert (p = 0) by congruence | assert (p' = 0) by congruence]; subst; apply Qcle_antisym; assumption. }
        destruct G as (m & Em & ->). rewrite Em. apply S1.
      - intros y (Hy & By & Cy) I. unfold pair_with in I. destruct (a_buying x) eqn:Bx.
        + destruct (deals_pair o d Hl _ _ _ _ D ND x y Hx Hy I) as [G _]. destruct (G Cy) as [_ G2]. rewrite G2.
          destruct (M x y Hx Hy Bx By) as (M1 & _). destruct (M1 eq_refl) as (p & _ & E1 & Em). rewrite Em, E1. apply S1.
        + destruct (deals_pair o d Hl _ _ _ _ D ND y x Hy Hx I) as [G _]. destruct (G Cy) as [G2 _]. rewrite G2.
          destruct (M y x Hy Hx By Bx) as (_ & M2 & _). destruct (M2 eq_refl) as (p & _ & E1 & Em). rewrite Em, E1. apply S1.
    Qed.
    Lemma large_amount q : large q -> forall v, In v (map q (map a_lbl d)) -> amount v.
    Proof.
      intros [Lx Lo] v Hv. rewrite map_map in Hv. apply in_map_iff in Hv. destruct Hv as (z & <- & Hz).
      destruct (Nat.eq_dec (a_lbl z) (a_lbl x)) as [E|N]; [rewrite E, Lx; left; reflexivity|]. right. apply Lo; [exact Hz | congruence].
    Qed.
    Theorem infinite_absorbs first met q g T q' : rounds o d first met q g T q' -> large q ->
      (forall y, accepts y -> In (pair_with y) met -> q (a_lbl y) = Fin 0) ->
      large q' /\ forall y, accepts y -> In (pair_with y) (met ++ concat g) \/ first = false -> q' (a_lbl y) = Fin 0.
    Proof.
      induction 1 as [first met q q' C E | first met q L T q1 g T' q' C NE HL ND HM HD R IH]; intros Lg Hm.
      - split. { destruct Lg as [L1 L2]. split; [rewrite E; exact L1|]. intros z Hz Nz. rewrite E. apply L2; assumption. }
        intros y Ay Hc. rewrite E. destruct (in_dec (fun x y : nat * nat => ltac:(decide equality; apply Nat.eq_dec)) (pair_with y) met) as [I|I]; [apply Hm; assumption|].
        destruct Hc as [Hc|Hf]; [simpl in Hc; rewrite app_nil_r in Hc; contradiction|].
        destruct C as [C|C].
        { exfalso. unfold o in C. rewrite more_pinf in C; [discriminate | apply large_amount, Lg|]. rewrite map_map. apply in_map_iff. exists x. split; [apply Lg | exact Hx]. }
        destruct Lg as [L1 L2]. destruct Ay as (Hy & By & Cy). destruct (L2 y Hy) as (p & Hp & Ep); [intros ->; destruct (a_buying x); discriminate|].
        destruct (o_is0 o (q (a_lbl y))) eqn:Z.
        { cbn [o ops_n o_is0] in Z. rewrite Ep in *. cbn [neqb] in Z. apply qeqb_eq in Z. congruence. }
        exfalso. apply (C (pair_with y)). unfold may_meet, pair_with in *. destruct (a_buying x) eqn:Bx; cbn [fst snd negb] in *; repeat split; eauto; try rewrite L1; auto.
      - destruct (large_round first met q L T q1 Lg HL ND HD) as (G1 & G2 & G3).
        destruct IH as [I1 I2]; [exact G1| |].
        + intros y Ay I. apply in_app_or in I. destruct I as [I|I]; [|apply G3; assumption].
          apply G2; [apply Ay | | apply Hm; assumption]. intros ->. destruct Ay as (_ & B & _). destruct (a_buying x); discriminate.
        + split; [exact I1|]. intros y Ay _. apply I2; auto.
    Qed.
  End One.

  (** ** Two infinite bids that deal with each other *)
  Definition vast (q0 q : nat -> num) : Prop := forall z, In z d -> amount (q (a_lbl z)) /\ (q0 (a_lbl z) = PInf -> q (a_lbl z) = PInf).
  Lemma vast_round first met q0 q L T q' : vast q0 q -> (forall p, In p L -> may_meet o d first met q p) -> NoDup (bids_of L) -> deals o d q L T q' ->
    vast q0 q' \/ exists z, In z d /\ q' (a_lbl z) = NaN.
  Proof.
    intros V HL ND D.
    assert (G : forall z, In z d -> (amount (q' (a_lbl z)) /\ (q0 (a_lbl z) = PInf -> q' (a_lbl z) = PInf)) \/ q' (a_lbl z) = NaN).
    { intros z Hz. destruct (V z Hz) as [V1 V2]. destruct (deals_one o d Hl first met q L T q' HL ND D z Hz) as [E|(u & w & Hu & Hw & Bu & Bw & Z & E)].
      { rewrite E. auto. }
      rewrite E. cbn [o ops_n o_sub o_min]. destruct (V u Hu) as [[Eu|(p & Hp & Eu)] _], (V w Hw) as [[Ew|(p' & Hp' & Ew)] _]; rewrite Eu, Ew; cbn [nltb].
      - right. destruct Z as [-> | ->]; [rewrite Eu | rewrite Ew]; reflexivity.
      - left. destruct Z as [-> | ->]; [rewrite Eu | rewrite Ew, nsub_fin].
        + split; [left; reflexivity | reflexivity].
        + split; [right; exists (p' - p'); split; [qlra | reflexivity]|]. intro H. apply V2 in H. congruence.
      - left. destruct Z as [-> | ->]; [rewrite Eu, nsub_fin | rewrite Ew].
        + split; [right; exists (p - p); split; [qlra | reflexivity]|]. intro H. apply V2 in H. congruence.
        + split; [left; reflexivity | reflexivity].
      - left. destruct (qlt_spec p' p) as [Lp|Lp]; (destruct Z as [-> | ->]; [rewrite Eu, nsub_fin | rewrite Ew, nsub_fin]); (split; [right; eexists; split; [|reflexivity]; qlra | intro H; apply V2 in H; congruence]). }
    assert (Dec : forall l, (forall z, In z l -> In z d) -> (forall z, In z l -> amount (q' (a_lbl z)) /\ (q0 (a_lbl z) = PInf -> q' (a_lbl z) = PInf)) \/ exists z, In z d /\ q' (a_lbl z) = NaN).
    { induction l as [|z l IH]; intro Hs; [left; contradiction|].
      destruct (G z (Hs z (or_introl eq_refl))) as [A|A]; [|right; exists z; split; [apply Hs; left; reflexivity | exact A]].
      destruct IH as [B|B]; [intros y Hy; apply Hs; right; exact Hy| |right; exact B]. left. intros y [<-|Hy]; auto. }
    apply (Dec d). auto.
  Qed.
  Lemma nan_ends first met q g T q' : rounds o d first met q g T q' -> (exists z, In z d /\ q (a_lbl z) = NaN) -> g = [].
  Proof.
    intros H (z & Hz & E). destruct H as [|first met q L T q1 g T' q' C NE HL ND HM HD R]; [reflexivity|]. exfalso.
    unfold o in C. rewrite more_nan in C; [discriminate|]. rewrite map_map. apply in_map_iff. eauto.
  Qed.
  Theorem infinite_pair x y : In x d -> In y d -> nleb (a_price y) (a_price x) = true ->
    forall first met q0 q g T q', rounds o d first met q g T q' -> vast q0 q -> q0 (a_lbl x) = PInf -> q0 (a_lbl y) = PInf ->
    forall g1 L g2, g = g1 ++ L :: g2 -> In (a_lbl x, a_lbl y) L -> g2 = [] /\ q' (a_lbl x) = NaN /\ q' (a_lbl y) = NaN.
  Proof.
    intros Hx Hy Cxy first met q0 q g T q' H. induction H as [first met q q' C E | first met q L T q1 g T' q' C NE HL ND HM HD R IH]; intros V Ex Ey g1 L0 g2 Eg I.
    - destruct g1; discriminate.
    - destruct g1 as [|L1 g1]; simpl in Eg; injection Eg as <- Eg.
      + subst g2. destruct (deals_pair o d Hl _ _ _ _ HD ND x y Hx Hy I) as [G _]. destruct (G Cxy) as [G1 G2].
        destruct (V x Hx) as [_ Vx]. destruct (V y Hy) as [_ Vy]. rewrite (Vx Ex), (Vy Ey) in G1, G2. cbn in G1, G2.
        pose proof (nan_ends _ _ _ _ _ _ R (ex_intro _ x (conj Hx G1))) as ->. split; [reflexivity|].
        inversion R as [? ? ? ? ? E|]; subst. rewrite !E. auto.
      + destruct (vast_round first met q0 q L T q1 V HL ND HD) as [V1|N].
        * apply (IH V1 Ex Ey g1 L0 g2 Eg I).
        * apply (nan_ends _ _ _ _ _ _ R) in N. subst g. destruct g1; discriminate.
  Qed.
End Infinite.
