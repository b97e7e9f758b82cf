(** Peer to peer trading and the uniform price mechanism on data on which a rounding makes no error. *)
From Verif Require Import QcTac Num NumFacts ModelBase ModelCurves ModelHuang ModelMuda ModelP2P ModelMarket ModelUniform ModelRound ModelRoundUniform ListFacts MergeFacts Spec
  P2PFacts RoundFacts RoundFeeHalf SpecGrid GridFacts GridMuda.

(** ** Peer to peer *)
Lemma pick_round_in ps r : forall fuel k active tmp tr tr' a' k', pick_round fuel ps r k active tmp tr = Ok (tr', a', k') ->
  (forall p, In p tr -> In p ps) -> forall p, In p tr' -> In p ps.
Proof.
  induction fuel as [|n IH]; intros k active tmp tr tr' a' k'; cbn [pick_round].
  - destruct (where_true tmp); [|discriminate]. intro E. injection E as <- _ _. auto.
  - destruct (where_true tmp) as [|w ws]; [intro E; injection E as <- _ _; auto|].
    destruct (nth_error ps _) as [t|] eqn:Et; [|discriminate]. intros E H. apply (IH _ _ _ _ _ _ _ E).
    intros p Hp. apply in_app_or in Hp. destruct Hp as [Hp|[<-|[]]]; [apply H, Hp | eapply nth_error_In, Et].
Qed.
Lemma pair_differs d p : labels_unique d -> In p (all_pairs d) -> fst p <> snd p.
Proof.
  intros Hu H. unfold all_pairs in H. apply in_flat_map in H. destruct H as (b & Hb & H). apply in_map_iff in H. destruct H as (s & <- & Hs). cbn [fst snd].
  apply filter_In in Hb. apply filter_In in Hs. destruct Hb as [B1 B2], Hs as [S1 S2]. intro E.
  assert (b = s) by (apply (NoDup_map_in lbl d); auto). subst s. rewrite B2 in S2. discriminate.
Qed.
Lemma nth_set_other {X} i j (v : X) l x : i <> j -> nth j (set_nth i v l) x = nth j l x.
Proof. revert i j. induction l as [|y l IH]; intros [|i] [|j] H; cbn [set_nth nth]; try reflexivity; [congruence|]. apply IH. congruence. Qed.

Section P2P.
  Variables (gq gp gc T P c : Qc) (R : rounding) (A : adder R).
  Notation fine := (gridded gq gp T P).
  Notation okq := (okq gq T).
  Hypothesis Nq : no_error R gq T.
  Hypothesis P0 : 0 <= P.
  Hypothesis Npc : no_error R (gp * gc) P.
  Hypothesis c0 : 0 <= c.
  Hypothesis c1 : c <= 1.
  Hypothesis Gc : on_grid gc c.
  Hypothesis Gc1 : on_grid gc (1 - c).
  Hypothesis Rc : R (1 - c) = 1 - c.

  Lemma okq_nth l i : okq l -> on_grid gq (nth i l 0) /\ 0 <= nth i l 0.
  Proof. intros [H _]. destruct (nth_in_or_default i l 0) as [I| ->]; [apply H, I | split; [apply grid_0 | qlra]]. Qed.
  Lemma okq_nth_le l i : okq l -> 0 <= T -> nth i l 0 <= T.
  Proof.
    intros [H L] T0. destruct (nth_in_or_default i l 0) as [I| ->]; [|exact T0].
    assert (nth i l 0 <= qsumf (fun x => x) l) by (apply (qsumf_in_le (fun x => x) l); [intros; apply H; assumption | exact I]). unfold qsumf in H0. rewrite map_id in H0. qlra.
  Qed.
  Lemma sum_set l : forall i v, v <= nth i l 0 -> qsum (set_nth i v l) <= qsum l.
  Proof. induction l as [|x l IH]; intros [|i] v H; cbn [set_nth qsum nth] in *; [qlra | qlra | qlra | pose proof (IH i v H); qlra]. Qed.
  Lemma set_in {X} (l : list X) : forall i v x, In x (set_nth i v l) -> x = v \/ In x l.
  Proof. induction l as [|y l IH]; intros [|i] v x H; cbn [set_nth] in H; [destruct H | destruct H | destruct H as [<-|H]; [auto | right; right; exact H] |].
    destruct H as [<-|H]; [right; left; reflexivity|]. destruct (IH i v x H); [auto | right; right; assumption]. Qed.
  Lemma okq_set l i v : okq l -> on_grid gq v -> 0 <= v -> v <= nth i l 0 -> okq (set_nth i v l).
  Proof.
    intros [H L] G V0 V1. split; [intros x Hx; destruct (set_in l i v x Hx) as [->|I]; [auto | apply H, I]|]. pose proof (sum_set l i v V1). qlra.
  Qed.
  Variables (prices : list Qc).
  Hypothesis Hp : forall i, on_grid gp (nth i prices 0) /\ qabs (nth i prices 0) <= P.
  Lemma deal_free pb ps : on_grid gp pb /\ qabs pb <= P -> on_grid gp ps /\ qabs ps <= P ->
    R (R (pb * c) + R (R (1 - c) * ps)) = pb * c + (1 - c) * ps.
  Proof.
    intros [G1 L1] [G2 L2]. rewrite Rc. assert (d0 : 0 <= 1 - c) by qlra.
    assert (A1 : qabs (pb * c) <= P * c) by (rewrite qabs_scale by exact c0; apply qmult_le_r; assumption).
    assert (A2 : qabs ((1 - c) * ps) <= P * (1 - c)) by (rewrite Qcmult_comm, qabs_scale by exact d0; apply qmult_le_r; assumption).
    assert (B1 : 0 <= P * c) by (apply qmult_nonneg; assumption). assert (B2 : 0 <= P * (1 - c)) by (apply qmult_nonneg; assumption).
    assert (B3 : P * c + P * (1 - c) = P) by ring.
    assert (H1 : on_grid (gp * gc) (pb * c)) by (apply grid_mul; assumption).
    assert (H2 : on_grid (gp * gc) ((1 - c) * ps)) by (rewrite Qcmult_comm; apply grid_mul; assumption).
    rewrite (Npc _ H1) by qlra. rewrite (Npc _ H2) by qlra. apply Npc; [apply grid_add; assumption|].
    pose proof (qabs_add (pb * c) ((1 - c) * ps)). qlra.
  Qed.
  Lemma min_grid x y : on_grid gq x -> on_grid gq y -> on_grid gq (qmin x y).
  Proof. intros. destruct (qmin_case x y) as [[-> _]|[-> _]]; assumption. Qed.
  Lemma pair_free q tm p : okq q -> 0 <= T -> fst p <> snd p ->
    trade_pair_r R c prices (q, tm) p = trade_pair c prices (q, tm) p /\ okq (fst (trade_pair c prices (q, tm) p)).
  Proof.
    intros O T0 Hne. destruct p as [b s]. cbn [fst snd] in Hne. unfold trade_pair_r, trade_pair.
    destruct (okq_nth q b O) as [Gb Nb]. destruct (okq_nth q s O) as [Gs Ns]. pose proof (okq_nth_le q b O T0) as Lb. pose proof (okq_nth_le q s O T0) as Ls.
    destruct (qleb (nth s prices 0) (nth b prices 0)); [|split; [reflexivity | exact O]]. cbv zeta. rewrite (deal_free _ _ (Hp b) (Hp s)).
    assert (Gm : on_grid gq (qmin (nth b q 0) (nth s q 0))) by (apply min_grid; assumption).
    set (m := qmin (nth b q 0) (nth s q 0)) in *. assert (M : m <= nth b q 0 /\ m <= nth s q 0 /\ 0 <= m) by (unfold m; destruct (qmin_case (nth b q 0) (nth s q 0)) as [[-> ?]|[-> ?]]; repeat split; qlra).
    destruct M as (M1 & M2 & M3).
    rewrite !(nth_set_other b s) by exact Hne.
    rewrite (Nq (nth b q 0 - m)) by (try (apply grid_sub; assumption); rewrite qabs_pos by qlra; qlra).
    rewrite (Nq (nth s q 0 - m)) by (try (apply grid_sub; assumption); rewrite qabs_pos by qlra; qlra).
    split; [reflexivity|]. cbn [fst]. apply okq_set; [apply okq_set; [exact O | apply grid_sub; assumption | qlra | qlra] | apply grid_sub; assumption | qlra|].
    rewrite (nth_set_other b s) by exact Hne. qlra.
  Qed.
  Lemma fold_free L : forall q tm, okq q -> 0 <= T -> (forall p, In p L -> fst p <> snd p) ->
    fold_left (trade_pair_r R c prices) L (q, tm) = fold_left (trade_pair c prices) L (q, tm) /\ okq (fst (fold_left (trade_pair c prices) L (q, tm))).
  Proof.
    induction L as [|p L IH]; intros q tm O T0 H; cbn [fold_left]; [split; [reflexivity | exact O]|].
    destruct (pair_free q tm p O T0 (H p (or_introl eq_refl))) as [E F]. rewrite E. destruct (trade_pair c prices (q, tm) p) as [q' tm']. cbn [fst] in F.
    apply IH; [exact F | exact T0 | intros; apply H; right; assumption].
  Qed.
  Lemma loop_free d ps r fuel : (forall p, In p ps -> fst p <> snd p) -> 0 <= T -> forall k act tmp q tm gtl, okq q ->
    p2p_loop_r R A fuel d ps c prices r k act tmp q tm gtl = p2p_loop fuel d ps c prices r k act tmp q tm gtl.
  Proof.
    intros Hne T0. induction fuel as [|n IH]; intros k act tmp q tm gtl O; cbn [p2p_loop_r p2p_loop]; rewrite (okq_sum gq T R A Nq _ O); [reflexivity|].
    destruct (_ && _); [|reflexivity]. destruct (pick_round _ _ _ _ _ _ _) as [[[L a'] k']|] eqn:Ep; [|reflexivity]. cbn [bind].
    destruct (fold_free L q tm O T0) as [E F]; [intros p I; apply Hne; apply (pick_round_in _ _ _ _ _ _ _ _ _ _ Ep); [intros ? [] | exact I]|].
    rewrite E. destruct (fold_left (trade_pair c prices) L (q, tm)) as [q' tm']. apply IH, F.
  Qed.
End P2P.
Theorem p2p_free gq gp gc T P c (R : rounding) (A : adder R) d r : no_error R gq T -> 0 <= P -> no_error R (gp * gc) P ->
  0 <= c -> c <= 1 -> on_grid gc c -> on_grid gc (1 - c) -> R (1 - c) = 1 - c -> labels_unique d -> gridded gq gp T P d ->
  p2p_random_r R A d c r = p2p_random d c r.
Proof.
  intros Nq P0 Npc c0 c1 Gc Gc1 Rc Hu F. unfold p2p_random_r, p2p_random. destruct (forallb _ _); [|reflexivity].
  assert (Hp : forall i, on_grid gp (nth i (map price d) 0) /\ qabs (nth i (map price d) 0) <= P).
  { intro i. destruct (nth_in_or_default i (map price d) 0) as [I| ->]; [|split; [apply grid_0 | rewrite qabs_pos; qlra]].
    apply in_map_iff in I. destruct I as (x & <- & Hx). apply (proj1 F x Hx). }
  assert (T0 : 0 <= T) by (destruct F as [F1 F2]; assert (0 <= qsumf qty d) by (apply qsumf_nonneg; intros; apply F1; assumption); qlra).
  rewrite (loop_free gq gp gc T P c R A Nq P0 Npc c0 c1 Gc Gc1 Rc _ Hp d (all_pairs d) r); [reflexivity | intros; apply (pair_differs d); assumption | exact T0 | apply (fine_okq gq gp T P), F].
Qed.

(** ** The uniform price mechanism of the documentation *)
Section Uniform.
  Variables (gq gp T P : Qc) (R : rounding) (A : adder R).
  Notation fine := (gridded gq gp T P).
  Hypothesis Nq : no_error R gq T.
  Hypothesis P0 : 0 <= P.
  Hypothesis Np : no_error R (gp * qf 1 2) (P + P).
  Hypothesis Hh : R (qf 1 2) = qf 1 2.
  Lemma long_free l Q p : 0 <= Q -> Q <= T -> on_grid gq Q -> forall a, on_grid gq a -> 0 <= a -> (forall r, In r l -> 0 <= qty r /\ on_grid gq (qty r)) -> a + qsumf qty l <= T ->
    uniform_long_r R l Q a p = uniform_long l Q a p.
  Proof.
    intros Q0 QT GQ. induction l as [|x l IH]; intros a Ga a0 H L; [reflexivity|]. cbn [uniform_long_r uniform_long]. rewrite qsumf_cons in L.
    destruct (H x (or_introl eq_refl)) as [N G]. assert (Nl : 0 <= qsumf qty l) by (apply qsumf_nonneg; intros r Hr; apply H; right; exact Hr).
    assert (E1 : R (qty x + a) = qty x + a) by (apply Nq; [apply grid_add; assumption | rewrite qabs_pos by qlra; qlra]).
    assert (E2 : R (a + qty x) = a + qty x) by (apply Nq; [apply grid_add; assumption | rewrite qabs_pos by qlra; qlra]).
    assert (E3 : R (Q - a) = Q - a) by (apply Nq; [apply grid_sub; assumption | unfold qabs; destruct (qle_spec 0 (Q - a)); qlra]).
    rewrite E1, E2, E3, IH; [reflexivity | apply grid_add; assumption | qlra | intros; apply H; right; assumption | qlra].
  Qed.
  Theorem uniform_free S d : fine d -> uniform_price_mechanism_r R A S d = uniform_price_mechanism S d.
  Proof.
    intro F. unfold uniform_price_mechanism_r, uniform_price_mechanism. destruct (crossing_free gq gp T P R Nq P0 Np Hh S d F) as [-> _].
    destruct (intersect_stepwise _ _ _) as [[[[q b] s] v]|]; [|reflexivity]. cbn [bind]. destruct b as [b|]; [|reflexivity]. destruct s as [s|]; [|reflexivity].
    destruct q as [q|]; [|reflexivity]. destruct v as [p| | |]; try reflexivity. cbv zeta.
    set (X := firstn (Datatypes.S b) (s_desc S (buyers d))). set (Y := firstn (Datatypes.S s) (s_asc S (sellers d))).
    assert (FX : fine X) by (apply fine_firstn, fine_desc, fine_buyers, F). assert (FY : fine Y) by (apply fine_firstn, fine_asc, fine_sellers, F).
    assert (G : forall l, fine l -> A (map qty l) = qsum (map qty l)) by (intros l Fl; apply (fine_sum gq gp T P R Nq A l Fl)). rewrite !G by assumption.
    assert (Lf : forall l l', fine l -> fine l' -> uniform_long_r R l (qsum (map qty l')) 0 p = uniform_long l (qsum (map qty l')) 0 p).
    { intros l l' Fl Fl'. pose proof (fine_okq gq gp T P l' Fl') as O'. apply long_free; [apply (okq_nonneg gq T), O' | apply O' | apply (okq_grid gq T), O' | apply grid_0 | qlra | |].
      - intros r Hr. destruct (proj1 Fl r Hr) as (H1 & H2 & _). auto.
      - rewrite Qcplus_0_l. apply Fl. }
    destruct (qltb _ _); rewrite G by assumption; rewrite Lf by assumption; reflexivity.
  Qed.
End Uniform.
