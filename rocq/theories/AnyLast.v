(** Peer to peer trading on any numbers: the statements of PropertiesAny.v. *)
From Coq Require Import Floats.SpecFloat.
From Verif Require Import QcTac Num ModelBase ModelHuang ModelP2P ModelRound ModelAny ListFacts StoreFacts P2PFacts P2PSchedule RoundFacts SpecAny SpecAnyRel AnyFacts AnyTop AnyRel AnyNum AnyInf.

Section Last.
  Context {P Q X : Type}.
  Variable o : ops P Q X.
  Variable d : list (arow P Q).
  Hypothesis Hl : map a_lbl d = seq 0 (length d).

  Lemma start_row x : In x d -> start o d (a_lbl x) = a_qty x.
  Proof.
    intro Hx. unfold start. destruct (find _ d) as [y|] eqn:F.
    - apply find_some in F. destruct F as [Hy E]. apply Nat.eqb_eq in E. rewrite (any_same d Hl y x Hy Hx E). reflexivity.
    - exfalso. apply (find_none _ _ F) in Hx. rewrite Nat.eqb_refl in Hx. discriminate.
  Qed.
  Lemma start_at i : start o d i = at_ o (map a_qty d) i.
  Proof.
    unfold at_. destruct (nth_error d i) as [x|] eqn:E.
    - assert (L : (i < length d)%nat) by (apply nth_error_Some; congruence).
      pose proof (map_nth_error a_lbl _ _ E) as El. rewrite Hl, (nth_error_nth' _ 0%nat), seq_nth in El by (rewrite ?seq_length; exact L). injection El as El.
      rewrite (nth_error_nth (map a_qty d) i (o_none o) (map_nth_error a_qty _ _ E)). simpl in El. rewrite El. apply start_row. eapply nth_error_In; eauto.
    - assert (L : (length d <= i)%nat) by (apply nth_error_None; exact E). rewrite nth_overflow by (rewrite map_length; exact L).
      unfold start. destruct (find _ d) as [y|] eqn:F; [|reflexivity]. apply find_some in F. destruct F as [Hy F]. apply Nat.eqb_eq in F.
      apply (any_len d Hl) in Hy. lia.
  Qed.
  Theorem last_run r : exists T g q', a_run o d r = Ok (T, g) /\ run o d g T q'.
  Proof. destruct (any_run o d Hl r) as (T & g & q' & E & R). exists T, g, q'. split; [exact E|]. eapply rounds_ext; [exact R|]. apply start_at. Qed.
  Theorem last_reach g T q' : run o d g T q' -> exists r, a_run o d r = Ok (T, g).
  Proof. intro R. apply (any_reach o d Hl g T q'). eapply rounds_ext; [exact R|]. intro i. symmetry. apply start_at. Qed.
  Lemma deals_length q L T q' : deals o d q L T q' -> length T = (2 * length L)%nat.
  Proof. induction 1; simpl in *; lia. Qed.
  Lemma rounds_meet first met q g T q' : rounds o d first met q g T q' -> NoDup met ->
    NoDup (met ++ concat g) /\ (forall p, In p (concat g) -> In p (a_pairs d)) /\ length T = (2 * length (concat g))%nat /\
    (forall L, In L g -> L <> [] /\ NoDup (flat_map (fun p => [fst p; snd p]) L)).
  Proof.
    induction 1 as [first met q q' C E | first met q L T q1 g T' q' C NE HL ND HM HD R IH]; intro N.
    - simpl. rewrite app_nil_r. repeat split; auto; contradiction.
    - assert (NL : NoDup L).
      { clear - ND. induction L as [|p L IHL]; [constructor|]. simpl in ND. inversion_clear ND as [|? ? N1 N2]. inversion_clear N2 as [|? ? N3 N4].
        constructor; [|auto]. intro I. apply N1. right. apply in_flat_map. exists p. simpl; auto. }
      assert (N' : NoDup (met ++ L)).
      { assert (Dj : forall p, In p L -> ~ In p met) by (intros p Hp; apply (HL p Hp)). clear - N NL Dj.
        induction met as [|a l IHl]; simpl; [exact NL|]. inversion_clear N as [|? ? N1 N2]. constructor.
        - intro I. apply in_app_or in I. destruct I as [I|I]; [contradiction|]. apply (Dj a I). left; reflexivity.
        - apply IHl; auto. intros p Hp I. apply (Dj p Hp). right; exact I. }
      destruct (IH N') as (I1 & I2 & I3 & I4). cbn [concat]. split; [rewrite app_assoc; exact I1|]. split; [|split].
      + intros p Hp. apply in_app_or in Hp. destruct Hp as [Hp|Hp]; [|apply I2, Hp]. eapply may_pair; apply HL, Hp.
      + rewrite !app_length, I3, (deals_length _ _ _ _ HD). lia.
      + intros L' [<-|H]; [split; assumption | apply I4, H].
  Qed.
  Theorem last_meetings r T g : a_run o d r = Ok (T, g) ->
    NoDup (concat g) /\ (forall p, In p (concat g) -> (exists x, In x d /\ a_buying x = true /\ a_lbl x = fst p) /\ (exists y, In y d /\ a_buying y = false /\ a_lbl y = snd p)) /\
    (forall L, In L g -> L <> [] /\ NoDup (flat_map (fun p => [fst p; snd p]) L)) /\ length T = (2 * length (concat g))%nat /\
    (length (concat g) <= length (filter a_buying d) * length (filter (fun x => negb (a_buying x)) d))%nat.
  Proof.
    intro E. destruct (last_run r) as (T' & g' & q' & E' & R). rewrite E in E'. injection E' as <- <-.
    destruct (rounds_meet _ _ _ _ _ _ R (NoDup_nil _)) as (H1 & H2 & H3 & H4). simpl in H1. split; [exact H1|]. split; [|split; [exact H4|split; [exact H3|]]].
    - intros p Hp. apply any_pair_iff, H2, Hp.
    - pose proof (NoDup_incl_length H1 H2) as L. etransitivity; [exact L|]. unfold a_pairs, a_buyers, a_sellers.
      generalize (filter (fun x => negb (a_buying x)) d). intro s. induction (filter a_buying d) as [|x l IH]; simpl; [lia|]. rewrite app_length, !map_length in *. lia.
  Qed.
End Last.

(** ** The models of the code *)
Definition sum_adder : adder exact := mkAdder exact qsum (fun l => eq_ind (np_sum exact l) (sums_to exact l) (np_sum_ok exact l) (qsum l) (sums_exact l _ (np_sum_ok exact l))).
Theorem last_exact c d r : p2p_random d c r = match a_run (ops_q c) (map arow_of d) r with Ok (T, g) => Ok (mkTM (length T) (map trans_of T), XP2P g) | Err e => Err e end.
Proof. rewrite <- (p2p_exact sum_adder). apply any_rounded. Qed.
Theorem last_rounded (R : rounding) (A : adder R) c d r :
  p2p_random_r R A d c r = match a_run (ops_r R A c) (map arow_of d) r with Ok (T, g) => Ok (mkTM (length T) (map trans_of T), XP2P g) | Err e => Err e end.
Proof. apply any_rounded. Qed.

(** ** NaN *)
Theorem last_nan_d c d r : map a_lbl d = seq 0 (length d) -> (exists x, In x d /\ a_qty x = S754_nan) -> a_run (ops_d c) d r = Ok ([], []).
Proof. intros Hl H. apply (any_poison (ops_d c) S754_nan d r Hl); [|exact H]. intros l I. cbn [ops_d o_more]. rewrite nan_sum_d by exact I. reflexivity. Qed.
Theorem last_nan_n c d r : map a_lbl d = seq 0 (length d) -> (exists x, In x d /\ a_qty x = NaN) -> a_run (ops_n c) d r = Ok ([], []).
Proof. intros Hl H. apply (any_poison (ops_n c) NaN d r Hl); [|exact H]. apply more_nan. Qed.
Theorem last_price_d c d r x T g : map a_lbl d = seq 0 (length d) -> In x d -> a_price x = S754_nan -> a_run (ops_d c) d r = Ok (T, g) ->
  forall t, In t T -> x_bid t = a_lbl x \/ x_source t = Z.of_nat (a_lbl x) -> x_qty t = d_zero /\ x_price t = d_zero /\ x_active t = true.
Proof.
  intros Hl Hx Ex E. destruct (last_run (ops_d c) d Hl r) as (T' & g' & q' & E' & R). rewrite E in E'. injection E' as <- <-.
  apply (any_silent (ops_d c) S754_nan d x _ _ _ _ _ _ Hl) in R; [apply R | | exact Hx | exact Ex]. intros []; split; reflexivity.
Qed.
Theorem last_price_n c d r x T g : map a_lbl d = seq 0 (length d) -> In x d -> a_price x = NaN -> a_run (ops_n c) d r = Ok (T, g) ->
  forall t, In t T -> x_bid t = a_lbl x \/ x_source t = Z.of_nat (a_lbl x) -> x_qty t = Fin 0 /\ x_price t = Fin 0 /\ x_active t = true.
Proof.
  intros Hl Hx Ex E. destruct (last_run (ops_n c) d Hl r) as (T' & g' & q' & E' & R). rewrite E in E'. injection E' as <- <-.
  apply (any_silent (ops_n c) NaN d x _ _ _ _ _ _ Hl) in R; [apply R | | exact Hx | exact Ex]. intros []; split; reflexivity.
Qed.
(** a coefficient that is not a number spoils the prices of the deals, nothing else *)
Theorem last_coef_d c c' d r : same_result eq (fun _ _ => True) (a_run (ops_d c) d r) (a_run (ops_d c') d r).
Proof.
  apply any_order; try reflexivity.
  - induction d; constructor; auto.
  - assert (G : forall (l : list (arow spec_float spec_float)) x x', In (x, x') (combine l l) -> x' = x).
    { induction l as [|a l IH]; [intros x x' []|]; intros x x' [H|H]; [congruence | apply IH, H]. }
    intros x x' y y' H1 H2. rewrite (G _ _ _ H1), (G _ _ _ H2). reflexivity.
Qed.

(** ** Infinite values *)
Theorem last_infinite c d x y g T q' : map a_lbl d = seq 0 (length d) -> run (ops_n c) d g T q' ->
  In x d -> a_qty x = PInf -> (forall z, In z d -> z <> x -> exists p, 0 <= p /\ a_qty z = Fin p) ->
  In y d -> a_buying y = negb (a_buying x) ->
  (if a_buying x then nleb (a_price y) (a_price x) else nleb (a_price x) (a_price y)) = true ->
  q' (a_lbl x) = PInf /\ q' (a_lbl y) = Fin 0.
Proof.
  intros Hl R Hx Ex Ho Hy By Cy.
  assert (Lg : large d x (start (ops_n c) d)).
  { split; [rewrite (start_row _ _ Hl) by exact Hx; exact Ex|]. intros z Hz Nz. rewrite (start_row _ _ Hl) by exact Hz. apply Ho; assumption. }
  assert (Ay : accepts d x y) by (repeat split; assumption).
  destruct (infinite_absorbs c d Hl x Hx _ _ _ _ _ _ R Lg) as [[L1 _] L2]; [intros z _ []|].
  split; [exact L1|].
  inversion R as [first met q q2 C E|first met q L T1 q1 g1 T' q2 C NE HL ND HM HD R' E1]; subst.
  - exfalso. destruct C as [C|C].
    + rewrite more_pinf in C; [discriminate | apply (large_amount d x _ Lg)|]. rewrite map_map. apply in_map_iff. exists x. split; [apply Lg | exact Hx].
    + apply (C (pair_with x y)). unfold may_meet, pair_with. destruct (a_buying x) eqn:Bx; cbn [fst snd negb] in *; repeat split; eauto; discriminate.
  - destruct (large_round c d Hl x Hx true [] _ L T1 q1 Lg HL ND HD) as (G1 & G2 & G3).
    destruct (infinite_absorbs c d Hl x Hx _ _ _ _ _ _ R' G1) as [_ G4]; [|apply G4; [exact Ay | right; reflexivity]].
    intros z Az I. simpl in I. apply G3; assumption.
Qed.
Theorem last_infinite_pair c d x y g T q' : map a_lbl d = seq 0 (length d) -> run (ops_n c) d g T q' ->
  (forall z, In z d -> a_qty z = PInf \/ exists p, 0 <= p /\ a_qty z = Fin p) ->
  In x d -> In y d -> a_qty x = PInf -> a_qty y = PInf -> nleb (a_price y) (a_price x) = true ->
  forall g1 L g2, g = g1 ++ L :: g2 -> In (a_lbl x, a_lbl y) L -> g2 = [] /\ q' (a_lbl x) = NaN /\ q' (a_lbl y) = NaN.
Proof.
  intros Hl R Ho Hx Hy Ex Ey Cxy. apply (infinite_pair c d Hl x y Hx Hy Cxy _ _ (start (ops_n c) d) _ _ _ _ R).
  - intros z Hz. split; [|auto]. rewrite (start_row _ _ Hl) by exact Hz. apply Ho, Hz.
  - rewrite (start_row _ _ Hl) by exact Hx. exact Ex.
  - rewrite (start_row _ _ Hl) by exact Hy. exact Ey.
Qed.
Theorem last_infinite_price c p : 
  o_mix (ops_n (Fin c)) PInf (Fin p) = (if qltb 0 c then PInf else if qeqb c 0 then NaN else NInf) /\
  o_mix (ops_n (Fin c)) (Fin p) NInf = (if qltb c 1 then NInf else if qeqb c 1 then NaN else PInf) /\
  o_mix (ops_n (Fin c)) PInf PInf = (if qltb 0 c && qltb c 1 then PInf else NaN) /\
  o_mix (ops_n (Fin c)) PInf NInf = (if qltb 1 c then PInf else if qltb c 0 then NInf else NaN).
Proof.
  cbn [ops_n o_mix]. rewrite nsub_fin. cbn [nmul]. unfold ninf_times.
  assert (E1 : qeqb (1 - c) 0 = qeqb c 1).
  { destruct (qeq_spec (1 - c) 0) as [E|E], (qeq_spec c 1) as [F|F]; try reflexivity; exfalso; [apply F | apply E]; [|rewrite F; ring].
    replace c with (1 - (1 - c)) by ring. rewrite E. ring. }
  assert (E2 : qltb 0 (1 - c) = qltb c 1) by (destruct (qlt_spec 0 (1 - c)), (qlt_spec c 1); try reflexivity; exfalso; qlra).
  rewrite E1, E2.
  destruct (qeq_spec c 0) as [F|F]; destruct (qeq_spec c 1) as [G|G]; destruct (qlt_spec 0 c) as [H|H]; destruct (qlt_spec c 1) as [I|I];
    destruct (qlt_spec 1 c) as [J|J]; destruct (qlt_spec c 0) as [K|K]; cbn [nadd andb]; repeat split; try reflexivity; exfalso;
    try (rewrite F in *); try (rewrite G in *); try (apply F; apply Qcle_antisym; assumption); try (apply G; apply Qcle_antisym; assumption); try qlra.
Qed.
