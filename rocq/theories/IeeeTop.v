(** The statements of PropertiesIeee.v. *)
From Coq Require Import Floats.SpecFloat.
From Verif Require Import QcTac ModelBase ModelHuang ModelP2P ModelMerge MergeFacts ModelRound ModelFloat ModelAny ListFacts StoreFacts Spec SpecRound SpecGrid SpecBounded RoundFacts GridFacts SpecDouble BoundFacts BoundP2P BoundTop ModelBounded
  DoubleFacts SpecIeee SpecIeeeRun IeeeRound IeeeOps SpecAnyRel AnyFacts AnyTop AnyRel AnyNum IeeeAny.

Lemma rows_same d d' : Forall2 double_row d d' -> Forall2 (same_row dprice dqty) (map arow_of d) d'.
Proof.
  induction 1 as [|x y d d' (A & B & C & D & E & F) H IH]; cbn [map]; constructor; [|exact IH].
  constructor; cbn [arow_of a_lbl a_qty a_price a_buying]; [symmetry; exact A | split; assumption | split; assumption | symmetry; exact B].
Qed.
Theorem ieee_p2p (d : df) d' c r : Forall2 double_row d d' -> labels_unique d -> proper c -> 0 <= fval c -> fval c <= 1 ->
  double_result (p2p_random_r binary64 (np_adder binary64) d (fval c) r) (a_run (ops_d c) d' r).
Proof.
  intros Hd Hl Hc C0 C1. rewrite any_rounded.
  assert (Hl' : NoDup (map a_lbl (map arow_of d))) by (rewrite map_map; exact Hl).
  pose proof (double_run c Hc C0 C1 (map arow_of d) d' r (rows_same d d' Hd) Hl') as H. change (ops_r binary64 (np_adder binary64) (fval c)) with (ops_r binary64 (np_sum binary64) (fval c)). unfold same_result in H.
  destruct (a_run (ops_r binary64 (np_sum binary64) (fval c)) (map arow_of d) r) as [[T g]|e], (a_run (ops_d c) d' r) as [[T' g']|e']; try contradiction; [|exact H].
  destruct H as [H ->]. split; [|reflexivity]. unfold tm_of. cbn [tm_trans].
  clear - H. induction H as [|t u T T' [A B C D E] H IH]; cbn [map]; constructor; [|exact IH]. split; [symmetry; exact A|]. split; [symmetry; exact D|]. split; [symmetry; exact E|]. split; [apply B | exact C].
Qed.
(** on a grid the doubles have the values of the exact run *)
Theorem ieee_exact (a b e : Z) (T P : Qc) (d : df) d' c r : Forall2 double_row d d' -> labels_unique d -> proper c -> 0 <= fval c -> fval c <= 1 ->
  gridded (p2 a) (p2 b) T P d -> 0 <= P -> (-1074 <= a <= 970)%Z -> (-1074 <= b + e <= 970)%Z -> (-53 <= e <= 0)%Z -> on_grid (p2 e) (fval c) ->
  T <= p2 (a + 53) -> P <= p2 (b + e + 53) -> double_result (p2p_random d (fval c) r) (a_run (ops_d c) d' r).
Proof.
  intros Hd Hl Hc C0 C1 G P0 Ha Hb He Gc HT HP. rewrite <- (p2p_grid_bounded a b T P (np_adder binary64) d G P0 Ha e (fval c) r Hb He Gc C0 C1 Hl HT HP). apply ieee_p2p; assumption.
Qed.
Lemma rows_machine d d' : Forall2 double_row d d' -> qty_nonneg d /\ machine_qty binary64 d /\ machine_price binary64 d.
Proof.
  intro H. assert (M : forall x, In x d -> 0 <= qty x /\ machine binary64 (qty x) /\ machine binary64 (price x)).
  { intros x Hx. induction H as [|y z d d' (A & B & (C1 & C2) & D & (E1 & E2) & F) H IH]; [contradiction|]. destruct Hx as [<-|Hx]; [|apply IH, Hx].
    split; [exact D|]. rewrite <- C2, <- E2. split; apply (proj2 (rounds_machine _ _ binary64_rounds _)), proper_number; assumption. }
  split; [|split]; intros x Hx; apply M, Hx.
Qed.
Definition d_half : spec_float := S754_finite false 4503599627370496 (-53).
Lemma half_ok : proper d_half /\ fval d_half = qf 1 2.
Proof. split; [split; [reflexivity | exact I]|]. apply Qc_is_canon. vm_compute. reflexivity. Qed.
(** at the mean of the prices nobody is worse off, in doubles *)
Theorem ieee_price (d : df) d' r T g : Forall2 double_row d d' -> map lbl d = seq 0 (length d) -> (forall x, In x d -> price_normal (price x)) ->
  a_run (ops_d d_half) d' r = Ok (T, g) ->
  forall u y, In u T -> In y d' -> a_lbl y = x_bid u -> SFeqb (x_qty u) d_zero = false ->
    (if a_buying y then SFleb (x_price u) (a_price y) else SFleb (a_price y) (x_price u)) = true.
Proof.
  intros Hd Hl Hn Hr u y Hu Hy El Hq. destruct half_ok as [Ph Vh].
  assert (Hl' : labels_unique d) by (unfold labels_unique; rewrite Hl; apply seq_NoDup).
  pose proof (ieee_p2p d d' d_half r Hd Hl' Ph) as H. rewrite Vh in H. specialize (H ltac:(discriminate) ltac:(discriminate)). rewrite Hr in H.
  destruct (rows_machine d d' Hd) as (M1 & M2 & M3).
  destruct (p2p_random_r binary64 (np_adder binary64) d (qf 1 2) r) as [[tm ex]|e] eqn:Er; [|contradiction]. unfold double_result in H. destruct ex as [| | |g'|]; try contradiction. destruct H as [H _].
  assert (Ht : exists t, In t (tm_trans tm) /\ double_trans t u).
  { clear - H Hu. induction H as [|t v l l' Hv H IH]; [contradiction|]. destruct Hu as [<-|Hu]; [exists t; split; [left; reflexivity | exact Hv]|]. destruct (IH Hu) as (t' & I & J). exists t'. split; [right; exact I | exact J]. }
  assert (Hx : exists x, In x d /\ double_row x y).
  { clear - Hd Hy. induction Hd as [|t v l l' Hv H IH]; [contradiction|]. destruct Hy as [<-|Hy]; [exists t; split; [left; reflexivity | exact Hv]|]. destruct (IH Hy) as (t' & I & J). exists t'. split; [right; exact I | exact J]. }
  destruct Ht as (t & It & (T1 & T2 & T3 & (T4 & T5) & (T6 & T7))). destruct Hx as (x & Ix & (X1 & X2 & X3 & X4 & (X5 & X6) & X7)).
  rewrite (eqb_ok (x_qty u) d_zero T4 (conj eq_refl I)), T5 in Hq.
  pose proof (p2p_price_bounded (np_adder binary64) d r tm (XP2P g') Hl M1 M2 M3 Hn Er t x It Ix ltac:(congruence)) as C.
  assert (Nq : t_qty t <> 0) by (intro E; change (fval d_zero) with 0 in Hq; rewrite E in Hq; discriminate). specialize (C Nq). rewrite X2.
  destruct (buying x); rewrite leb_ok by assumption; rewrite T7, X6; apply qleb_le, C.
Qed.
(** the float for an exact result is unique but for the sign of zero *)
Lemma proper_inj x y : proper x -> proper y -> fval x = fval y -> fval x <> 0 -> x = y.
Proof.
  intros Hx Hy E N. pose proof (compare_ok x y Hx Hy) as C. rewrite E, qcmp_refl in C.
  destruct x as [s|s| |s m e]; try (destruct Hx as [_ []]; fail); [exfalso; apply N; reflexivity|]. destruct y as [s'|s'| |s' m' e']; try (destruct Hy as [_ []]; fail); [exfalso; apply N; rewrite E; reflexivity|].
  cbn [SFcompare] in C. injection C as C. destruct s, s'; try discriminate.
  - destruct (Z.compare_spec e e') as [->|L|L]; try discriminate. f_equal. apply Pos.compare_eq. change (Pos.compare m m') with (Pos.compare_cont Eq m m'). destruct (Pos.compare_cont Eq m m'); try discriminate; reflexivity.
  - destruct (Z.compare_spec e e') as [->|L|L]; try discriminate. f_equal. apply Pos.compare_eq. exact C.
Qed.
Theorem float_unique v x y : float_of v x -> float_of v y -> x = y \/ (exists s s', x = S754_zero s /\ y = S754_zero s').
Proof.
  intros [A B] [A' B']. destruct (qlt_spec (qabs v) overflow) as [L|L]; [|left; rewrite (B L), (B' L); reflexivity].
  destruct (A L) as [P V], (A' L) as [P' V']. destruct (qeq_spec (fval x) 0) as [Z|N].
  - right. assert (Z' : fval y = 0) by congruence.
    assert (Z0 : forall z, proper z -> fval z = 0 -> exists s, z = S754_zero s).
    { intros z Pz Ez. destruct z as [s|s| |s m e]; try (destruct Pz as [_ []]; fail); [exists s; reflexivity|]. exfalso. rewrite fval_finite in Ez.
      assert (Pp : 0 < qz (Z.pos m) * p2 e) by (apply qmult_pos; [apply qz_pos | apply p2_pos]). destruct s; cbn [signed] in Ez; [assert (qz (Z.pos m) * p2 e = 0) by (apply opp_inj; rewrite Ez; ring)|]; qlra. }
    destruct (Z0 x P Z) as [s ->], (Z0 y P' Z') as [s' ->]. exists s, s'. split; reflexivity.
  - left. apply proper_inj; auto. congruence.
Qed.
(** every rational below the overflow has a float *)
Theorem float_exists v : exists z, float_of v z.
Proof.
  destruct (qlt_spec (qabs v) overflow) as [L|L].
  - destruct binary64_rounds as [Nb _]. destruct (Nb v) as (m & e & [E1 E2] & Hm & Ev).
    pose proof (normalize_ok m e false) as F. rewrite <- pow2_p2, <- Ev in F. exists (binary_normalize 53 1024 m e false). split; [|intro L'; exfalso; revert L'; apply Qclt_not_le, L].
    intros _. destruct F as [F _]. assert (Bd : qabs (binary64 v) < overflow) by (apply Qcle_lt_trans with big; [apply number_big, Nb | apply overflow_big]).
    destruct (F Bd) as [F1 F2]. split; [exact F1|]. rewrite F2. apply b64_idem.
  - exists (S754_infinity (qltb v 0)). split; [intro L'; exfalso; revert L'; apply Qcle_not_lt, L | reflexivity].
Qed.
