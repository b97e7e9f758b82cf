(** Averages over flips. *)
From Coq Require Import FinFun.
From Verif Require Import QcTac Num ModelBase ListFacts AllocFacts MergeFacts SpecChance ChanceFacts SpecFlips.

Lemma flips_len n fl : In fl (flips n) <-> length fl = n.
Proof.
  revert fl. induction n as [|n IH]; intros fl; cbn [flips].
  - cbn [In]. destruct fl; cbn [length]; intuition congruence.
  - rewrite in_app_iff, !in_map_iff. split.
    + intros [(r & <- & H)|(r & <- & H)]; cbn [length]; f_equal; apply IH, H.
    + destruct fl as [|[] r]; cbn [length]; intro E; [discriminate|left|right]; exists r; (split; [reflexivity|]); apply IH; congruence.
Qed.
Lemma flips_NoDup n : NoDup (flips n).
Proof.
  induction n as [|n IH]; cbn [flips]; [constructor; [intros [] | constructor]|]. apply NoDup_app_intro.
  - apply Injective_map_NoDup; [intros x y E; congruence | exact IH].
  - apply Injective_map_NoDup; [intros x y E; congruence | exact IH].
  - intros x H1 H2. apply in_map_iff in H1, H2. destruct H1 as (a & <- & _), H2 as (b & E & _). discriminate.
Qed.
Lemma expect_S p n f : expect p (S n) f = p * expect p n (fun fl => f (true :: fl)) + (1 - p) * expect p n (fun fl => f (false :: fl)).
Proof.
  unfold expect. cbn [flips]. rewrite qsumf_app, !qsumf_map. rewrite <- !qsumf_scale. f_equal; apply qsumf_ext; intros fl _; cbn [flips_chance]; ring.
Qed.
Lemma expect_0 p f : expect p 0 f = f [].
Proof. unfold expect. cbn [flips]. rewrite qsumf_cons, qsumf_nil. cbn [flips_chance]. ring. Qed.
Lemma expect_ext p n f g : (forall fl, length fl = n -> f fl = g fl) -> expect p n f = expect p n g.
Proof. intro H. apply qsumf_ext. intros fl I. rewrite H by (apply flips_len, I). reflexivity. Qed.
Lemma expect_plus p n f g : expect p n (fun fl => f fl + g fl) = expect p n f + expect p n g.
Proof. unfold expect. rewrite <- qsumf_plus. apply qsumf_ext. intros. ring. Qed.
Lemma expect_scale p n a f : expect p n (fun fl => a * f fl) = a * expect p n f.
Proof. unfold expect. rewrite <- qsumf_scale. apply qsumf_ext. intros. ring. Qed.
Lemma expect_const p n a : expect p n (fun _ => a) = a.
Proof. induction n as [|n IH]; [apply expect_0|]. rewrite expect_S, IH. ring. Qed.
Lemma flips_chance_nonneg p fl : 0 <= p -> p <= 1 -> 0 <= flips_chance p fl.
Proof. intros H1 H2. induction fl as [|b r IH]; cbn [flips_chance]; [qlra|]. apply qmult_nonneg; [destruct b; qlra | exact IH]. Qed.
Lemma flips_chance_pos p fl : 0 < p -> p < 1 -> 0 < flips_chance p fl.
Proof. intros H1 H2. induction fl as [|b r IH]; cbn [flips_chance]; [qlra|]. apply qmult_pos; [destruct b; qlra | exact IH]. Qed.
Lemma expect_le p n f g : 0 <= p -> p <= 1 -> (forall fl, length fl = n -> f fl <= g fl) -> expect p n f <= expect p n g.
Proof. intros H1 H2 H. apply qsumf_le. intros fl I. apply qmult_le_l; [apply flips_chance_nonneg; assumption | apply H, flips_len, I]. Qed.
Lemma scale_lt a x y : 0 < a -> x < y -> a * x < a * y.
Proof. intros; qnra. Qed.
(** strictly larger for one outcome *)
Lemma expect_lt p n f g fl0 : 0 < p -> p < 1 -> (forall fl, length fl = n -> f fl <= g fl) -> length fl0 = n -> f fl0 < g fl0 -> expect p n f < expect p n g.
Proof.
  intros P1 P2 H. revert f g fl0 H. induction n as [|n IH]; intros f g fl0 H L Lt.
  - rewrite !expect_0. destruct fl0; [exact Lt | discriminate].
  - rewrite !expect_S. destruct fl0 as [|b r]; [discriminate|]. injection L as L.
    assert (A : forall b, expect p n (fun fl => f (b :: fl)) <= expect p n (fun fl => g (b :: fl))).
    { intro b'. apply expect_le; try qlra. intros fl E. apply H. cbn [length]. congruence. }
    assert (C : expect p n (fun fl => f (b :: fl)) < expect p n (fun fl => g (b :: fl))).
    { apply (IH _ _ r); [|exact L | exact Lt]. intros fl E. apply H. cbn [length]. congruence. }
    pose proof (A true) as At. pose proof (A false) as Af. destruct b.
    + pose proof (qmult_le_l (1 - p) _ _ ltac:(qlra) Af). pose proof (scale_lt p _ _ P1 C). qlra.
    + pose proof (qmult_le_l p _ _ ltac:(qlra) At). pose proof (scale_lt (1 - p) _ _ ltac:(qlra) C). qlra.
Qed.

(** products over the flips *)
Fixpoint qprod (l : list Qc) : Qc := match l with [] => 1 | x :: r => x * qprod r end.
Fixpoint each (gs : list (bool -> Qc)) (fl : list bool) : Qc :=
  match gs, fl with g :: gs', b :: fl' => g b * each gs' fl' | _, _ => 1 end.
Lemma expect_each p gs : expect p (length gs) (each gs) = qprod (map (fun g => p * g true + (1 - p) * g false) gs).
Proof.
  induction gs as [|g gs IH]; [apply expect_0|]. cbn [length map qprod]. rewrite expect_S. cbn [each]. rewrite !expect_scale, IH. ring.
Qed.

(** exchanging the halves *)
Lemma expect_negb p n f : expect p n (fun fl => f (map negb fl)) = expect (1 - p) n f.
Proof.
  revert f. induction n as [|n IH]; intro f; [rewrite !expect_0; reflexivity|]. rewrite !expect_S. cbn [map negb].
  rewrite (IH (fun fl => f (false :: fl))), (IH (fun fl => f (true :: fl))). ring.
Qed.

(** the chance of a list of flips depends on the numbers of both outcomes only *)
Lemma flips_chance_perm p fl fl' : Permutation fl fl' -> flips_chance p fl = flips_chance p fl'.
Proof. induction 1; cbn [flips_chance]; try congruence. ring. Qed.
(** an injective rearrangement *)
Lemma expect_moved p n (g : list bool -> list bool) f :
  (forall fl, length fl = n -> Permutation fl (g fl)) -> (forall fl fl', length fl = n -> length fl' = n -> g fl = g fl' -> fl = fl') ->
  expect p n (fun fl => f (g fl)) = expect p n f.
Proof.
  intros P I. unfold expect. rewrite (qsumf_ext _ (fun fl => flips_chance p (g fl) * f (g fl))).
  2: { intros fl H. apply flips_len in H. rewrite (flips_chance_perm p _ _ (P fl H)). reflexivity. }
  rewrite <- (qsumf_map (fun fl => flips_chance p fl * f fl) g). apply qsumf_perm. apply NoDup_Permutation_bis.
  - assert (Hin : forall x y, In x (flips n) -> In y (flips n) -> g x = g y -> x = y) by (intros x y Hx Hy; apply I; apply flips_len; assumption).
    revert Hin. generalize (flips_NoDup n). induction 1 as [|x l Nx Nl IHl]; intro Hin; [constructor|]. cbn [map]. constructor.
    + intro J. apply in_map_iff in J. destruct J as (y & E & Iy). apply Nx. rewrite <- (Hin y x); [exact Iy | right; exact Iy | left; reflexivity | exact E].
    + apply IHl. intros a b Ia Ib. apply Hin; right; assumption.
  - rewrite map_length. apply le_n.
  - intros x H. apply in_map_iff in H. destruct H as (y & <- & Hy). apply flips_len in Hy. apply flips_len. rewrite <- (Permutation_length (P y Hy)). exact Hy.
Qed.

(** the draw of numpy *)
Lemma count_above h a n : length (filter (fun k => Nat.ltb h k) (seq a n)) = Nat.min n (a + n - Nat.max a (S h)).
Proof.
  revert a. induction n as [|n IH]; intro a; [reflexivity|]. cbn [seq filter]. destruct (Nat.ltb_spec h a); cbn [length]; rewrite IH; lia.
Qed.
