(** A test for separated tables, and runs in double precision. *)
From Coq Require Import Permutation Sorted.
From Verif Require Import QcTac Num NumFacts ListFacts ModelBase ModelCurves ModelHuang ModelMuda ModelMarket ModelUniform ModelRound ModelRoundUniform ModelFloat Spec SpecRound SpecMuda SpecSep Sorter Conform
  RoundFacts RoundError RoundMuda RoundTop SepFacts SepTop.

(** the sums of the parts of a list *)
Fixpoint part_sums (l : df) : list Qc :=
  match l with [] => [0] | x :: l' => part_sums l' ++ map (Qcplus (qty x)) (part_sums l') end.
Lemma part_sums_in l : forall B B', Permutation l (B ++ B') -> In (qsumf qty B) (part_sums l).
Proof.
  induction l as [|x l IH]; intros B B' P; cbn [part_sums].
  - apply Permutation_nil in P. destruct B; [left; reflexivity | discriminate].
  - assert (I : In x (B ++ B')) by (apply (Permutation_in x P); left; reflexivity). apply in_or_app. apply in_app_or in I. destruct I as [I|I]; apply in_split in I; destruct I as (m1 & m2 & ->).
    + right. apply in_map_iff. exists (qsumf qty (m1 ++ m2)). split; [rewrite !qsumf_app, qsumf_cons; ring|]. apply (IH _ B').
      apply (Permutation_cons_inv (a := x)). eapply perm_trans; [exact P|]. rewrite <- !app_assoc. cbn [app]. apply Permutation_sym, Permutation_middle.
    + left. apply (IH _ (m1 ++ m2)). apply (Permutation_cons_inv (a := x)). eapply perm_trans; [exact P|]. rewrite !app_assoc. apply Permutation_sym, Permutation_middle.
Qed.
Definition separatedb (e : Qc) (d : df) : bool :=
  forallb (fun r => qltb e (qty r)) d &&
  forallb (fun a => forallb (fun b => qleb a 0 || qleb b 0 || qltb e (qabs (a - b))) (part_sums (filter (fun r => negb (buying r)) d))) (part_sums (filter buying d)).
Lemma separatedb_ok e d : 0 <= e -> separatedb e d = true -> separated e d.
Proof.
  intros E0 H. unfold separatedb in H. apply andb_prop in H. destruct H as [H1 H2]. rewrite forallb_forall in H1, H2.
  assert (Hq : forall r, In r d -> e < qty r) by (intros r Hr; apply qltb_lt, H1, Hr). split; [exact Hq|].
  assert (Pos : forall f l l', l <> [] -> Permutation (filter f d) (l ++ l') -> 0 < qsumf qty l).
  { intros f l l' N P. destruct l as [|x l]; [congruence|].
    assert (I : forall r, In r (x :: l) -> In r d) by (intros r Hr; apply (filter_In f), (Permutation_in r (Permutation_sym P)), in_or_app; left; exact Hr).
    rewrite qsumf_cons. assert (0 <= qsumf qty l) by (apply qsumf_nonneg; intros r Hr; pose proof (Hq r (I r (or_intror Hr))); qlra). pose proof (Hq x (I x (or_introl eq_refl))). qlra. }
  intros B L NB NL (B' & PB & _) (L' & PL & _). pose proof (Pos _ _ _ NB PB) as B0. pose proof (Pos _ _ _ NL PL) as L0.
  specialize (H2 _ (part_sums_in _ _ _ PB)). rewrite forallb_forall in H2. specialize (H2 _ (part_sums_in _ _ _ PL)).
  rewrite (proj2 (qleb_gt (qsumf qty B) 0)), (proj2 (qleb_gt (qsumf qty L) 0)) in H2 by assumption. apply qltb_lt, H2.
Qed.

Definition tied : df := frame [B (tenth 1) (qz 5) 0; B (tenth 9) (qz 4) 1; A (qz 1) (qz 1) 2; A (qz 1) (qz 3) 3].
Lemma tied_machine : machine_qty f64 tied.
Proof. machine_rows. Qed.
Lemma tied_price : find_competitive_price_r f64 SS tied <> find_competitive_price SS tied.
Proof.
  intro H. assert (K : match find_competitive_price_r f64 SS tied, find_competitive_price SS tied with Ok (Fin a), Ok (Fin b) => qeqb a b | _, _ => true end = false) by (vm_compute; reflexivity).
  rewrite H in K. generalize dependent (find_competitive_price SS tied). intros [[a| | |]|]; intros _ K; try discriminate. rewrite (proj2 (qeqb_eq a a) eq_refl) in K. discriminate.
Qed.
Theorem tied_all : exists d, labels_unique d /\ qty_nonneg d /\ price_nonneg d /\ machine_qty f64 d /\
  (exists tm x, huang_auction SS d = Ok (tm, x) /\ tm_trans tm <> []) /\ (exists tm x, huang_auction_r f64 NP SS d = Ok (tm, x) /\ tm_trans tm = []) /\
  find_competitive_price_r f64 SS d <> find_competitive_price SS d.
Proof.
  exists tied. split; [unfold labels_unique; change (map lbl tied) with [0; 1; 2; 3]%nat; repeat constructor; cbn; intuition discriminate|].
  assert (N : forall x, In x tied -> 0 <= qty x /\ 0 <= price x) by (intros x Hx; repeat (destruct Hx as [<-|Hx]; [split; apply qleb_le; vm_compute; reflexivity|]); contradiction).
  split; [intros x Hx; apply N, Hx|]. split; [intros x Hx; apply N, Hx|]. split; [exact tied_machine|].
  split; [|split; [|exact tied_price]].
  - assert (L1 : match huang_auction SS tied with Ok (tm, _) => length (tm_trans tm) | _ => 0%nat end = 2%nat) by (vm_compute; reflexivity).
    generalize dependent (huang_auction SS tied). intros [[tm x]|] L1; [|discriminate]. exists tm, x. split; [reflexivity|]. intro E. rewrite E in L1. discriminate.
  - assert (L2 : match huang_auction_r f64 NP SS tied with Ok (tm, _) => length (tm_trans tm) | _ => 1%nat end = 0%nat) by (vm_compute; reflexivity).
    generalize dependent (huang_auction_r f64 NP SS tied). intros [[tm x]|] L2; [|discriminate]. exists tm, x. split; [reflexivity|]. apply length_zero_iff_nil, L2.
Qed.

(** the double nearest to k/100 *)
Definition cents (k : Z) : Qc := f64 (qf k 100).
Definition apart8 : df := frame [B (tenth 1) (qz 9) 0; B (tenth 2) (qz 8) 1; B (tenth 5) (qz 7) 1; B (tenth 5) (qz 6) 1; A (cents 41) (qz 1) 2; A (cents 71) (qz 3) 3; A (cents 71) (qz 5) 3; A (cents 91) (qz 7) 3].
