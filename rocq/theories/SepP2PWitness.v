(** Peer to peer trading in double precision: a near tie, and a test for separated tables. *)
From Coq Require Import Permutation.
From Verif Require Import QcTac Num NumFacts ListFacts ModelBase ModelHuang ModelP2P ModelMarket ModelRound ModelFloat Spec SpecRound SpecSep Conform
  RoundFacts RoundError RoundTop SepFacts SepWitness SepP2P.

Lemma separatedb_all e d : 0 <= e -> separatedb e d = true -> all_separated e d.
Proof.
  intros E0 H. unfold separatedb in H. apply andb_prop in H. destruct H as [H1 H2]. rewrite forallb_forall in H1, H2.
  assert (Hq : forall r, In r d -> e < qty r) by (intros r Hr; apply qltb_lt, H1, Hr). split; [exact Hq|].
  assert (Pos : forall f l l', l <> [] -> Permutation (filter f d) (l ++ l') -> 0 < qsumf qty l).
  { intros f l l' N P. destruct l as [|x l]; [congruence|].
    assert (I : forall r, In r (x :: l) -> In r d) by (intros r Hr; apply (filter_In f), (Permutation_in r (Permutation_sym P)), in_or_app; left; exact Hr).
    rewrite qsumf_cons. assert (0 <= qsumf qty l) by (apply qsumf_nonneg; intros r Hr; pose proof (Hq r (I r (or_intror Hr))); qlra). pose proof (Hq x (I x (or_introl eq_refl))). qlra. }
  intros B L NB NL (B' & PB) (L' & PL). pose proof (Pos _ _ _ NB PB) as B0. pose proof (Pos _ _ _ NL PL) as L0.
  specialize (H2 _ (part_sums_in _ _ _ PB)). rewrite forallb_forall in H2. specialize (H2 _ (part_sums_in _ _ _ PL)).
  rewrite (proj2 (qleb_gt (qsumf qty B) 0)), (proj2 (qleb_gt (qsumf qty L) 0)) in H2 by assumption. apply qltb_lt, H2.
Qed.
Definition first : nat -> nat := fun _ => 0%nat.
Definition tied3 : df := frame [B (qz 1) (qz 5) 0; A (tenth 1) (qz 1) 1; A (tenth 9) (qz 1) 2].
Definition flags (r : res (transmgr * extra)) : list bool := match r with Ok (tm, _) => map t_active (tm_trans tm) | Err _ => [] end.
Lemma tied3_flags : flags (p2p_random tied3 (qf 1 2) first) = [true; false; false; true] /\ flags (p2p_random_r f64 NP tied3 (qf 1 2) first) = [true; false; false; false].
Proof. split; vm_compute; reflexivity. Qed.
Theorem tied3_all : exists (d : df) (c : Qc) (r : nat -> nat), map lbl d = seq 0 (length d) /\ qty_nonneg d /\ price_nonneg d /\ machine_qty f64 d /\ 0 <= c /\ c <= 1 /\
  forall e k, ~ alike_p2p e k (p2p_random d c r) (p2p_random_r f64 NP d c r).
Proof.
  exists tied3, (qf 1 2), first. split; [reflexivity|].
  assert (N : forall x, In x tied3 -> 0 <= qty x /\ 0 <= price x) by (intros x Hx; repeat (destruct Hx as [<-|Hx]; [split; apply qleb_le; vm_compute; reflexivity|]); contradiction).
  split; [intros x Hx; apply N, Hx|]. split; [intros x Hx; apply N, Hx|]. split; [machine_rows|]. split; [discriminate|]. split; [apply qleb_le; reflexivity|].
  intros e k H. destruct tied3_flags as [F1 F2]. revert H F1 F2. generalize (p2p_random tied3 (qf 1 2) first) (p2p_random_r f64 NP tied3 (qf 1 2) first).
  intros [[tm x]|] [[tm' x']|] H F1 F2; try discriminate. cbn [flags alike_p2p] in *. destruct x; try contradiction. destruct x'; try contradiction. destruct H as [H _].
  assert (E : map t_active (tm_trans tm) = map t_active (tm_trans tm')) by (clear F1 F2; induction H as [|t t' l l' D H IH]; [reflexivity|]; cbn [map]; destruct D as (_ & _ & -> & _); f_equal; exact IH).
  congruence.
Qed.
