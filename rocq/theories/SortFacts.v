(** Sorting by price leaves no freedom when the prices are distinct. *)
From Verif Require Import QcTac Num ModelBase ModelCurves ModelHuang ModelMuda ListFacts Spec SpecMuda StoreFacts CurveFacts MudaFacts.

Section Unique.
  Context {A : Type} (key : A -> Qc) (R : Qc -> Qc -> Prop).
  Hypothesis R_antisym : forall a b, R a b -> R b a -> a = b.
  Lemma sorted_unique l1 : forall l2, Permutation l1 l2 -> NoDup (map key l1) ->
    StronglySorted (fun a b => R (key a) (key b)) l1 -> StronglySorted (fun a b => R (key a) (key b)) l2 -> l1 = l2.
  Proof.
    induction l1 as [|a l1 IH]; intros l2 P N S1 S2; [apply Permutation_nil in P; congruence|].
    destruct l2 as [|b l2]; [apply Permutation_sym, Permutation_nil in P; discriminate|].
    apply StronglySorted_inv in S1. apply StronglySorted_inv in S2. destruct S1 as [S1 F1], S2 as [S2 F2]. rewrite Forall_forall in F1, F2.
    assert (E : a = b).
    { destruct (Permutation_in a P (or_introl eq_refl)) as [->|Ia]; [reflexivity|].
      destruct (Permutation_in b (Permutation_sym P) (or_introl eq_refl)) as [->|Ib]; [reflexivity|].
      exfalso. inversion N as [|x l Nx _]; subst. apply Nx. rewrite (R_antisym (key a) (key b)); [apply in_map, Ib | apply F1, Ib | apply F2, Ia]. }
    subst b. f_equal. apply IH; [eapply Permutation_cons_inv; exact P | inversion N; assumption | assumption..].
  Qed.
End Unique.

Lemma desc_unique S1 S2 d d' : Permutation d d' -> NoDup (map price d) -> s_desc S1 d = s_desc S2 d'.
Proof.
  intros P N. apply (sorted_unique price (fun a b => b <= a)).
  - intros a b H1 H2. apply Qcle_antisym; assumption.
  - rewrite (s_desc_perm S1), (s_desc_perm S2). exact P.
  - apply (Permutation_NoDup (Permutation_map price (Permutation_sym (s_desc_perm S1 d)))), N.
  - apply s_desc_sorted.
  - apply s_desc_sorted.
Qed.
Lemma asc_unique S1 S2 d d' : Permutation d d' -> NoDup (map price d) -> s_asc S1 d = s_asc S2 d'.
Proof.
  intros P N. apply (sorted_unique price (fun a b => a <= b)).
  - intros a b H1 H2. apply Qcle_antisym; assumption.
  - rewrite (s_asc_perm S1), (s_asc_perm S2). exact P.
  - apply (Permutation_NoDup (Permutation_map price (Permutation_sym (s_asc_perm S1 d)))), N.
  - apply s_asc_sorted.
  - apply s_asc_sorted.
Qed.
Lemma perm_filter {A} (P : A -> bool) l l' : Permutation l l' -> Permutation (filter P l) (filter P l').
Proof. induction 1; simpl; try (destruct (P x)); try (destruct (P y)); eauto using Permutation. Qed.

Section Tie.
  Variables (S1 S2 : sorter) (d d' : df).
  Hypothesis P : Permutation d d'.
  Hypothesis N : prices_distinct d.

  Lemma tie_buy : s_desc S1 (buyers d) = s_desc S2 (buyers d').
  Proof. apply desc_unique; [apply perm_filter, P | apply N]. Qed.
  Lemma tie_sell : s_asc S1 (sellers d) = s_asc S2 (sellers d').
  Proof. apply asc_unique; [apply perm_filter, P | apply N]. Qed.
  Lemma tie_demand : demand_curve_from_bids S1 d = demand_curve_from_bids S2 d'.
  Proof. unfold demand_curve_from_bids. rewrite tie_buy. reflexivity. Qed.
  Lemma tie_supply : supply_curve_from_bids S1 d = supply_curve_from_bids S2 d'.
  Proof. unfold supply_curve_from_bids. rewrite tie_sell. reflexivity. Qed.
  Lemma tie_price : find_competitive_price S1 d = find_competitive_price S2 d'.
  Proof. unfold find_competitive_price. rewrite tie_demand, tie_supply. reflexivity. Qed.
  Lemma tie_huang : huang_auction S1 d = huang_auction S2 d'.
  Proof. unfold huang_auction. rewrite tie_demand, tie_supply, tie_buy, tie_sell. reflexivity. Qed.
  Lemma tie_side p fees : solve_market_side S1 d p fees = solve_market_side S2 d' p fees.
  Proof.
    unfold solve_market_side. pose proof (perm_filter buying _ _ P : Permutation (buyers d) (buyers d')) as Pb.
    pose proof (perm_filter (fun r => negb (buying r)) _ _ P : Permutation (sellers d) (sellers d')) as Ps.
    destruct N as [N1 N2]. change (filter buying d) with (buyers d) in N1. change (filter (fun r => negb (buying r)) d) with (sellers d) in N2.
    destruct (buyers d) as [|b lb]; [apply Permutation_nil in Pb; rewrite Pb; reflexivity|].
    destruct (buyers d') as [|b' lb']; [apply Permutation_sym, Permutation_nil in Pb; discriminate|].
    destruct (sellers d) as [|s ls]; [apply Permutation_nil in Ps; rewrite Ps; reflexivity|].
    destruct (sellers d') as [|s' ls']; [apply Permutation_sym, Permutation_nil in Ps; discriminate|].
    set (PB := fun r => nleb p (Fin (price r))). set (PS := fun r => nleb (Fin (price r)) p).
    rewrite (desc_unique S1 S2 (filter PB (b :: lb)) (filter PB (b' :: lb'))); [|apply perm_filter, Pb | apply NoDup_filter_map, N1].
    rewrite (asc_unique S1 S2 (filter PS (s :: ls)) (filter PS (s' :: ls'))); [|apply perm_filter, Ps | apply NoDup_filter_map, N2].
    reflexivity.
  Qed.
End Tie.

Lemma distinct_rows ls d : prices_distinct d -> prices_distinct (rows_in ls d).
Proof.
  assert (X : forall A B (l : df), filter B (filter A l) = filter A (filter B l)) by (intros A B l; rewrite !filter_filter; apply filter_ext; intro r; apply andb_comm).
  intros [N1 N2]. unfold prices_distinct, rows_in. rewrite (X _ buying), (X _ (fun r => negb (buying r))). split; apply NoDup_filter_map; assumption.
Qed.
(** without equal prices the result of [muda] does not depend on the sort *)
Lemma tie_muda S1 S2 d fl : labels_unique d -> prices_distinct d -> muda S1 d fl = muda S2 d fl.
Proof.
  intros Hu N. rewrite !muda_eq by exact Hu. unfold muda_body. f_equal.
  rewrite (tie_price S1 S2 (rows_in (left_of d fl) d) (rows_in (left_of d fl) d) (Permutation_refl _) (distinct_rows _ _ N)).
  rewrite (tie_price S1 S2 (rows_in (right_of d fl) d) (rows_in (right_of d fl) d) (Permutation_refl _) (distinct_rows _ _ N)).
  destruct (find_competitive_price S2 (rows_in (left_of d fl) d)) as [pl|]; [|reflexivity]. cbn [bind].
  destruct (find_competitive_price S2 (rows_in (right_of d fl) d)) as [pr|]; [|reflexivity]. cbn [bind].
  rewrite (tie_side S1 S2 (rows_in (left_of d fl) d) (rows_in (left_of d fl) d) (Permutation_refl _) (distinct_rows _ _ N)).
  destruct (solve_market_side S2 (rows_in (left_of d fl) d) pr (zero_fees d)) as [[tl f1]|]; [|reflexivity]. cbn [bind].
  rewrite (tie_side S1 S2 (rows_in (right_of d fl) d) (rows_in (right_of d fl) d) (Permutation_refl _) (distinct_rows _ _ N)). reflexivity.
Qed.
