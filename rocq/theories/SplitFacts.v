(** One bid sent as several: what does not change. *)
From Verif Require Import QcTac Num NumFacts ModelBase ModelCurves ModelHuang ModelMuda ModelUniform ListFacts StoreFacts Spec SpecTrade SpecMuda SpecHuang SpecAlloc SpecExact SpecSplit
  TradeFacts CurveFacts P2PTrades AllocFacts MudaSide MudaHalf MudaSolve MudaOutcome MudaFacts MudaTruth UniformFacts UniformTop ExactFacts.

(** the rows [s'] are the rows [s] where one is cut in pieces, or the same; all users concerned are among [us] *)
Definition cut (us : list Z) (s s' : df) : Prop :=
  Permutation s s' \/ exists r l o, pieces_of r l /\ (forall x, In x (r :: l) -> In (user x) us) /\ Permutation s (r :: o) /\ Permutation s' (l ++ o).

Lemma pieces_sum r l (f : row -> Qc) (k : Qc) : pieces_of r l -> (forall x, In x l -> f x = k * qty x) -> qsumf f l = k * qty r.
Proof. intros (_ & _ & E) H. rewrite (qsumf_ext _ (fun x => k * qty x) l H), qsumf_scale, E. reflexivity. Qed.

(** a property that does not tell these users apart keeps the pieces together *)
Lemma cut_filter us (P : row -> bool) s s' : (forall x y, buying x = buying y -> price x = price y -> In (user x) us -> In (user y) us -> P x = P y) ->
  cut us s s' -> cut us (filter P s) (filter P s').
Proof.
  intros HP [H|(r & l & o & Pc & Us & H & H')]; [left; apply filter_perm, H|].
  apply (filter_perm P) in H. apply (filter_perm P) in H'. rewrite filter_app in H'. cbn [filter] in H.
  assert (E : forall x, In x l -> P x = P r) by (intros x Hx; destruct Pc as (_ & A & _); destruct (A x Hx) as (_ & B & C); apply HP; [exact C | exact B | apply Us; right; exact Hx | apply Us; left; reflexivity]).
  destruct (P r) eqn:Er.
  - right. exists r, l, (filter P o). split; [exact Pc|]. split; [exact Us|]. split; [exact H|]. rewrite (filter_all P l E) in H'. exact H'.
  - left. rewrite (filter_none P l E) in H'. cbn [app] in H'. rewrite H, H'. reflexivity.
Qed.
Section Cut.
  Variables (us : list Z) (s s' : df).
  Hypothesis C : cut us s s'.
  Lemma cut_sum (P : row -> bool) : (forall x y, buying x = buying y -> price x = price y -> P x = P y) -> qsumf qty (filter P s') = qsumf qty (filter P s).
  Proof.
    intro HP. pose proof (cut_filter us P s s' (fun x y A B _ _ => HP x y A B) C) as K. destruct K as [H|(r & l & o & (_ & _ & E) & _ & H & H')]; [apply qsumf_perm; symmetry; exact H|].
    rewrite (qsumf_perm _ _ _ H), (qsumf_perm _ _ _ H'), qsumf_app, qsumf_cons, E. reflexivity.
  Qed.
  Lemma cut_demand_at p : demand_at s' p = demand_at s p.
  Proof. apply cut_sum. intros x y -> ->. reflexivity. Qed.
  Lemma cut_demand_above p : demand_above s' p = demand_above s p.
  Proof. apply cut_sum. intros x y -> ->. reflexivity. Qed.
  Lemma cut_supply_at p : supply_at s' p = supply_at s p.
  Proof. apply cut_sum. intros x y -> ->. reflexivity. Qed.
  Lemma cut_supply_below p : supply_below s' p = supply_below s p.
  Proof. apply cut_sum. intros x y -> ->. reflexivity. Qed.
  Lemma cut_marginal ps pb c : Marginal s ps pb c -> Marginal s' ps pb c.
  Proof.
    intros (H0 & H1 & H2 & H3 & H4 & H5 & H6). unfold Marginal. rewrite cut_demand_above, cut_demand_at, cut_supply_below, cut_supply_at.
    repeat (split; [assumption|]). intro p. rewrite cut_demand_at, cut_supply_at. apply H6.
  Qed.
  Lemma cut_side_qty b p : side_qty b s' p = side_qty b s p.
  Proof. destruct b; [apply cut_demand_at | apply cut_supply_at]. Qed.
  Lemma cut_side b : cut us (side_of b s) (side_of b s').
  Proof. apply cut_filter; [|exact C]. intros x y -> _ _ _. reflexivity. Qed.
  Lemma cut_not_by v : ~ In v us -> cut us (not_by v s) (not_by v s').
  Proof.
    intro Nv. apply cut_filter; [|exact C]. intros x y _ _ Hx Hy. destruct (Z.eqb_spec (user x) v) as [E|_]; [exfalso; apply Nv; rewrite <- E; exact Hx|].
    destruct (Z.eqb_spec (user y) v) as [E|_]; [exfalso; apply Nv; rewrite <- E; exact Hy | reflexivity].
  Qed.
End Cut.

(** ** The best total gain *)
Lemma nodup_left {A} (a b : list A) : NoDup (a ++ b) -> NoDup a.
Proof.
  induction a as [|x a IH]; [constructor|]. cbn [app]. intro N. inversion N as [|? ? N1 N2]. constructor; [|apply IH, N2]. intro I. apply N1, in_or_app. left. exact I.
Qed.
Lemma labels_perm s s' : Permutation s s' -> labels_unique s -> labels_unique s'.
Proof. intros H. unfold labels_unique. apply Permutation_NoDup, Permutation_map, H. Qed.

Section Best.
  Variables (r : row) (l o : df) (p : Qc).
  Hypothesis Pc : pieces_of r l.
  Hypothesis U : labels_unique (r :: o).
  Hypothesis U' : labels_unique (l ++ o).

  Lemma gain_piece x : In x l -> gain p x = gain p r.
  Proof. intro Hx. destruct Pc as (_ & A & _). destruct (A x Hx) as (_ & E1 & E2). unfold gain. rewrite E1, E2. reflexivity. Qed.
  Lemma r_not_o x : In x o -> lbl x <> lbl r.
  Proof. intros Hx E. unfold labels_unique in U. cbn [map] in U. inversion U as [|? ? N _]. apply N. rewrite <- E. apply in_map, Hx. Qed.
  Lemma l_not_o x : In x o -> find (fun y => Nat.eqb (lbl y) (lbl x)) l = None.
  Proof.
    intro Hx. destruct (find (fun y => Nat.eqb (lbl y) (lbl x)) l) as [y|] eqn:E; [|reflexivity]. exfalso. apply find_some in E. destruct E as [Hy Ey]. apply Nat.eqb_eq in Ey.
    unfold labels_unique in U'. rewrite map_app in U'. clear - U' Hx Hy Ey. apply in_split in Hy. destruct Hy as (a & b & ->). rewrite map_app in U'. cbn [map] in U'. rewrite <- app_assoc in U'.
    apply NoDup_remove_2 in U'. apply U'. rewrite !in_app_iff. right. right. rewrite Ey. apply in_map, Hx.
  Qed.
  Lemma find_piece x : In x l -> find (fun y => Nat.eqb (lbl y) (lbl x)) l = Some x.
  Proof.
    intro Hx. assert (N : NoDup (map lbl l)) by (unfold labels_unique in U'; rewrite map_app in U'; exact (nodup_left _ _ U')). clear - N Hx.
    induction l as [|y m IH]; [contradiction|]. cbn [find map] in *. inversion N as [|? ? N1 N2]. destruct Hx as [->|Hx]; [rewrite Nat.eqb_refl; reflexivity|].
    destruct (Nat.eqb_spec (lbl y) (lbl x)) as [E|E]; [exfalso; apply N1; rewrite E; apply in_map, Hx | apply IH; assumption].
  Qed.
  Definition spread (y : nat -> Qc) (i : nat) : Qc := match find (fun x => Nat.eqb (lbl x) i) l with Some x => y (lbl r) / qty r * qty x | None => y i end.
  Definition gather (y : nat -> Qc) (i : nat) : Qc := if Nat.eqb i (lbl r) then qsumf (fun x => y (lbl x)) l else y i.
  Lemma r_pos : 0 < qty r. Proof. exact (proj1 Pc). Qed.
  Lemma div_mul a : a / qty r * qty r = a.
  Proof. field. intro E. pose proof r_pos as H. rewrite E in H. exact (Qclt_not_eq _ _ H eq_refl). Qed.
  Lemma spread_l (k : Qc) y : qsumf (fun x => k * spread y (lbl x)) l = k * y (lbl r).
  Proof.
    rewrite (pieces_sum r l _ (k * (y (lbl r) / qty r)) Pc); [rewrite <- Qcmult_assoc, div_mul; reflexivity|].
    intros x Hx. unfold spread. rewrite (find_piece x Hx). ring.
  Qed.
  Lemma spread_o y x : In x o -> spread y (lbl x) = y (lbl x).
  Proof. intro Hx. unfold spread. rewrite (l_not_o x Hx). reflexivity. Qed.
  Lemma spread_fill Q y : fill (r :: o) Q y -> fill (l ++ o) Q (spread y) /\ fill_gain (l ++ o) p (spread y) = fill_gain (r :: o) p y.
  Proof.
    intros [F T]. split; [split|].
    - intros x Hx. apply in_app_or in Hx. destruct Hx as [Hx|Hx]; [|rewrite (spread_o y x Hx); apply F; right; exact Hx].
      unfold spread. rewrite (find_piece x Hx). destruct (F r (or_introl eq_refl)) as [F1 F2]. destruct Pc as (P0 & A & _). destruct (A x Hx) as (Q0 & _).
      assert (K0 : 0 <= y (lbl r) / qty r) by (apply Qcnot_lt_le; intro L; pose proof (qmult_pos (- (y (lbl r) / qty r)) (qty r) ltac:(qlra) P0) as Z; pose proof (div_mul (y (lbl r))) as DM; revert Z DM F1; generalize (y (lbl r) / qty r); intros k Z DM F1; replace (- k * qty r) with (- (k * qty r)) in Z by ring; qlra).
      assert (K1 : y (lbl r) / qty r <= 1) by (apply Qcnot_lt_le; intro L; pose proof (qmult_pos (y (lbl r) / qty r - 1) (qty r) ltac:(qlra) P0) as Z; pose proof (div_mul (y (lbl r))) as DM; revert Z DM F2; generalize (y (lbl r) / qty r); intros k Z DM F2; replace ((k - 1) * qty r) with (k * qty r - qty r) in Z by ring; qlra).
      split; [apply qmult_nonneg; [exact K0 | apply Qclt_le_weak, Q0]|]. pose proof (qmult_nonneg (1 - y (lbl r) / qty r) (qty x) ltac:(qlra) (Qclt_le_weak _ _ Q0)) as Z.
      replace ((1 - y (lbl r) / qty r) * qty x) with (qty x - y (lbl r) / qty r * qty x) in Z by ring. qlra.
    - rewrite qsumf_app. rewrite qsumf_cons in T. pose proof (spread_l 1 y) as L. rewrite (qsumf_ext _ (fun x => spread y (lbl x)) l) in L by (intros; ring).
      rewrite L, (qsumf_ext _ (fun x => y (lbl x)) o) by (intros x Hx; apply spread_o, Hx). rewrite Qcmult_1_l. exact T.
    - unfold fill_gain. rewrite qsumf_app, qsumf_cons. rewrite (qsumf_ext _ (fun x => gain p r * spread y (lbl x)) l) by (intros x Hx; rewrite (gain_piece x Hx); reflexivity).
      rewrite spread_l. f_equal. apply qsumf_ext. intros x Hx. rewrite (spread_o y x Hx). reflexivity.
  Qed.
  Lemma gather_fill Q y : fill (l ++ o) Q y -> fill (r :: o) Q (gather y) /\ fill_gain (r :: o) p (gather y) = fill_gain (l ++ o) p y.
  Proof.
    intros [F T]. assert (Go : forall x, In x o -> gather y (lbl x) = y (lbl x)) by (intros x Hx; unfold gather; destruct (Nat.eqb_spec (lbl x) (lbl r)) as [E|E]; [exfalso; exact (r_not_o x Hx E) | reflexivity]).
    assert (Gr : gather y (lbl r) = qsumf (fun x => y (lbl x)) l) by (unfold gather; rewrite Nat.eqb_refl; reflexivity). split; [split|].
    - intros x [<-|Hx]; [|rewrite (Go x Hx); apply F, in_or_app; right; exact Hx]. rewrite Gr. split.
      + apply qsumf_nonneg. intros x Hx. apply F, in_or_app. left. exact Hx.
      + destruct Pc as (_ & _ & E). rewrite <- E. apply qsumf_le. intros x Hx. apply F, in_or_app. left. exact Hx.
    - rewrite qsumf_cons, Gr. rewrite qsumf_app in T. rewrite (qsumf_ext _ (fun x => y (lbl x)) o) by (intros x Hx; apply Go, Hx). exact T.
    - unfold fill_gain. rewrite qsumf_app, qsumf_cons, Gr, <- qsumf_scale. f_equal; apply qsumf_ext; intros x Hx; [rewrite (gain_piece x Hx) | rewrite (Go x Hx)]; reflexivity.
  Qed.
  Lemma best_pieces Q v v' : best_gain (r :: o) p Q v -> best_gain (l ++ o) p Q v' -> v' = v.
  Proof.
    intros [(y & Y & <-) B] [(y' & Y' & <-) B']. apply Qcle_antisym.
    - destruct (gather_fill Q y' Y') as [F E]. rewrite <- E. apply B, F.
    - destruct (spread_fill Q y Y) as [F E]. rewrite <- E. apply B', F.
  Qed.
End Best.
Lemma fill_perm s s' Q y : Permutation s s' -> fill s Q y -> fill s' Q y.
Proof.
  intros P [F T]. split; [intros x Hx; apply F; eapply Permutation_in; [symmetry; exact P | exact Hx]|]. rewrite <- (qsumf_perm _ _ _ P). exact T.
Qed.
Lemma best_perm s s' p Q v : Permutation s s' -> best_gain s p Q v -> best_gain s' p Q v.
Proof.
  intros P [(y & Y & E) B]. split.
  - exists y. split; [eapply fill_perm; eassumption|]. rewrite <- E. unfold fill_gain. apply qsumf_perm. symmetry. exact P.
  - intros z Z. specialize (B z (fill_perm _ _ _ _ (Permutation_sym P) Z)). unfold fill_gain in *. rewrite <- (qsumf_perm _ _ _ P). exact B.
Qed.
Lemma best_cut us s s' p Q v v' : labels_unique s -> labels_unique s' -> cut us s s' -> best_gain s p Q v -> best_gain s' p Q v' -> v' = v.
Proof.
  intros U U' [P|(r & l & o & Pc & _ & P & P')] B B'.
  - apply (best_perm _ _ _ _ _ P) in B. exact (best_unique _ _ _ _ _ B' B).
  - apply (best_perm _ _ _ _ _ P) in B. apply (best_perm _ _ _ _ _ P') in B'.
    exact (best_pieces r l o p Pc (labels_perm _ _ P U) (labels_perm _ _ P' U') Q v v' B B').
Qed.
