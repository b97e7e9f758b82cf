(** One bid sent as two under different names, in one half of MUDA: the two together do not gain. *)
From Verif Require Import QcTac Num NumFacts ModelBase ModelCurves ModelHuang ModelMuda ListFacts StoreFacts Spec SpecTrade SpecMuda SpecSplit
  TradeFacts MudaSide MudaHalf MudaSolve MudaOutcome MudaFacts MudaTruth SplitFacts.

Lemma filter_two {A} (P : A -> bool) l : Permutation l (filter (fun x => negb (P x)) l ++ filter P l).
Proof.
  induction l as [|a l IH]; [constructor|]. cbn [filter]. destruct (P a); cbn [negb].
  - rewrite <- Permutation_middle. constructor. exact IH.
  - cbn [app]. constructor. exact IH.
Qed.

Lemma filter_unique (P : row -> bool) d : labels_unique d -> labels_unique (filter P d).
Proof.
  unfold labels_unique. induction d as [|x d IH]; [auto|]. cbn [map filter]. intro N. inversion N as [|? ? N1 N2]. destruct (P x); [|apply IH, N2]. cbn [map]. constructor; [|apply IH, N2].
  intro I. apply N1. apply in_map_iff in I. destruct I as (y & E & Hy). apply filter_In in Hy. rewrite <- E. apply in_map, Hy.
Qed.

(** ** Extra bids are worth less when others are there already *)
Section Sub.
  Variables (A X1 X2 : df) (p Q : Qc).
  Hypothesis U : labels_unique (A ++ X1 ++ X2).
  Definition mem1 (X : df) (i : nat) : bool := existsb (fun x => Nat.eqb (lbl x) i) X.
  Lemma mem1_in X x : In x X -> mem1 X (lbl x) = true.
  Proof. intro H. apply existsb_exists. exists x. split; [exact H | apply Nat.eqb_refl]. Qed.
  Lemma mem1_out X x : labels_unique (A ++ X) -> In x A -> mem1 X (lbl x) = false.
  Proof.
    intros V H. destruct (mem1 X (lbl x)) eqn:E; [|reflexivity]. exfalso. apply existsb_exists in E. destruct E as (y & Hy & E). apply Nat.eqb_eq in E.
    unfold labels_unique in V. rewrite map_app in V. apply in_split in H. destruct H as (a & b & ->). rewrite map_app in V. cbn [map] in V. rewrite <- app_assoc in V.
    apply NoDup_remove_2 in V. apply V. rewrite !in_app_iff. right. right. rewrite <- E. apply in_map, Hy.
  Qed.
  Lemma U1 : labels_unique (A ++ X1).
  Proof. rewrite app_assoc in U. unfold labels_unique in *. rewrite map_app in U. exact (nodup_left _ _ U). Qed.
  Lemma U2 : labels_unique (A ++ X2).
  Proof.
    assert (P : Permutation (A ++ X1 ++ X2) ((A ++ X2) ++ X1)) by (rewrite <- app_assoc; apply Permutation_app_head, Permutation_app_comm).
    apply (labels_perm _ _ P) in U. unfold labels_unique in *. rewrite map_app in U. exact (nodup_left _ _ U).
  Qed.
  Lemma mix_fill X y z k : labels_unique (A ++ X) -> 0 <= k -> k <= 1 ->
    (forall x, In x (A ++ X) -> 0 <= y (lbl x) /\ y (lbl x) <= qty x) -> (forall x, In x A -> 0 <= z (lbl x) /\ z (lbl x) <= qty x) ->
    (1 - k) * qsumf (fun x => y (lbl x)) A + k * qsumf (fun x => z (lbl x)) A + qsumf (fun x => y (lbl x)) X <= Q ->
    exists w, fill (A ++ X) Q w /\ fill_gain (A ++ X) p w = (1 - k) * fill_gain A p y + k * fill_gain A p z + fill_gain X p y.
  Proof.
    intros V K0 K1 Hy Hz T. exists (fun i => if mem1 X i then y i else (1 - k) * y i + k * z i). split; [split|].
    - intros x Hx. pose proof (Hy x Hx) as [Y0 Y1]. apply in_app_or in Hx. destruct Hx as [Hx|Hx]; [|rewrite (mem1_in X x Hx); auto].
      rewrite (mem1_out X x V Hx). destruct (Hz x Hx) as [Z0 Z1].
      pose proof (qmult_nonneg (1 - k) _ ltac:(qlra) Y0). pose proof (qmult_nonneg k _ K0 Z0).
      pose proof (qmult_nonneg (1 - k) (qty x - y (lbl x)) ltac:(qlra) ltac:(qlra)) as M1. pose proof (qmult_nonneg k (qty x - z (lbl x)) K0 ltac:(qlra)) as M2.
      replace ((1 - k) * (qty x - y (lbl x))) with ((1 - k) * qty x - (1 - k) * y (lbl x)) in M1 by ring. replace (k * (qty x - z (lbl x))) with (k * qty x - k * z (lbl x)) in M2 by ring.
      replace ((1 - k) * qty x) with (qty x - k * qty x) in M1 by ring. split; qlra.
    - rewrite qsumf_app. rewrite (qsumf_ext _ (fun x => (1 - k) * y (lbl x) + k * z (lbl x)) A) by (intros x Hx; cbv beta; rewrite (mem1_out X x V Hx); reflexivity).
      rewrite (qsumf_ext _ (fun x => y (lbl x)) X) by (intros x Hx; cbv beta; rewrite (mem1_in X x Hx); reflexivity).
      rewrite qsumf_plus, !qsumf_scale. exact T.
    - unfold fill_gain. rewrite qsumf_app. rewrite (qsumf_ext _ (fun x => (1 - k) * (gain p x * y (lbl x)) + k * (gain p x * z (lbl x))) A) by (intros x Hx; cbv beta; rewrite (mem1_out X x V Hx); ring).
      rewrite (qsumf_ext _ (fun x => gain p x * y (lbl x)) X) by (intros x Hx; cbv beta; rewrite (mem1_in X x Hx); reflexivity).
      rewrite qsumf_plus, !qsumf_scale. reflexivity.
  Qed.
  (** weights for two mixtures of the totals [a <= c] and [b <= c] that leave room for [y1] and [y2] *)
  Lemma weights a b y1 y2 : 0 <= y1 -> 0 <= y2 -> a + y1 + y2 <= Q -> b <= Q ->
    exists k, 0 <= k /\ k <= 1 /\ (1 - k) * a + k * b + y1 <= Q /\ (1 - (1 - k)) * a + (1 - k) * b + y2 <= Q.
  Proof.
    intros Y1 Y2 L1 L2. destruct (qle_spec b a) as [G|G].
    { exists 0. split; [apply Qcle_refl|]. split; [qlra|]. replace ((1 - 0) * a + 0 * b) with a by ring. replace ((1 - (1 - 0)) * a + (1 - 0) * b) with b by ring. split; qlra. }
    destruct (qle_spec (b - a) (Q - a - y1)) as [H|H].
    { exists 1. split; [qlra|]. split; [qlra|]. replace ((1 - 1) * a + 1 * b) with b by ring. replace ((1 - (1 - 1)) * a + (1 - 1) * b) with a by ring. split; qlra. }
    assert (D : 0 < b - a) by qlra. assert (D' : b - a <> 0) by (intro E; rewrite E in D; exact (Qclt_not_eq _ _ D eq_refl)).
    set (k := (Q - a - y1) / (b - a)). assert (K : k * (b - a) = Q - a - y1) by (unfold k; field; exact D').
    assert (K0 : 0 <= k). { apply Qcnot_lt_le. intro L. pose proof (qmult_pos (- k) (b - a) ltac:(qlra) D) as Z. replace (- k * (b - a)) with (- (k * (b - a))) in Z by ring. rewrite K in Z. qlra. }
    assert (K1 : k <= 1). { apply Qcnot_lt_le. intro L. pose proof (qmult_pos (k - 1) (b - a) ltac:(qlra) D) as Z. replace ((k - 1) * (b - a)) with (k * (b - a) - (b - a)) in Z by ring. rewrite K in Z. qlra. }
    exists k. split; [exact K0|]. split; [exact K1|]. replace ((1 - k) * a + k * b) with (a + k * (b - a)) by ring.
    replace ((1 - (1 - k)) * a + (1 - k) * b) with (b - k * (b - a)) by ring. rewrite K. split; qlra.
  Qed.
  Lemma best_submodular v0 v1 v2 v12 : best_gain A p Q v0 -> best_gain (A ++ X1) p Q v1 -> best_gain (A ++ X2) p Q v2 -> best_gain (A ++ X1 ++ X2) p Q v12 ->
    v12 + v0 <= v1 + v2.
  Proof.
    intros [(z & [Z T0] & <-) _] [_ B1] [_ B2] [(y & [Y T] & <-) _].
    rewrite !qsumf_app in T.
    assert (Y1 : 0 <= qsumf (fun x => y (lbl x)) X1) by (apply qsumf_nonneg; intros x Hx; apply Y; rewrite !in_app_iff; auto).
    assert (Y2 : 0 <= qsumf (fun x => y (lbl x)) X2) by (apply qsumf_nonneg; intros x Hx; apply Y; rewrite !in_app_iff; auto).
    destruct (weights _ _ _ _ Y1 Y2 ltac:(rewrite <- Qcplus_assoc; exact T) T0) as (k & K0 & K1 & L1 & L2).
    destruct (mix_fill X1 y z k U1 K0 K1) as (w1 & F1 & G1); [intros x Hx; apply Y; rewrite !in_app_iff in *; tauto | exact Z | exact L1|].
    destruct (mix_fill X2 y z (1 - k) U2) as (w2 & F2 & G2); [qlra | qlra | intros x Hx; apply Y; rewrite !in_app_iff in *; tauto | exact Z | exact L2|].
    specialize (B1 w1 F1). specialize (B2 w2 F2). rewrite G1 in B1. rewrite G2 in B2.
    assert (E : fill_gain (A ++ X1 ++ X2) p y = fill_gain A p y + fill_gain X1 p y + fill_gain X2 p y) by (unfold fill_gain; rewrite !qsumf_app; ring).
    rewrite E. replace (fill_gain A p y + fill_gain X1 p y + fill_gain X2 p y + fill_gain A p z) with
      (((1 - k) * fill_gain A p y + k * fill_gain A p z + fill_gain X1 p y) + ((1 - (1 - k)) * fill_gain A p y + (1 - k) * fill_gain A p z + fill_gain X2 p y)) by ring.
    apply Qcplus_le_compat; assumption.
  Qed.
End Sub.

(** ** One half *)
Section Half.
  Variables (h : df) (p : Qc) (fees : list Qc) (tl : list trans) (f1 : list Qc) (u : Z) (b : bool).
  Hypothesis Hq : qty_nonneg h.
  Hypothesis Hu : labels_unique h.
  Hypothesis Hn : forall r, In r h -> (0 <= user r)%Z.
  Hypothesis H0 : (0 <= u)%Z.
  Hypothesis Hb : forall r, In r h -> user r = u -> buying r = b.
  Hypothesis Hf : fee_of fees u = 0.
  Hypothesis H : HalfOk h p fees tl f1.
  (** what a user gains after the fee is what its bids add to the best total gain of its side *)
  Lemma half_net : exists va vo, best_gain (side_of b h) p (side_qty (negb b) h p) va /\ best_gain (not_by u (side_of b h)) p (side_qty (negb b) h p) vo /\
    profit h u tl - fee_of f1 u = va - vo.
  Proof.
    pose proof (fee_externality h p fees tl f1 Hq Hu Hn H b u H0 Hb Hf) as F.
    eexists. eexists. split; [exact (ho_best _ _ _ _ _ H b)|]. split; [exact F|].
    rewrite (profit_price u h tl p) by (intros t Ht; apply (ho_const _ _ _ _ _ H t Ht)).
    set (x := fun i => traded_by i tl).
    assert (T' : fill_gain (side_of b h) p x = fill_gain (by_user u (side_of b h)) p x + fill_gain (not_by u (side_of b h)) p x) by (unfold fill_gain, by_user, not_by; apply qsumf_filter_split).
    assert (Z : fill_gain (by_user u h) p x = fill_gain (by_user u (side_of b h)) p x).
    { unfold fill_gain, by_user, side_of. rewrite filter_filter, !qsumf_filter. apply qsumf_ext. intros r Hr.
      destruct (Z.eqb_spec (user r) u) as [Eu|]; [|rewrite andb_false_r; reflexivity]. rewrite (Hb r Hr Eu), eqb_reflx. reflexivity. }
    rewrite T', Z. fold x. ring.
  Qed.
End Half.

Section Two.
  Variables (h h' : df) (p : num) (fees fees0 : list Qc) (tl tl' : list trans) (f1 f1' : list Qc).
  Variables (r x1 x2 : row) (o : df).
  Hypothesis Hq : qty_nonneg h.
  Hypothesis Hu : labels_unique h.
  Hypothesis Hu' : labels_unique h'.
  Hypothesis Hn : forall x, In x h -> (0 <= user x)%Z.
  Hypothesis Hw : (0 <= user x2)%Z.
  Hypothesis Pc : pieces_of r [x1; x2].
  Hypothesis E1 : user x1 = user r.
  Hypothesis New : forall x, In x h -> user x <> user x2.
  Hypothesis Ph : Permutation h (r :: o).
  Hypothesis Ph' : Permutation h' (x1 :: x2 :: o).
  Hypothesis R : HalfRes h p fees tl f1.
  Hypothesis R' : HalfRes h' p fees0 tl' f1'.

  Lemma two_cut : cut [user r; user x2] h h'.
  Proof.
    right. exists r, [x1; x2], o. split; [exact Pc|]. split; [|split; [exact Ph | exact Ph']].
    intros x [<-|[<-|[<-|[]]]]; rewrite ?E1; cbn; auto.
  Qed.
  Lemma in_h' x : In x h' -> x = x1 \/ x = x2 \/ In x h.
  Proof.
    intro Hx. apply (Permutation_in _ Ph') in Hx. destruct Hx as [<-|[<-|Hx]]; auto. right. right. apply (Permutation_in _ (Permutation_sym Ph)). right. exact Hx.
  Qed.
  Lemma r_in_h : In r h. Proof. apply (Permutation_in _ (Permutation_sym Ph)). left. reflexivity. Qed.
  Lemma two_qty : qty_nonneg h'.
  Proof.
    intros x Hx. destruct Pc as (_ & A & _). destruct (in_h' x Hx) as [->|[->|Hx']]; [apply Qclt_le_weak, A; left; reflexivity | apply Qclt_le_weak, A; right; left; reflexivity | apply Hq, Hx'].
  Qed.
  Lemma two_users x : In x h' -> (0 <= user x)%Z.
  Proof. intro Hx. destruct (in_h' x Hx) as [->|[->|Hx']]; [rewrite E1; apply Hn, r_in_h | exact Hw | apply Hn, Hx']. Qed.
  Lemma two_buying : buying x1 = buying r /\ buying x2 = buying r.
  Proof. destruct Pc as (_ & A & _). split; [apply (A x1); left | apply (A x2); right; left]; reflexivity. Qed.

  (** anybody else *)
  Lemma two_others v b : (0 <= v)%Z -> v <> user r -> v <> user x2 -> (forall x, In x h -> user x = v -> buying x = b) -> fee_of fees v = 0 -> fee_of fees0 v = 0 ->
    profit h' v tl' - fee_of f1' v = profit h v tl - fee_of f1 v.
  Proof.
    intros V0 V1 V2 Hb F F'. destruct p as [q| | |]; cbn [HalfRes] in R, R'.
    2-4: destruct R as [-> ->], R' as [-> ->]; rewrite F, F'; unfold profit; cbn [filter]; rewrite !qsumf_zero by (intros; reflexivity); reflexivity.
    assert (Hb' : forall x, In x h' -> user x = v -> buying x = b).
    { intros x Hx E. destruct (in_h' x Hx) as [->|[->|Hx']]; [rewrite E1 in E; congruence | congruence | apply Hb; assumption]. }
    destruct (half_net h q fees tl f1 v b Hq Hu Hn V0 Hb F R) as (va & vo & A1 & A2 & ->).
    destruct (half_net h' q fees0 tl' f1' v b two_qty Hu' two_users V0 Hb' F' R') as (va' & vo' & A1' & A2' & ->).
    rewrite (cut_side_qty _ _ _ two_cut) in A1', A2'. pose proof (cut_side _ _ _ two_cut b) as C.
    assert (Us : labels_unique (side_of b h)) by (apply filter_unique; exact Hu). assert (Us' : labels_unique (side_of b h')) by (apply filter_unique; exact Hu').
    rewrite (best_cut _ _ _ _ _ _ _ Us Us' C A1 A1').
    assert (Cn : cut [user r; user x2] (not_by v (side_of b h)) (not_by v (side_of b h'))) by (apply cut_not_by; [exact C | intros [X|[X|[]]]; congruence]).
    assert (vo' = vo) as -> by exact (best_cut _ _ _ _ _ _ _ (filter_unique _ _ Us) (filter_unique _ _ Us') Cn A2 A2'). reflexivity.
  Qed.
  (** the two names together *)
  Lemma two_names : let u := user r in let w := user x2 in (forall x, In x h -> user x = u -> buying x = buying r) ->
    fee_of fees u = 0 -> fee_of fees0 u = 0 -> fee_of fees0 w = 0 ->
    profit h' u tl' - fee_of f1' u + (profit h' w tl' - fee_of f1' w) <= profit h u tl - fee_of f1 u.
  Proof.
    intros u w Hb F Fu Fw. destruct p as [q| | |]; cbn [HalfRes] in R, R'.
    2-4: destruct R as [-> ->], R' as [-> ->]; rewrite F, Fu, Fw; unfold profit; cbn [filter]; rewrite !qsumf_zero by (intros; reflexivity); apply Qcle_refl.
    destruct two_buying as [B1 B2]. set (b := buying r) in *.
    assert (Nw : w <> u) by (intro E; apply (New r r_in_h); symmetry; exact E).
    assert (Hb' : forall v, v = u \/ v = w -> forall x, In x h' -> user x = v -> buying x = b).
    { intros v Hv x Hx E. destruct (in_h' x Hx) as [->|[->|Hx']]; [exact B1 | exact B2|]. destruct Hv as [->| ->]; [apply Hb; assumption | exfalso; exact (New x Hx' E)]. }
    assert (U0 : (0 <= u)%Z) by (apply Hn, r_in_h).
    destruct (half_net h q fees tl f1 u b Hq Hu Hn U0 Hb F R) as (va & vo & A1 & A2 & ->).
    destruct (half_net h' q fees0 tl' f1' u b two_qty Hu' two_users U0 (Hb' u (or_introl eq_refl)) Fu R') as (va' & vo' & A1' & A2' & ->).
    destruct (half_net h' q fees0 tl' f1' w b two_qty Hu' two_users Hw (Hb' w (or_intror eq_refl)) Fw R') as (va2 & vo2 & A3 & A4 & ->).
    rewrite (cut_side_qty _ _ _ two_cut) in A1', A2', A3, A4. pose proof (cut_side _ _ _ two_cut b) as C.
    set (Q := side_qty (negb b) h q) in *.
    assert (Us : labels_unique (side_of b h)) by (apply filter_unique; exact Hu). assert (Us' : labels_unique (side_of b h')) by (apply filter_unique; exact Hu').
    assert (va2 = va') as -> by exact (best_unique _ _ _ _ _ A3 A1'). assert (va' = va) as -> by exact (best_cut _ _ _ _ _ _ _ Us Us' C A1 A1').
    set (s' := side_of b h') in *. set (A := not_by w (not_by u s')). set (X1 := by_user u s'). set (X2 := by_user w (not_by u s')).
    assert (P1 : Permutation s' (A ++ X1 ++ X2)).
    { rewrite (filter_two (fun x => Z.eqb (user x) u) s'). change (Permutation (not_by u s' ++ X1) (A ++ X1 ++ X2)).
      rewrite (filter_two (fun x => Z.eqb (user x) w) (not_by u s')). change (Permutation ((A ++ X2) ++ X1) (A ++ X1 ++ X2)). rewrite <- app_assoc. apply Permutation_app_head, Permutation_app_comm. }
    assert (P2 : Permutation (not_by u s') (A ++ X2)) by exact (filter_two (fun x => Z.eqb (user x) w) (not_by u s')).
    assert (P3 : Permutation (not_by w s') (A ++ X1)).
    { rewrite (filter_two (fun x => Z.eqb (user x) u) (not_by w s')). apply Permutation_app.
      - unfold A, not_by. rewrite !filter_filter. erewrite filter_ext; [reflexivity|]. intro x. cbv beta. apply andb_comm.
      - unfold X1, by_user, not_by. rewrite filter_filter. erewrite filter_ext; [reflexivity|]. intro x. cbv beta.
        destruct (Z.eqb_spec (user x) u) as [->|]; [|rewrite ?andb_false_r; reflexivity]. destruct (Z.eqb_spec u w) as [E|]; [congruence | reflexivity]. }
    assert (P4 : Permutation (not_by u (side_of b h)) A).
    { unfold A, s', not_by, side_of. apply Permutation_trans with (filter (fun r0 => negb (Z.eqb (user r0) u)) (filter (fun r0 => Bool.eqb (buying r0) b) (r :: o))); [apply filter_perm, filter_perm, Ph|].
      apply Permutation_trans with (filter (fun r0 => negb (Z.eqb (user r0) w)) (filter (fun r0 => negb (Z.eqb (user r0) u)) (filter (fun r0 => Bool.eqb (buying r0) b) (x1 :: x2 :: o)))).
      2:{ apply filter_perm, filter_perm, filter_perm, Permutation_sym, Ph'. }
      assert (S1 : user x1 = u) by exact E1. assert (S2 : user x2 = w) by reflexivity. assert (S3 : user r = u) by reflexivity. assert (S4 : buying r = b) by reflexivity.
      cbn [filter]. rewrite B1, B2, S4, eqb_reflx. cbn [filter]. rewrite S1, S2, S3, Z.eqb_refl. cbn [negb]. destruct (Z.eqb_spec w u) as [E|_]; [contradiction|]. cbn [negb filter]. rewrite S2, Z.eqb_refl. cbn [negb].
      match goal with |- Permutation ?a (filter ?f ?b) => assert (X : filter f b = b); [|rewrite X; reflexivity] end.
      apply filter_all. intros x Hx. apply negb_true_iff, Z.eqb_neq. apply New. apply filter_In in Hx. destruct Hx as [Hx _]. apply filter_In in Hx. destruct Hx as [Hx _].
      apply (Permutation_in _ (Permutation_sym Ph)). right. exact Hx. }
    pose proof (best_submodular A X1 X2 q Q (labels_perm _ _ P1 Us') vo vo2 vo' va (best_perm _ _ _ _ _ P4 A2) (best_perm _ _ _ _ _ P3 A4) (best_perm _ _ _ _ _ P2 A2') (best_perm _ _ _ _ _ P1 A1')) as Sb.
    qlra.
  Qed.
End Two.
