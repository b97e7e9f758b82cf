(** The outcome of one half in terms of the specifications only. *)
From Verif Require Import QcTac Num ModelBase ModelCurves ModelHuang ModelMuda ListFacts StoreFacts
  FillFacts Spec SpecTrade SpecMuda TradeFacts MudaSide MudaHalf MudaSolve.

Record HalfOk (d : df) (p : Qc) (fees : list Qc) (tl : list trans) (fees' : list Qc) : Prop := mkHalf {
  ho_refer : refer d tl;
  ho_once : once tl;
  ho_feasible : feasible d tl;
  ho_rational : rational d tl;
  ho_const : forall t, In t tl -> t_price t = p /\ t_source t = (-1)%Z /\ t_active t = false;
  ho_bought : bought d tl = qmin (demand_at d p) (supply_at d p);
  ho_sold : sold d tl = qmin (demand_at d p) (supply_at d p);
  ho_best : forall b, best_gain (side_of b d) p (side_qty (negb b) d p) (fill_gain (side_of b d) p (fun i => traded_by i tl));
  ho_priority : forall r1 r2, In r1 d -> In r2 d -> buying r1 = buying r2 -> gain p r2 < gain p r1 ->
    traded_by (lbl r1) tl < qty r1 -> traded_by (lbl r2) tl = 0;
  ho_short : forall r, In r d -> buying r = negb (long_side d p) -> 0 <= gain p r -> traded_by (lbl r) tl = qty r;
  ho_fees : (forall r, In r d -> (0 <= user r)%Z) ->
    length fees' = length fees /\
    (forall u, trades_on (long_side d p) d tl u -> (u < Z.of_nat (length fees))%Z /\ 0 <= fee_of fees' u /\
       best_gain (not_by u (side_of (long_side d p) d)) p (side_qty (negb (long_side d p)) d p)
         (fill_gain (not_by u (side_of (long_side d p) d)) p (fun i => traded_by i tl) + fee_of fees' u)) /\
    (forall u, (0 <= u)%Z -> ~ trades_on (long_side d p) d tl u -> fee_of fees' u = fee_of fees u) }.

Lemma sum_eq_pointwise {A} (f g : A -> Qc) l : (forall x, In x l -> f x <= g x) -> qsumf f l = qsumf g l -> forall x, In x l -> f x = g x.
Proof.
  intros H E x Hx. assert (Z : qsumf (fun y => g y - f y) l = 0) by (rewrite qsumf_minus, E; ring).
  assert (g x - f x <= qsumf (fun y => g y - f y) l) by (apply (qsumf_in_le (fun y => g y - f y)); [intros y Hy; specialize (H y Hy); qlra | exact Hx]).
  specialize (H x Hx). rewrite Z in *. apply Qcle_antisym; qlra.
Qed.

Lemma half_notrade (S : sorter) d p fees : qty_nonneg d -> labels_unique d -> Q d p <= 0 -> HalfOk d p fees [] fees.
Proof.
  intros Hq Hu HQ. assert (Q0 : Q d p = 0) by (apply Qcle_antisym; [exact HQ | apply (Q_nonneg S), Hq]).
  assert (Zs : forall b r, side_qty b d p = 0 -> In r d -> buying r = b -> 0 <= gain p r -> qty r = 0).
  { intros b r E Hr Hb Hg. assert (In r (Ls S d p b)) by (apply Ls_in; auto).
    assert (qty r <= qsumf qty (Ls S d p b)) by (apply qsumf_in_le; [apply Ls_qty, Hq | assumption]). rewrite Ls_sum, E in *.
    specialize (Hq r Hr). qlra. }
  constructor.
  - intros t [].
  - constructor.
  - split; [contradiction|]. intros r Hr. apply Hq, Hr.
  - intros t r [].
  - intros t [].
  - symmetry. exact Q0.
  - symmetry. exact Q0.
  - intro b. assert (E : fillsum qty (gain p) (side_qty (negb b) d p) (Ls S d p b) = fill_gain (side_of b d) p (fun i => traded_by i [])).
    { unfold fill_gain. rewrite (qsumf_zero _ (side_of b d)) by (intros r _; unfold traded_by; simpl; rewrite qsumf_nil; ring).
      assert (O : side_qty b d p = 0 \/ side_qty (negb b) d p = 0).
      { rewrite Q_short in Q0. destruct (Bool.bool_dec b (lb d p)) as [->|Hb]; [right; exact Q0|]. left. rewrite (other_bool _ _ Hb). exact Q0. }
      destruct O as [O|O].
      - rewrite fill_all; [apply qsumf_zero; intros r Hr; apply Ls_in in Hr; destruct Hr as (H1 & H2 & H3); rewrite (Zs b r O H1 H2 H3); ring | apply Ls_qty, Hq |].
        rewrite Ls_sum, O. apply (side_qty_nonneg S), Hq.
      - rewrite O. apply fill_zero, Ls_qty, Hq. }
    rewrite <- E. apply best_fill; [intros x Hx; apply Hq; unfold side_of in Hx; apply filter_In in Hx; apply Hx | apply NoDup_filter_map, Hu | apply (side_qty_nonneg S), Hq | apply Ls_perm | apply Ls_sorted].
  - intros. reflexivity.
  - intros r Hr Hb Hg. unfold traded_by. simpl. rewrite qsumf_nil. symmetry. apply (Zs (negb (long_side d p)) r); auto.
    fold (lb d p). rewrite <- Q_short. exact Q0.
  - intros _. split; [reflexivity|]. split; [|reflexivity]. intros u (t & r & [] & _).
Qed.

Lemma half_ok S d p fees tm fees' : qty_nonneg d -> labels_unique d ->
  solve_market_side S d (Fin p) fees = Ok (tm, fees') -> HalfOk d p fees (tm_trans tm) fees'.
Proof.
  intros Hq Hu E. rewrite (solve_eq S d p Hq) in E. destruct (qlt_spec 0 (Q d p)) as [L|L].
  2:{ injection E as <- <-. apply (half_notrade S); auto. }
  destruct (solve_trade S d p Hq fees L) as (preS & rS & postS & qS & preL & rL & postL & qL & CS & CL & Et).
  rewrite Et in E. destruct (charge_users _ _ _ _ _ _) as [f1|] eqn:Ec; [|discriminate]. cbn [bind] in E. injection E as <- <-.
  rewrite !add_all_trans. simpl app.
  set (tl := map (mk p) (won preS rS qS) ++ map (mk p) (won preL rL qL)).
  destruct (tl_sums S d p Hq Hu _ _ _ _ _ _ _ _ CS CL) as [B1 B2]. fold tl in B1, B2.
  constructor.
  - exact (tl_refer S d p Hq _ _ _ _ _ _ _ _ CS CL).
  - exact (tl_once S d p Hq Hu _ _ _ _ _ _ _ _ CS CL).
  - exact (tl_feasible S d p Hq Hu _ _ _ _ _ _ _ _ CS CL).
  - exact (tl_rational S d p Hq Hu _ _ _ _ _ _ _ _ CS CL).
  - intros t Ht. destruct (tl_row S d p Hq _ _ _ _ _ _ _ _ CS CL t Ht) as (x & _ & _ & _ & _ & _ & H). exact H.
  - exact B1.
  - exact B2.
  - exact (tl_best S d p Hq Hu _ _ _ _ _ _ _ _ CS CL).
  - exact (tl_priority S d p Hq Hu _ _ _ _ _ _ _ _ CS CL).
  - intros r Hr Hb Hg. fold (lb d p) in Hb.
    apply (sum_eq_pointwise (fun r => traded_by (lbl r) tl) qty (filter (fun r => qleb 0 (gain p r)) (side_of (negb (lb d p)) d))).
    + intros x Hx. apply filter_In in Hx. destruct Hx as [Hx _]. apply filter_In in Hx. destruct Hx as [Hx _].
      apply (tl_feasible S d p Hq Hu _ _ _ _ _ _ _ _ CS CL), Hx.
    + rewrite <- (qsumf_perm qty _ _ (Ls_perm S d p (negb (lb d p)))). rewrite Ls_sum, <- Q_short.
      rewrite qsumf_filter.
      transitivity (qsumf (fun x => (if qleb 0 (gain p x) then 1 else 0) * traded_by (lbl x) tl) (side_of (negb (lb d p)) d)).
      { apply qsumf_ext. intros x _. destruct (qleb 0 (gain p x)); ring. }
      unfold tl. rewrite (tl_bridge S d p Hq Hu _ _ _ _ _ _ _ _ CS CL (negb (lb d p)) (fun x => if qleb 0 (gain p x) then 1 else 0) (fun _ _ => eq_refl) _ _ _ _ CS (or_intror (conj eq_refl eq_refl))).
      transitivity (qsumf qty (won preS rS qS)); [|rewrite won_sum; apply CS].
      apply qsumf_ext. intros y Hy. destruct (won_in S d p Hq _ _ _ _ _ y CS Hy) as (x & _ & _ & G & _ & _ & _ & _ & G2 & _).
      rewrite <- G2. rewrite (proj2 (qleb_le _ _) G). ring.
    + apply filter_In. split; [|apply qleb_le, Hg]. apply filter_In. split; [exact Hr|]. rewrite Hb. apply eqb_reflx.
  - intro Hn. fold (lb d p).
    assert (Hun : forall u, In u (uniqueZ (map user (won preL rL qL))) -> (0 <= u)%Z).
    { intros u H. apply (tl_users S d p Hq Hu _ _ _ _ _ _ _ _ CS CL) in H. destruct H as (t & r & _ & Hr & _ & _ & <-). apply Hn, Hr. }
    destruct (charge_spec _ _ _ _ _ Hun _ _ Ec) as (C1 & C2 & C3).
    split; [exact C1|]. split.
    + intros u H. apply (tl_users S d p Hq Hu _ _ _ _ _ _ _ _ CS CL) in H. destruct (C2 u H) as [D1 D2]. split; [exact D1|]. rewrite D2.
      destruct (tl_fee S d p Hq Hu _ _ _ _ _ _ _ _ CS CL u L) as [F1 F2]. split; [exact F2 | exact F1].
    + intros u H0 H. apply C3; [exact H0|]. intro Hi. apply H. apply (tl_users S d p Hq Hu _ _ _ _ _ _ _ _ CS CL), Hi.
Qed.

Lemma half_total S d p fees : qty_nonneg d -> labels_unique d ->
  (forall r, In r d -> (0 <= user r)%Z /\ (user r < Z.of_nat (length fees))%Z) ->
  exists tm fees', solve_market_side S d (Fin p) fees = Ok (tm, fees').
Proof.
  intros Hq Hu Hn. rewrite (solve_eq S d p Hq). destruct (qlt_spec 0 (Q d p)) as [L|L]; [|eauto].
  destruct (solve_trade S d p Hq fees L) as (preS & rS & postS & qS & preL & rL & postL & qL & CS & CL & ->).
  destruct (charge_ok (won preL rL qL ++ leftover rL qL postL) (length preL) (Q d p) p (uniqueZ (map user (won preL rL qL))) fees) as (f1 & ->).
  - intros u H. apply (tl_users S d p Hq Hu _ _ _ _ _ _ _ _ CS CL) in H. destruct H as (t & r & _ & Hr & _ & _ & <-). apply Hn, Hr.
  - simpl. eauto.
Qed.
Lemma half_err S d p fees e : qty_nonneg d -> solve_market_side S d (Fin p) fees = Err e -> e = IndexError.
Proof.
  intros Hq E. rewrite (solve_eq S d p Hq) in E. destruct (qlt_spec 0 (Q d p)) as [L|L]; [|discriminate].
  destruct (solve_trade S d p Hq fees L) as (preS & rS & postS & qS & preL & rL & postL & qL & CS & CL & Et). rewrite Et in E.
  destruct (charge_users _ _ _ _ _ _) as [f1|e1] eqn:Ec; [discriminate|]. simpl in E. injection E as <-. exact (charge_err _ _ _ _ _ _ _ Ec).
Qed.
(** at a price that is not finite nothing happens *)
Lemma half_infinite S d p fees : (forall q, p <> Fin q) -> solve_market_side S d p fees = Ok (tm_init, fees).
Proof.
  intro Hp. unfold solve_market_side.
  assert (D0 : forall l : df, (forall r, In r l -> False) -> l = []) by (intros [|a l] H; [reflexivity|]; exfalso; apply (H a); left; reflexivity).
  assert (Dn : s_desc S [] = []) by (apply D0; intros r Hr; apply (Permutation_in _ (s_desc_perm S [])) in Hr; exact Hr).
  assert (An : s_asc S [] = []) by (apply D0; intros r Hr; apply (Permutation_in _ (s_asc_perm S [])) in Hr; exact Hr).
  destruct (buyers d) as [|b0 bs] eqn:Eb; [reflexivity|]. destruct (sellers d) as [|s0 ss] eqn:Es; [reflexivity|].
  rewrite <- Eb, <- Es. destruct p as [q| | |]; [exfalso; apply (Hp q); reflexivity| | |]; cbv zeta.
  - rewrite (filter_none (fun r => nleb PInf (Fin (price r)))) by (intros; reflexivity). rewrite Dn. cbn [map qsum].
    destruct (qlt_spec 0 (qsum (map qty (s_asc S (filter (fun r => nleb (Fin (price r)) PInf) (sellers d)))))) as [L|L].
    + assert (F : qltb 0 0 = false) by reflexivity. rewrite F. reflexivity.
    + rewrite (proj2 (qltb_ge _ _) L). reflexivity.
  - rewrite (filter_none (fun r => nleb (Fin (price r)) NInf)) by (intros; reflexivity). rewrite An. cbn [map qsum].
    assert (F : qltb 0 0 = false) by reflexivity.
    destruct (qlt_spec (qsum (map qty (s_desc S (filter (fun r => nleb NInf (Fin (price r))) (buyers d))))) 0) as [L|L].
    + assert (G : qltb 0 (qsum (map qty (s_desc S (filter (fun r => nleb NInf (Fin (price r))) (buyers d))))) = false) by (apply qltb_ge; qlra).
      rewrite G. reflexivity.
    + rewrite F. reflexivity.
  - rewrite (filter_none (fun r => nleb NaN (Fin (price r)))) by (intros; reflexivity). rewrite Dn. cbn [map qsum].
    rewrite (filter_none (fun r => nleb (Fin (price r)) NaN)) by (intros; reflexivity). rewrite An. cbn [map qsum].
    assert (F : qltb 0 0 = false) by reflexivity. rewrite !F. reflexivity.
Qed.

(** ** Consequences *)
Section Consequences.
  Variables (d : df) (p : Qc) (fees : list Qc) (tl : list trans) (fees' : list Qc).
  Hypotheses (Hq : qty_nonneg d) (Hu : labels_unique d) (Hn : forall r, In r d -> (0 <= user r)%Z).
  Hypothesis H : HalfOk d p fees tl fees'.

  Let x := fun i => traded_by i tl.
  Lemma x_bounds r : In r d -> 0 <= x (lbl r) /\ x (lbl r) <= qty r.
  Proof.
    intro Hr. destruct (ho_feasible _ _ _ _ _ H) as [F1 F2]. split; [|apply F2, Hr].
    unfold x, traded_by. apply qsumf_nonneg. intros t Ht. apply filter_In in Ht. apply F1, Ht.
  Qed.
  Lemma side_in b r : In r (side_of b d) <-> In r d /\ buying r = b.
  Proof.
    unfold side_of. rewrite filter_In. split; intros [A B]; split; auto; [apply eqb_prop, B | rewrite B; apply eqb_reflx].
  Qed.
  Lemma others_side_in b u r : In r (not_by u (side_of b d)) <-> In r d /\ buying r = b /\ user r <> u.
  Proof.
    unfold not_by. rewrite filter_In, side_in, negb_true_iff, Z.eqb_neq. tauto.
  Qed.
  Lemma side_total b : qsumf (fun r => x (lbl r)) (side_of b d) <= side_qty (negb b) d p.
  Proof.
    assert (E : qsumf (fun r => x (lbl r)) (side_of b d) = if b then bought d tl else sold d tl).
    { assert (G : forall s, qsumf t_qty (filter (on_side s d) tl) = qsumf (fun r => x (lbl r)) (side_of s d)).
      { intro s. unfold x, traded_by. rewrite qsumf_filter.
        rewrite (qsumf_ext (fun r => qsumf t_qty _) (fun r => qsumf (fun t => if Nat.eqb (t_bid t) (lbl r) then t_qty t else 0) tl)) by (intros r _; apply qsumf_filter).
        rewrite qsumf_swap. apply qsumf_ext. intros t Ht. destruct (ho_refer _ _ _ _ _ H t Ht) as (r & Hr & Er).
        rewrite (on_side_in s d t r Hu Hr Er). unfold side_of. rewrite qsumf_filter.
        rewrite <- (pick_sum d r (fun r0 => if Bool.eqb (buying r0) s then t_qty t else 0) Hu Hr).
        apply qsumf_ext. intros r0 _. rewrite <- Er, (Nat.eqb_sym (lbl r) (lbl r0)). destruct (Nat.eqb (lbl r0) (lbl r)), (Bool.eqb (buying r0) s); reflexivity. }
      destruct b; symmetry; apply G. }
    rewrite E. destruct b; [rewrite (ho_bought _ _ _ _ _ H) | rewrite (ho_sold _ _ _ _ _ H)]; simpl; [apply qmin_r | apply qmin_l].
  Qed.
  Lemma x_fill b : fill (side_of b d) (side_qty (negb b) d p) x.
  Proof. split; [intros r Hr; apply x_bounds, (proj1 (side_in b r) Hr) | apply side_total]. Qed.
  Lemma x_fill_others b u : fill (not_by u (side_of b d)) (side_qty (negb b) d p) x.
  Proof.
    split; [intros r Hr; apply x_bounds; apply others_side_in in Hr; apply Hr|].
    apply Qcle_trans with (qsumf (fun r => x (lbl r)) (side_of b d)); [|apply side_total].
    apply oth_sum_le. intros r Hr. apply x_bounds, (proj1 (side_in b r) Hr).
  Qed.
  Lemma gain_split b u : fill_gain (side_of b d) p x = fill_gain (by_user u (side_of b d)) p x + fill_gain (not_by u (side_of b d)) p x.
  Proof. unfold fill_gain, by_user, not_by. apply qsumf_filter_split. Qed.
  Lemma side_unique b : labels_unique (side_of b d).
  Proof. apply NoDup_filter_map, Hu. Qed.

  (** uniform description of the fee of a user that bids on one side only *)
  Lemma fee_externality b u : (0 <= u)%Z -> (forall r, In r d -> user r = u -> buying r = b) -> fee_of fees u = 0 ->
    best_gain (not_by u (side_of b d)) p (side_qty (negb b) d p)
      (fill_gain (not_by u (side_of b d)) p x + fee_of fees' u).
  Proof.
    intros H0 Hside Hf. destruct (ho_fees _ _ _ _ _ H Hn) as (_ & F1 & F2).
    set (l := long_side d p) in *.
    assert (D : {trades_on l d tl u} + {~ trades_on l d tl u}).
    { destruct (existsb (fun t => existsb (fun r => Nat.eqb (lbl r) (t_bid t) && (Bool.eqb (buying r) l && Z.eqb (user r) u)) d) tl) eqn:Ex.
      - left. apply existsb_exists in Ex. destruct Ex as (t & Ht & Ex). apply existsb_exists in Ex. destruct Ex as (r & Hr & Ex).
        apply andb_true_iff in Ex. destruct Ex as [A B]. apply andb_true_iff in B. destruct B as [B C].
        exists t, r. apply Nat.eqb_eq in A. apply eqb_prop in B. apply Z.eqb_eq in C. auto.
      - right. intros (t & r & Ht & Hr & A & B & C). rewrite <- not_true_iff_false in Ex. apply Ex. apply existsb_exists. exists t. split; [exact Ht|].
        apply existsb_exists. exists r. split; [exact Hr|]. rewrite A, B, C, Nat.eqb_refl, eqb_reflx, Z.eqb_refl. reflexivity. }
    destruct D as [D|D].
    - assert (Eb : b = l) by (destruct D as (t & r & _ & Hr & _ & B & C); rewrite <- B; symmetry; apply Hside; assumption). subst b.
      apply F1, D.
    - rewrite (F2 u H0 D), Hf, Qcplus_0_r. split; [exists x; split; [apply x_fill_others | reflexivity]|].
      intros y Hy. destruct (Bool.bool_dec b l) as [->|Hb].
      + (* on the long side without trades *)
        assert (Z : fill_gain (by_user u (side_of l d)) p x = 0).
        { apply qsumf_zero. intros r Hr. unfold by_user in Hr. apply filter_In in Hr. destruct Hr as [Hr Eu]. apply Z.eqb_eq in Eu. apply side_in in Hr.
          unfold x. rewrite traded_by_absent; [ring|]. intro Hi. apply in_map_iff in Hi. destruct Hi as (t & Et & Ht). apply D. exists t, r. repeat split; auto; [apply Hr | apply Hr]. }
        pose proof (gain_split l u) as G. rewrite Z, Qcplus_0_l in G. rewrite <- G.
        (* extend y by zero on the rows of u *)
        destruct Hy as [Y1 Y2].
        set (y' := fun i => if existsb (fun r => Nat.eqb (lbl r) i) (not_by u (side_of l d)) then y i else 0).
        assert (E : forall r, In r (side_of l d) -> y' (lbl r) = if negb (Z.eqb (user r) u) then y (lbl r) else 0).
        { intros r Hr. unfold y'. destruct (existsb _ _) eqn:Ex.
          - apply existsb_exists in Ex. destruct Ex as (r' & Hr' & Ex). apply Nat.eqb_eq in Ex. unfold not_by in Hr'. apply filter_In in Hr'. destruct Hr' as [Hr' Eu].
            assert (r' = r) by (apply (NoDup_map_in lbl (side_of l d)); auto; apply side_unique). subst r'. rewrite Eu. reflexivity.
          - destruct (negb (Z.eqb (user r) u)) eqn:EP; [|reflexivity]. exfalso. rewrite <- not_true_iff_false in Ex. apply Ex. apply existsb_exists. exists r. rewrite Nat.eqb_refl.
            split; [apply filter_In; auto | reflexivity]. }
        apply Qcle_trans with (fill_gain (side_of l d) p y').
        * unfold fill_gain, not_by. rewrite qsumf_filter. apply qsumf_le. intros r Hr. rewrite E by exact Hr.
          destruct (negb (Z.eqb (user r) u)); [apply Qcle_refl | replace (gain p r * 0) with 0 by ring; apply Qcle_refl].
        * apply (proj2 (ho_best _ _ _ _ _ H l)). split.
          -- intros r Hr. rewrite E by exact Hr. destruct (negb (Z.eqb (user r) u)) eqn:EP; [apply Y1, filter_In; auto|].
             assert (0 <= qty r) by (apply Hq, (proj1 (side_in l r) Hr)). split; qlra.
          -- unfold not_by in Y2. rewrite qsumf_filter in Y2. rewrite (qsumf_ext _ (fun r => if negb (Z.eqb (user r) u) then y (lbl r) else 0)) by exact E. exact Y2.
      + (* on the short side everybody trades *)
        apply other_bool in Hb. destruct Hy as [Y1 _]. apply qsumf_le. intros r Hr. pose proof (proj1 (others_side_in b u r) Hr) as (R1 & R2 & R3).
        destruct (Y1 r Hr) as [Y2 Y3]. destruct (Qclt_le_dec (gain p r) 0) as [L|L].
        * assert (Xn : x (lbl r) = 0).
          { unfold x. apply traded_by_absent. intro Hi. apply in_map_iff in Hi. destruct Hi as (t & Et & Ht).
            pose proof (ho_rational _ _ _ _ _ H t r Ht R1 (eq_sym Et)) as Rt. destruct (ho_const _ _ _ _ _ H t Ht) as [Ep _]. rewrite Ep in Rt.
            unfold gain in L. destruct (buying r); qlra. }
          rewrite Xn. replace (gain p r * 0) with 0 by ring. replace 0 with (0 * y (lbl r)) by ring. apply qmult_le_r; [exact Y2 | qlra].
        * unfold x. rewrite (ho_short _ _ _ _ _ H r R1); [|rewrite R2; exact Hb | exact L]. apply qmult_le_l; [exact L | exact Y3].
  Qed.
End Consequences.
