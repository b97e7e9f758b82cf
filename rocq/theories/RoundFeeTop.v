(** The fees of MUDA in rounded arithmetic: one half and the whole mechanism. *)
From Verif Require Import QcTac Num NumFacts ModelBase ModelCurves ModelHuang ModelMuda ModelRound ListFacts StoreFacts
  Spec SpecTrade SpecMuda SpecRound SpecRoundFee FillFacts CurveFacts IntersectFacts TradeFacts Sorter MudaSide MudaHalf MudaSolve MudaFacts MudaErrors
  MergeFacts UpdateFacts RoundFacts RoundHuang RoundError RoundMuda RoundStats RoundFee RoundFeeHalf.

Lemma q5 x : qz 5 * x = x + x + x + x + x.
Proof. replace (qz 5) with (1 + 1 + 1 + 1 + 1) by (apply Qc_is_canon; reflexivity). ring. Qed.
Lemma q7 x : qz 7 * x = x + x + x + x + x + x + x.
Proof. replace (qz 7) with (1 + 1 + 1 + 1 + 1 + 1 + 1) by (apply Qc_is_canon; reflexivity). ring. Qed.
Lemma traded_by_perm i a b : Permutation a b -> traded_by i a = traded_by i b.
Proof. intro P. unfold traded_by. apply qsumf_perm, filter_perm, P. Qed.

Section Cut.
  Variables (R : rounding) (A : adder R).
  Definition leftover_r (r : row) (q : Qc) (post : df) : df :=
    if qltb q (qty r) then with_qty r (R (qty r - q)) :: post else post.
  Lemma trading_r_rest L Q : L <> [] -> exists pre r post q, CutR R A L Q pre r post q /\
    get_trading_bids_r R A L Q = Ok ((pre ++ [with_qty r q]) ++ leftover_r r q post, length pre).
  Proof.
    intro Hne. unfold get_trading_bids_r, CutR, leftover_r.
    set (k := if qltb Q (A (map qty L)) then _ else _).
    assert (Lk : (k < length L)%nat).
    { unfold k. destruct (qltb Q (A (map qty L))).
      - match goal with |- (argmax_bool ?l < _)%nat => pose proof (argmax_bool_bound l) as H end.
        rewrite map_length in H. unfold cumsum_r in H. rewrite cumsum_from_r_length, map_length in H. apply H.
        intro E. apply (f_equal (@length bool)) in E. rewrite map_length, cumsum_from_r_length, map_length in E. destruct L; [congruence | discriminate].
      - destruct L; [congruence | simpl; lia]. }
    destruct (nth_error L k) as [r|] eqn:E; [|apply nth_error_None in E; lia].
    assert (Hk : length (firstn k L) = k) by (apply firstn_length_le; lia).
    destruct (qlt_spec (R (Q - A (map qty (firstn k L)))) (qty r)) as [T|T].
    - exists (firstn k L), r, (skipn (Datatypes.S k) L), (R (Q - A (map qty (firstn k L)))).
      split; [split; [apply split_at, E | split; [left; split; [reflexivity | exact T] | exact Hk]]|].
      rewrite Hk, (proj2 (qltb_lt _ _) T), <- app_assoc. reflexivity.
    - exists (firstn k L), r, (skipn (Datatypes.S k) L), (qty r).
      split; [split; [apply split_at, E | split; [right; split; [reflexivity | exact T] | exact Hk]]|].
      replace (qltb (qty r) (qty r)) with false by (symmetry; apply qltb_ge, Qcle_refl).
      rewrite Hk, with_qty_same, <- app_assoc. cbn [app]. rewrite <- (split_at L k r E). reflexivity.
  Qed.

  Variable n : nat.
  Hypothesis Hseq : forall l, (length l <= n)%nat -> A l = seq_sum R l.
  Variable u : Qc.
  Hypothesis Hrel : rel_error R u.
  Notation B k := ((1 + u) ^ k).
  Notation E_n := (E_r n u).
  Definition E_f : Qc := qnat (n + 2) * (u * B (n + 3)).
  Lemma E_f_eq : E_f = E_n * (1 + u).
  Proof. unfold E_f, E_r. replace (n + 3)%nat with (Datatypes.S (n + 2)) by lia. rewrite (B_S u). ring. Qed.
  Lemma E_f_ge : E_n <= E_f.
  Proof.
    rewrite E_f_eq. pose proof (E_r_nonneg R n u Hrel) as E0. pose proof (u_nonneg R u Hrel) as U. pose proof (qmult_nonneg _ _ E0 U).
    replace (E_n * (1 + u)) with (E_n + E_n * u) by ring. qlra.
  Qed.
  Lemma E_f_u : u <= E_n.
  Proof.
    unfold E_r. pose proof (u_nonneg R u Hrel) as U. pose proof (B_ge1 R u Hrel (n + 2)) as B1.
    replace (n + 2)%nat with (Datatypes.S (n + 1)) at 1 by lia. rewrite qnat_S.
    pose proof (qnat_pos (n + 1) ltac:(lia)) as K.
    assert (M : u <= u * B (n + 2)) by (pose proof (qmult_le_l _ _ _ U B1) as M; rewrite Qcmult_1_r in M; exact M).
    pose proof (qmult_nonneg _ _ (ltac:(qlra) : 0 <= qnat (n + 1)) (ltac:(qlra) : 0 <= u * B (n + 2))).
    replace ((qnat (n + 1) + 1) * (u * B (n + 2))) with (qnat (n + 1) * (u * B (n + 2)) + u * B (n + 2)) by ring. qlra.
  Qed.

  Section One.
    Variables (side : bool) (L pre : df) (r : row) (post : df) (q : Qc) (Q p W : Qc).
    Hypothesis C : CutR R A L Q pre r post q.
    Hypothesis Ln : (length L + 1 <= n)%nat.
    Hypothesis H : forall x, In x L -> (0 <= qty x /\ machine R (qty x)) /\ buying x = side /\ 0 <= gain p x /\ gain p x <= W.
    Hypothesis HW : 0 <= W.
    Hypothesis HQ : 0 < Q.
    Hypothesis HQL : Q <= A (map qty L).
    Let w := pre ++ [with_qty r q].
    Let T := qsumf qty L.
    Lemma w_near : near (qsumf qty w) Q (E_n * T).
    Proof.
      pose proof (cut_near R A n Hseq u Hrel L Q pre r post q C ltac:(lia) (fun x Hx => proj1 (H x Hx)) HQ HQL) as N.
      apply (near_weaken _ _ _ _ N). apply qmult_le_r; [apply qsumf_nonneg; intros; apply H; assumption | apply (E_r_pos R n u Hrel)].
    Qed.
    Lemma q_nonneg : 0 <= q.
    Proof. exact (cut_nonneg R A n Hseq L Q pre r post q C ltac:(lia) (fun x Hx => proj1 (H x Hx)) HQ HQL). Qed.
    Lemma q_machine : machine R q.
    Proof.
      destruct C as (E & [[-> _]|[-> _]] & _); [apply rnd_machine|]. apply H. rewrite E. apply in_or_app. right; left; reflexivity.
    Qed.
    Lemma r_in : In r L.
    Proof. destruct C as (-> & _). apply in_or_app. right; left; reflexivity. Qed.
    Lemma one_T : 0 <= T /\ qty r <= T.
    Proof.
      assert (N : 0 <= T) by (apply qsumf_nonneg; intros; apply H; assumption). split; [exact N|].
      unfold T. destruct C as (E & _). rewrite E, qsumf_app, qsumf_cons.
      assert (0 <= qsumf qty pre) by (apply qsumf_nonneg; intros x Hx; apply H; rewrite E; apply in_or_app; left; exact Hx).
      assert (0 <= qsumf qty post) by (apply qsumf_nonneg; intros x Hx; apply H; rewrite E; apply in_or_app; right; right; exact Hx). qlra.
    Qed.
    Lemma rest_all x : In x (w ++ leftover_r r q post) -> (0 <= qty x /\ machine R (qty x)) /\ buying x = side /\ 0 <= gain p x /\ gain p x <= W.
    Proof.
      intro Hx. pose proof (cut_le _ _ _ _ _ _ _ _ C) as Lq. pose proof (H r r_in) as (_ & Hb & Hg).
      unfold w in Hx. rewrite <- app_assoc in Hx. destruct C as (E & _). apply in_app_or in Hx.
      destruct Hx as [Hx|[<-|Hx]]; [apply H; rewrite E; apply in_or_app; left; exact Hx|..].
      - split; [split; [exact q_nonneg | exact q_machine]|]. split; [exact Hb | exact Hg].
      - unfold leftover_r in Hx. destruct (qlt_spec q (qty r)) as [T1|T1]; [destruct Hx as [<-|Hx]|].
        + split; [split; [cbn [with_qty qty]; apply rnd_nonneg; qlra | apply rnd_machine]|]. split; [exact Hb | exact Hg].
        + apply H. rewrite E. apply in_or_app. right; right; exact Hx.
        + apply H. rewrite E. apply in_or_app. right; right; exact Hx.
    Qed.
    Lemma cut_part : q < qty r -> near (q + R (qty r - q)) (qty r) (u * T).
    Proof.
      intro T1. destruct (rnd_near_pos R u Hrel (qty r - q) ltac:(qlra)) as [R1 R2]. pose proof q_nonneg. pose proof one_T as [_ T2].
      pose proof (qmult_le_l u (qty r - q) T (u_nonneg R u Hrel) ltac:(qlra)). split; qlra.
    Qed.
    Lemma rest_sum : qsumf qty (w ++ leftover_r r q post) <= (1 + u) * T.
    Proof.
      pose proof one_T as [T0 T2]. pose proof (qmult_nonneg _ _ (u_nonneg R u Hrel) T0) as UT. replace ((1 + u) * T) with (T + u * T) by ring.
      pose proof (cut_le _ _ _ _ _ _ _ _ C) as Lq.
      assert (ET : T = qsumf qty pre + (qty r + qsumf qty post)) by (unfold T; destruct C as (E & _); rewrite E, qsumf_app, qsumf_cons; reflexivity).
      unfold w, leftover_r. rewrite !qsumf_app, qsumf_cons, qsumf_nil. cbn [with_qty qty].
      destruct (qlt_spec q (qty r)) as [T1|T1].
      - rewrite qsumf_cons. cbn [with_qty qty]. destruct (cut_part T1). qlra.
      - qlra.
    Qed.
    Lemma oth_rest v : near (fillsum qty (gain p) Q (oth v (w ++ leftover_r r q post))) (fillsum qty (gain p) Q (oth v L)) (u * T * W).
    Proof.
      pose proof one_T as [T0 T2]. pose proof (qmult_nonneg _ _ (u_nonneg R u Hrel) T0) as UT.
      pose proof (H r r_in) as (Hr & Hb & Hg). pose proof q_nonneg as q0. pose proof (cut_le _ _ _ _ _ _ _ _ C) as Lq.
      assert (Z0 : 0 <= u * T * W) by (apply qmult_nonneg; assumption).
      assert (EL : L = pre ++ r :: post) by apply C. unfold w. rewrite <- app_assoc. cbn [app].
      assert (Hpre : forall x, In x (oth v pre) -> In x L) by (intros x Hx; apply (oth_in v) in Hx; rewrite EL; apply in_or_app; left; apply Hx).
      assert (Hpost : forall x, In x (oth v post) -> In x L) by (intros x Hx; apply (oth_in v) in Hx; rewrite EL; apply in_or_app; right; right; apply Hx).
      assert (Q0 : 0 <= Q) by qlra.
      unfold leftover_r. destruct (qlt_spec q (qty r)) as [T1|T1].
      - rewrite EL, !oth_app. unfold not_by at 2 4. cbn [filter with_qty user]. destruct (Z.eqb (user r) v) eqn:Ev; cbn [negb].
        + apply near_self, Z0.
        + fold (oth v post). set (r1 := with_qty r q). set (r2 := with_qty r (R (qty r - q))). set (r' := with_qty r (q + R (qty r - q))).
          assert (Rn : 0 <= R (qty r - q)) by (apply rnd_nonneg; qlra).
          rewrite <- (fill_cut qty (gain p) Q (oth v pre) r' r1 r2 (oth v post)).
          * apply (fill_row qty (gain p) W (oth v pre) r' r (oth v post) Q (u * T)).
            -- intros x Hx. apply in_app_or in Hx. destruct Hx as [Hx|[<-|[<-|Hx]]]; [apply H, Hpre, Hx | cbn [r' with_qty qty]; qlra | apply Hr | apply H, Hpost, Hx].
            -- intros x [<-|Hx]; [exact Hg | apply H, Hpost, Hx].
            -- exact HW.
            -- reflexivity.
            -- exact Q0.
            -- apply cut_part, T1.
          * intros x Hx. apply in_app_or in Hx. destruct Hx as [Hx|[<-|[<-|[<-|[]]]]]; [apply H, Hpre, Hx | cbn [r' with_qty qty]; qlra | exact q0 | exact Rn].
          * reflexivity.
          * reflexivity.
          * reflexivity.
          * exact Q0.
      - replace q with (qty r) by qlra. rewrite with_qty_same, EL. apply near_self, Z0.
    Qed.
    Lemma fee_r_cut v :
      near (compute_fee_r R A (indexed (w ++ leftover_r r q post)) (length pre) v Q p)
           (fillsum qty (gain p) Q (oth v L) - qsumf (fun x => gain p x * qty x) (oth v w)) (qz 5 * (E_f * T * W)).
    Proof.
      pose proof one_T as [T0 T2]. pose proof (E_r_nonneg R n u Hrel) as E0.
      assert (Hw : w <> []) by (unfold w; destruct pre; discriminate).
      assert (Lw : (length w - 1)%nat = length pre) by (unfold w; rewrite app_length; simpl; lia).
      assert (Ll : (length (w ++ leftover_r r q post) <= n)%nat).
      { assert (EL : L = pre ++ r :: post) by apply C. rewrite EL, app_length in Ln. unfold w, leftover_r. rewrite !app_length. cbn [length] in *.
        destruct (qltb q (qty r)); cbn [length]; lia. }
      pose proof (fee_r_near R A n Hseq u Hrel side w (leftover_r r q post) v Q p W (E_n * T) Hw Ll rest_all HW HQ w_near) as N1.
      rewrite Lw in N1. pose proof (oth_rest v) as [O1 O2].
      assert (P1 : E_n * qsumf qty (w ++ leftover_r r q post) <= E_f * T).
      { rewrite E_f_eq. replace (E_n * (1 + u) * T) with (E_n * ((1 + u) * T)) by ring. apply qmult_le_l; [exact E0 | exact rest_sum]. }
      assert (P2 : E_n * T <= E_f * T) by (apply qmult_le_r; [exact T0 | exact E_f_ge]).
      assert (P3 : u * T <= E_f * T) by (apply qmult_le_r; [exact T0|]; pose proof E_f_u; pose proof E_f_ge; qlra).
      rewrite q3 in N1. rewrite q5.
      set (a := E_n * qsumf qty (w ++ leftover_r r q post)) in *.
      pose proof (qmult_le_r _ _ _ HW P1) as M1. pose proof (qmult_le_r _ _ _ HW P2) as M2. pose proof (qmult_le_r _ _ _ HW P3) as M3.
      replace ((a + a + a + E_n * T) * W) with (a * W + a * W + a * W + E_n * T * W) in N1 by ring.
      destruct N1 as [N1 N2]. split; qlra.
    Qed.
    (** the gain of the winners *)
    Lemma won_gain : near (qsumf (fun x => gain p x * qty x) w) (fillsum qty (gain p) Q L) (E_f * T * W).
    Proof.
      pose proof one_T as [T0 T2]. pose proof q_nonneg as q0. pose proof (cut_le _ _ _ _ _ _ _ _ C) as Lq. assert (EL : L = pre ++ r :: post) by apply C.
      assert (Hq : forall x, In x L -> 0 <= qty x) by (intros x Hx; apply H, Hx).
      assert (Ep : 0 <= qsumf qty pre) by (apply qsumf_nonneg; intros x Hx; apply Hq; rewrite EL; apply in_or_app; left; exact Hx).
      assert (Ew : qsumf qty w = qsumf qty pre + q) by (unfold w; rewrite qsumf_app, qsumf_cons, qsumf_nil; cbn [with_qty qty]; ring).
      assert (F : qsumf (fun x => gain p x * qty x) w = fillsum qty (gain p) (qsumf qty w) L).
      { rewrite Ew. rewrite EL, fill_stop.
        - unfold w. rewrite qsumf_app, qsumf_cons, qsumf_nil. change (gain p (with_qty r q) * qty (with_qty r q)) with (gain p r * q).
          replace (qsumf qty pre + q - qsumf qty pre) with q by ring. ring.
        - rewrite <- EL. exact Hq.
        - qlra.
        - qlra. }
      rewrite F. assert (P2 : E_n * T <= E_f * T) by (apply qmult_le_r; [exact T0 | exact E_f_ge]).
      apply fill_near; auto; [intros x Hx; apply H, Hx | qlra | qlra |]. apply (near_weaken _ _ _ _ w_near P2).
    Qed.
  End One.
End Cut.

(** ** Charging *)
Lemma charge_r_fees R A ls li Q p us : (forall u, In u us -> (0 <= u)%Z) -> forall fees fees', charge_users_r R A ls li Q p us fees = Ok fees' ->
  (forall u, In u us -> fee_of fees' u = compute_fee_r R A (indexed ls) li u Q p) /\
  (forall u, (0 <= u)%Z -> ~ In u us -> fee_of fees' u = fee_of fees u).
Proof.
  induction us as [|v us IH]; intros Hu fees fees' E; cbn [charge_users_r] in E.
  - injection E as <-. split; [intros ? [] | reflexivity].
  - destruct (set_fee fees v _) as [f1|] eqn:E1; [|discriminate]. cbn [bind] in E.
    assert (Hv : (0 <= v)%Z) by (apply Hu; left; reflexivity).
    apply set_fee_inv in E1; [|exact Hv]. destruct E1 as [Lv ->].
    destruct (IH (fun u H => Hu u (or_intror H)) _ _ E) as (I2 & I3). split.
    + intros u Hin. destruct (in_dec Z.eq_dec u us) as [Hi|Hi]; [apply I2, Hi|].
      destruct Hin as [<-|Hin]; [|contradiction]. rewrite I3 by assumption. unfold fee_of. apply set_nth_same. lia.
    + intros u Hu0 Hn. rewrite I3; [|exact Hu0 | intro; apply Hn; right; assumption]. unfold fee_of. apply set_nth_other.
      intro Eq. apply Hn. left. lia.
Qed.
