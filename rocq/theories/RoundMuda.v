(** Facts about MUDA in rounded arithmetic. *)
From Verif Require Import QcTac Num NumFacts ModelBase ModelCurves ModelHuang ModelMuda ModelRound ListFacts StoreFacts
  Spec SpecTrade SpecMuda SpecRound FillFacts CurveFacts IntersectFacts TradeFacts Sorter MudaSide MudaHalf MudaFacts MudaErrors
  MergeFacts UpdateFacts RoundFacts RoundHuang RoundError.

Lemma first_true_bound l k : first_true l = Some k -> (k < length l)%nat.
Proof.
  revert k; induction l as [|b l IH]; intros k H; [discriminate|]. cbn [first_true] in H. destruct b; [injection H as <-; simpl; lia|].
  destruct (first_true l) as [m|] eqn:E; [|discriminate]. injection H as <-. specialize (IH m eq_refl). simpl. lia.
Qed.
Lemma argmax_bool_bound l : l <> [] -> (argmax_bool l < length l)%nat.
Proof.
  intro H. unfold argmax_bool. destruct (first_true l) as [k|] eqn:E; [apply first_true_bound, E|].
  destruct l; [congruence | simpl; lia].
Qed.

Section Side.
  Variables (R : rounding) (A : adder R) (S : sorter).

  (** ** Cutting one side *)
  Definition CutR (L : df) (Q : Qc) (pre : df) (r : row) (post : df) (q : Qc) : Prop :=
    L = pre ++ r :: post /\
    (q = R (Q - A (map qty pre)) /\ q < qty r \/ q = qty r /\ qty r <= R (Q - A (map qty pre))) /\
    length pre = (if qltb Q (A (map qty L)) then argmax_bool (map (fun c => qleb Q c) (cumsum_r R (map qty L))) else (length L - 1)%nat).
  Lemma cut_le L Q pre r post q : CutR L Q pre r post q -> q <= qty r.
  Proof. intros (_ & [[_ H]|[-> _]] & _); qlra. Qed.
  Lemma trading_r_cut L Q : L <> [] -> exists pre r post q rest, CutR L Q pre r post q /\
    get_trading_bids_r R A L Q = Ok ((pre ++ [with_qty r q]) ++ rest, length pre).
  Proof.
    intro Hne. unfold get_trading_bids_r, CutR.
    set (k := if qltb Q (A (map qty L)) then _ else _).
    assert (Lk : (k < length L)%nat).
    { unfold k. destruct (qltb Q (A (map qty L))).
      - match goal with |- (argmax_bool ?l < _)%nat => pose proof (argmax_bool_bound l) as H end.
        rewrite map_length in H. unfold cumsum_r in H. rewrite cumsum_from_r_length, map_length in H. apply H.
        intro E. apply (f_equal (@length bool)) in E. rewrite map_length, cumsum_from_r_length, map_length in E. destruct L; [congruence | discriminate].
      - destruct L; [congruence | simpl; lia]. }
    destruct (nth_error L k) as [r|] eqn:E; [|apply nth_error_None in E; lia].
    assert (Hk : length (firstn k L) = k) by (apply firstn_length_le; lia).
    destruct (qlt_spec (R (Q - A (map qty (firstn k L)))) (qty r)) as [T|T].
    - exists (firstn k L), r, (skipn (Datatypes.S k) L), (R (Q - A (map qty (firstn k L)))).
      eexists (with_qty r (R (qty r - R (Q - A (map qty (firstn k L))))) :: skipn (Datatypes.S k) L).
      split; [split; [apply split_at, E | split; [left; split; [reflexivity | exact T] | exact Hk]]|].
      rewrite Hk, <- app_assoc. reflexivity.
    - exists (firstn k L), r, (skipn (Datatypes.S k) L), (qty r), (skipn (Datatypes.S k) L).
      split; [split; [apply split_at, E | split; [right; split; [reflexivity | exact T] | exact Hk]]|].
      rewrite Hk, with_qty_same, <- app_assoc. cbn [app]. rewrite <- (split_at L k r E). reflexivity.
  Qed.

  (** ** One half *)
  Variables (h : df) (p : num).
  Definition side_r (b : bool) : df :=
    if b then s_desc S (filter (fun r => nleb p (Fin (price r))) (buyers h))
    else s_asc S (filter (fun r => nleb (Fin (price r)) p) (sellers h)).
  Lemma side_r_in b r : In r (side_r b) -> In r h /\ buying r = b /\ (if b then nle p (Fin (price r)) else nle (Fin (price r)) p).
  Proof.
    unfold side_r. destruct b; intro H;
    [apply (Permutation_in _ (s_desc_perm S _)) in H | apply (Permutation_in _ (s_asc_perm S _)) in H];
    apply filter_In in H; destruct H as [H1 H2]; apply filter_In in H1; destruct H1 as [H1 H3]; split; auto; split; auto.
    apply negb_true_iff, H3.
  Qed.
  Lemma side_r_unique b : labels_unique h -> NoDup (map lbl (side_r b)).
  Proof.
    intro Hu. unfold side_r. destruct b.
    - apply (NoDup_perm_map lbl _ _ (Permutation_sym (s_desc_perm S _))). apply NoDup_filter_map, NoDup_filter_map, Hu.
    - apply (NoDup_perm_map lbl _ _ (Permutation_sym (s_asc_perm S _))). apply NoDup_filter_map, NoDup_filter_map, Hu.
  Qed.
  Hypothesis Hq : qty_nonneg h.
  Definition total_r : Qc := if qltb (A (map qty (side_r true))) (A (map qty (side_r false))) then A (map qty (side_r true)) else A (map qty (side_r false)).
  Definition won_r (pre : df) (r : row) (q : Qc) : df := pre ++ [with_qty r q].

  Inductive SolveR (fees : list Qc) : res (transmgr * list Qc) -> Prop :=
  | SR_none : SolveR fees (Ok (tm_init, fees))
  | SR_trade pr b preB rB postB qB preS rS postS qS tm rest li :
      p = Fin pr -> 0 < total_r ->
      CutR (side_r true) total_r preB rB postB qB -> CutR (side_r false) total_r preS rS postS qS ->
      Permutation (tm_trans tm) (map (mk pr) (won_r preB rB qB ++ won_r preS rS qS)) ->
      SolveR fees (fees' <- charge_users_r R A rest li total_r pr
                     (uniqueZ (map user (if b : bool then won_r preB rB qB else won_r preS rS qS))) fees ;; Ok (tm, fees')).

  Lemma sum_nil_zero : A [] = 0.
  Proof. apply (sums_zero R _ _ (asum_ok R A [])). intros ? []. Qed.
  Lemma side_nil : (forall q, p <> Fin q) -> exists b, side_r b = [].
  Proof.
    intro Hp. assert (N : forall b, (forall r, ~ In r (side_r b)) -> exists b, side_r b = []).
    { intros b' H. exists b'. destruct (side_r b') as [|x l]; [reflexivity|]. exfalso. apply (H x). left; reflexivity. }
    assert (C : (exists q, p = Fin q) \/ p = PInf \/ p = NInf \/ p = NaN) by (destruct p; eauto).
    destruct C as [[q E]|[E|[E|E]]].
    - exfalso. exact (Hp q E).
    - apply (N true). intros r Hr. apply side_r_in in Hr. destruct Hr as (_ & _ & Hr). rewrite E in Hr. discriminate.
    - apply (N false). intros r Hr. apply side_r_in in Hr. destruct Hr as (_ & _ & Hr). rewrite E in Hr. discriminate.
    - apply (N true). intros r Hr. apply side_r_in in Hr. destruct Hr as (_ & _ & Hr). rewrite E in Hr. discriminate.
  Qed.
  Lemma side_sum_nonneg b : 0 <= A (map qty (side_r b)).
  Proof.
    apply (sums_nonneg R _ _ (asum_ok R A _)). intros x Hx. apply in_map_iff in Hx. destruct Hx as (r & <- & Hr). apply Hq. apply side_r_in in Hr. tauto.
  Qed.
  Lemma total_le b : total_r <= A (map qty (side_r b)).
  Proof. unfold total_r. destruct (qlt_spec (A (map qty (side_r true))) (A (map qty (side_r false)))), b; qlra. Qed.

  Theorem solve_r_cases fees : SolveR fees (solve_market_side_r R A S h p fees).
  Proof.
    unfold solve_market_side_r.
    destruct (buyers h) as [|b0 bs] eqn:Eb; [apply SR_none|]. destruct (sellers h) as [|s0 ss] eqn:Es; [apply SR_none|].
    rewrite <- Eb, <- Es. change (s_desc S (filter _ (buyers h))) with (side_r true). change (s_asc S (filter _ (sellers h))) with (side_r false).
    cbv zeta. change (if qltb (A (map qty (side_r true))) (A (map qty (side_r false))) then A (map qty (side_r true)) else A (map qty (side_r false))) with total_r.
    destruct (qlt_spec 0 total_r) as [L|L]; [|apply SR_none].
    assert (Ne : forall b, side_r b <> []).
    { intros b E. pose proof (total_le b) as T. rewrite E in T. simpl map in T. rewrite sum_nil_zero in T. qlra. }
    assert (Fp : exists pr, p = Fin pr).
    { destruct p as [pr| | |] eqn:Ep; [eauto|..]; exfalso; (destruct side_nil as (b & E); [intro q; rewrite Ep; discriminate | exact (Ne b E)]). }
    destruct Fp as (pr & Ep). rewrite Ep at 1.
    destruct (trading_r_cut (side_r true) total_r (Ne true)) as (preB & rB & postB & qB & restB & CB & EB).
    destruct (trading_r_cut (side_r false) total_r (Ne false)) as (preS & rS & postS & qS & restS & CS & ES).
    destruct (qltb (A (map qty (side_r true))) (A (map qty (side_r false)))).
    - rewrite ES. cbn [bind]. rewrite EB. cbn [bind]. rewrite !firstn_win.
      refine (SR_trade fees pr false preB rB postB qB preS rS postS qS _ _ _ Ep L CB CS _).
      rewrite !add_all_trans. cbn [tm_trans tm_init app]. rewrite (map_app (mk pr) (won_r preB rB qB)). apply Permutation_refl.
    - rewrite EB. cbn [bind]. rewrite ES. cbn [bind]. rewrite !firstn_win.
      refine (SR_trade fees pr true preB rB postB qB preS rS postS qS _ _ _ Ep L CB CS _).
      rewrite !add_all_trans. cbn [tm_trans tm_init app]. rewrite (map_app (mk pr) (won_r preB rB qB)). apply Permutation_app_comm.
  Qed.
End Side.

(** ** Charging *)
Section Charge.
  Variables (R : rounding) (A : adder R).
  Lemma fee_r_nonneg ls li u Q p : 0 <= compute_fee_r R A ls li u Q p.
  Proof. unfold compute_fee_r. destruct (filter _ ls); [qlra | apply qabs_nonneg]. Qed.
  Lemma set_nth_all (P : Qc -> Prop) i v l : P v -> (forall x, In x l -> P x) -> forall x, In x (set_nth i v l) -> P x.
  Proof.
    intros Hv. revert i. induction l as [|y l IH]; intros [|i] H x Hx; simpl in Hx; try contradiction.
    - destruct Hx as [<-|Hx]; [exact Hv | apply H; right; exact Hx].
    - destruct Hx as [<-|Hx]; [apply H; left; reflexivity | apply (IH i); [intros; apply H; right; assumption | exact Hx]].
  Qed.
  Lemma charge_r_spec ls li Q p us : forall fees fees', charge_users_r R A ls li Q p us fees = Ok fees' ->
    length fees' = length fees /\ ((forall x, In x fees -> 0 <= x) -> forall x, In x fees' -> 0 <= x).
  Proof.
    induction us as [|v us IH]; intros fees fees' E; simpl in E.
    - injection E as <-. auto.
    - unfold set_fee in E. pose proof (fee_r_nonneg (indexed ls) li v Q p) as F.
      destruct (_ && _); [|destruct (_ && _); [|discriminate]]; cbn [bind] in E; destruct (IH _ _ E) as [I1 I2]; rewrite set_nth_length in I1;
      (split; [exact I1|]; intro H; apply I2; apply (set_nth_all (fun x => 0 <= x)); assumption).
  Qed.
  Lemma charge_r_ok ls li Q p us : forall fees, (forall u, In u us -> (0 <= u)%Z /\ (u < Z.of_nat (length fees))%Z) ->
    exists fees', charge_users_r R A ls li Q p us fees = Ok fees'.
  Proof.
    induction us as [|v us IH]; intros fees H; simpl; [eauto|].
    rewrite set_fee_ok by (apply H; left; reflexivity). simpl. apply IH. intros u Hu. rewrite set_nth_length. apply H. right; exact Hu.
  Qed.
  Lemma charge_r_err ls li Q p us e : forall fees, charge_users_r R A ls li Q p us fees = Err e -> e = IndexError.
  Proof.
    induction us as [|v us IH]; intros fees H; simpl in H; [discriminate|].
    destruct (set_fee fees v _) as [f1|e1] eqn:E1; simpl in H; [eapply IH, H|]. injection H as <-. apply set_fee_err in E1. exact E1.
  Qed.
End Charge.

(** ** What holds for the transactions of one half, whatever the rounding *)
Record HalfR (h : df) (p : num) (tl : list trans) : Prop := mkHalfR {
  hr_refer : refer h tl;
  hr_once : once tl;
  hr_le : forall t r, In t tl -> In r h -> lbl r = t_bid t -> t_qty t <= qty r;
  hr_rational : rational h tl;
  hr_const : forall t, In t tl -> p = Fin (t_price t) /\ t_source t = (-1)%Z /\ t_active t = false }.

Section Half.
  Variables (R : rounding) (A : adder R) (S : sorter) (h : df) (p : num).
  Hypothesis Hq : qty_nonneg h.
  Hypothesis Hu : labels_unique h.
  Lemma won_row L Q pre r post q y : CutR R A L Q pre r post q -> In y (won_r pre r q) ->
    exists x, In x L /\ lbl x = lbl y /\ qty y <= qty x /\ user x = user y.
  Proof.
    intros C Hy. pose proof (cut_le _ _ _ _ _ _ _ _ C) as Lq. destruct C as (-> & _). unfold won_r in Hy. apply in_app_or in Hy. destruct Hy as [Hy|[<-|[]]].
    - exists y. split; [apply in_or_app; left; exact Hy|]. split; [reflexivity|]. split; [qlra | reflexivity].
    - exists r. split; [apply in_or_app; right; left; reflexivity|]. simpl. auto.
  Qed.
  Lemma won_labels L Q pre r post q : CutR R A L Q pre r post q -> NoDup (map lbl L) -> NoDup (map lbl (won_r pre r q)).
  Proof.
    intros (-> & _) H. unfold won_r.
    assert (Em : map lbl (pre ++ r :: post) = map lbl (pre ++ [with_qty r q]) ++ map lbl post).
    { rewrite !map_app, <- app_assoc. reflexivity. }
    rewrite Em in H. revert H. generalize (map lbl (pre ++ [with_qty r q])) as l. clear.
    induction l as [|i l IH]; intro H; [constructor|]. inversion_clear H as [|? ? H1 H2]. constructor; [|apply IH, H2].
    intro I. apply H1, in_or_app. left; exact I.
  Qed.
  Lemma half_empty : HalfR h p [].
  Proof.
    constructor; [intros ? [] | constructor | intros ? ? [] | intros ? ? [] | intros ? []].
  Qed.
  Theorem half_r fees tm fees' : solve_market_side_r R A S h p fees = Ok (tm, fees') -> HalfR h p (tm_trans tm).
  Proof.
    intro E. pose proof (solve_r_cases R A S h p fees) as C. rewrite E in C.
    inversion C as [|pr b preB rB postB qB preS rS postS qS tm' rest li Ep HQ CB CS P E1]; [apply half_empty|].
    destruct (charge_users_r _ _ _ _ _ _ _ _) as [f|]; [|discriminate]. cbn [bind] in E1. injection E1 as -> ->.
    set (w := won_r preB rB qB ++ won_r preS rS qS) in *.
    assert (Row : forall t, In t (tm_trans tm) -> exists x b, In x (side_r S h p b) /\ lbl x = t_bid t /\ t_qty t <= qty x /\ t_price t = pr /\
              t_source t = (-1)%Z /\ t_active t = false).
    { intros t Ht. apply (Permutation_in _ P) in Ht. apply in_map_iff in Ht. destruct Ht as (y & <- & Hy). unfold w in Hy. apply in_app_or in Hy.
      destruct Hy as [Hy|Hy]; [destruct (won_row _ _ _ _ _ _ _ CB Hy) as (x & H1 & H2 & H3 & _); exists x, true | destruct (won_row _ _ _ _ _ _ _ CS Hy) as (x & H1 & H2 & H3 & _); exists x, false]; simpl; auto 10. }
    constructor.
    - intros t Ht. destruct (Row t Ht) as (x & b' & H1 & H2 & _). exists x. apply side_r_in in H1. tauto.
    - unfold once. apply (NoDup_perm_map t_bid _ _ (Permutation_sym P)). rewrite map_map. simpl. change (fun x => lbl x) with lbl.
      unfold w. rewrite map_app. apply NoDup_app_intro.
      + apply (won_labels _ _ _ _ _ _ CB), side_r_unique, Hu.
      + apply (won_labels _ _ _ _ _ _ CS), side_r_unique, Hu.
      + intros i Hi Hj. apply in_map_iff in Hi, Hj. destruct Hi as (y & <- & Hy), Hj as (z & Ez & Hz).
        destruct (won_row _ _ _ _ _ _ _ CB Hy) as (x & H1 & H2 & _), (won_row _ _ _ _ _ _ _ CS Hz) as (x' & H1' & H2' & _).
        apply side_r_in in H1, H1'. destruct H1 as (D1 & B1 & _), H1' as (D2 & B2 & _).
        assert (x = x') by (apply (NoDup_map_in lbl h); auto; congruence). congruence.
    - intros t r Ht Hr El. destruct (Row t Ht) as (x & b' & H1 & H2 & H3 & _). apply side_r_in in H1.
      assert (x = r) by (apply (NoDup_map_in lbl h); try tauto; congruence). subst x. exact H3.
    - intros t r Ht Hr El. destruct (Row t Ht) as (x & b' & H1 & H2 & _ & H3 & _). apply side_r_in in H1. destruct H1 as (D1 & B1 & N1).
      assert (x = r) by (apply (NoDup_map_in lbl h); auto; congruence). subst x. rewrite B1, H3. rewrite Ep in N1. destruct b'; apply nle_Fin, N1.
    - intros t Ht. destruct (Row t Ht) as (x & b' & _ & _ & _ & H3 & H4 & H5). rewrite H3. auto.
  Qed.
  Lemma half_r_fees fees tm fees' : solve_market_side_r R A S h p fees = Ok (tm, fees') ->
    length fees' = length fees /\ ((forall x, In x fees -> 0 <= x) -> forall x, In x fees' -> 0 <= x).
  Proof.
    intro E. pose proof (solve_r_cases R A S h p fees) as C. rewrite E in C.
    inversion C as [|pr b preB rB postB qB preS rS postS qS tm' rest li Ep HQ CB CS P E1]; [auto|].
    destruct (charge_users_r _ _ _ _ _ _ _ _) as [f|] eqn:Ec; [|discriminate]. cbn [bind] in E1. injection E1 as -> ->.
    exact (charge_r_spec _ _ _ _ _ _ _ _ _ Ec).
  Qed.
  Lemma half_r_err fees e : solve_market_side_r R A S h p fees = Err e -> e = IndexError.
  Proof.
    intro E. pose proof (solve_r_cases R A S h p fees) as C. rewrite E in C.
    inversion C as [|pr b preB rB postB qB preS rS postS qS tm' rest li Ep HQ CB CS P E1].
    destruct (charge_users_r _ _ _ _ _ _ _ _) as [f|e'] eqn:Ec; [discriminate|]. cbn [bind] in E1. injection E1 as ->.
    exact (charge_r_err _ _ _ _ _ _ _ _ _ Ec).
  Qed.
  Lemma half_r_total fees : (forall r, In r h -> (0 <= user r)%Z /\ (user r < Z.of_nat (length fees))%Z) ->
    exists tm fees', solve_market_side_r R A S h p fees = Ok (tm, fees').
  Proof.
    intro H. pose proof (solve_r_cases R A S h p fees) as C.
    inversion C as [E1|pr b preB rB postB qB preS rS postS qS tm' rest li Ep HQ CB CS P E1]; [eauto|].
    destruct (charge_r_ok R A rest li (total_r R A S h p) pr (uniqueZ (map user (if b then won_r preB rB qB else won_r preS rS qS))) fees) as (f & ->); [|cbn [bind]; eauto].
    intros u Hv. apply (proj1 (uniqueZ_In _ _)) in Hv. apply in_map_iff in Hv. destruct Hv as (y & <- & Hy). destruct b.
    - destruct (won_row _ _ _ _ _ _ _ CB Hy) as (x & H1 & _ & _ & <-). apply H. apply side_r_in in H1. tauto.
    - destruct (won_row _ _ _ _ _ _ _ CS Hy) as (x & H1 & _ & _ & <-). apply H. apply side_r_in in H1. tauto.
  Qed.
End Half.

(** ** Sums from left to right *)
Section Seq.
  Variables (R : rounding).
  Lemma seq_snoc l x : seq_sum R (l ++ [x]) = R (seq_sum R l + x).
  Proof. unfold seq_sum. rewrite fold_left_app. reflexivity. Qed.
  Lemma cumsum_first l : forall a Q, a < Q -> Q <= fold_left (fun a x => R (a + x)) l a ->
    let k := argmax_bool (map (fun c => qleb Q c) (cumsum_from_r R a l)) in
    (k < length l)%nat /\ fold_left (fun a x => R (a + x)) (firstn k l) a < Q /\ Q <= fold_left (fun a x => R (a + x)) (firstn (Datatypes.S k) l) a.
  Proof.
    assert (T : forall l a Q, a < Q -> Q <= fold_left (fun a x => R (a + x)) l a ->
      exists k, first_true (map (fun c => qleb Q c) (cumsum_from_r R a l)) = Some k /\ (k < length l)%nat /\
        fold_left (fun a x => R (a + x)) (firstn k l) a < Q /\ Q <= fold_left (fun a x => R (a + x)) (firstn (Datatypes.S k) l) a).
    { clear l. induction l as [|x l IH]; intros a Q H1 H2; [simpl in H2; exfalso; qlra|]. cbn [cumsum_from_r map first_true].
      destruct (qle_spec Q (R (a + x))) as [L|L].
      - exists 0%nat. split; [reflexivity|]. simpl. split; [lia|]. split; assumption.
      - destruct (IH (R (a + x)) Q L H2) as (k & E & K1 & K2 & K3). exists (Datatypes.S k). rewrite E. split; [reflexivity|].
        split; [simpl; lia|]. split; assumption. }
    intros a Q H1 H2. destruct (T l a Q H1 H2) as (k & E & K). unfold argmax_bool. rewrite E. exact K.
  Qed.
  Lemma seq_mono l l' : (forall x, In x (l ++ l') -> 0 <= x /\ machine R x) -> seq_sum R l <= seq_sum R (l ++ l').
  Proof.
    revert l. induction l' as [|y l' IH] using rev_ind; intros l H; [rewrite app_nil_r; qlra|].
    rewrite app_assoc, seq_snoc. assert (H' : forall x, In x (l ++ l') -> 0 <= x /\ machine R x).
    { intros x Hx. apply H. rewrite app_assoc. apply in_or_app. left; exact Hx. }
    specialize (IH l H'). apply Qcle_trans with (seq_sum R (l ++ l')); [exact IH|]. apply rnd_ge.
    - apply (sums_machine R _ _ (seq_sum_ok R _)). intros; apply H'; assumption.
    - destruct (H y) as [Y _]; [rewrite !in_app_iff; simpl; tauto|]. qlra.
  Qed.

  Variables (A : adder R) (n : nat).
  Hypothesis Hseq : forall l, (length l <= n)%nat -> A l = seq_sum R l.
  Lemma cut_seq L Q pre r post q : CutR R A L Q pre r post q -> (length L <= n)%nat ->
    (forall x, In x L -> 0 <= qty x /\ machine R (qty x)) -> 0 < Q -> Q <= A (map qty L) ->
    let s := seq_sum R (map qty pre) in s <= Q /\ Q <= R (s + qty r).
  Proof.
    intros (EL & _ & Ek) Ln H Q0 Q1. cbv zeta.
    assert (Hm : forall x, In x (map qty L) -> 0 <= x /\ machine R x) by (intros x Hx; apply in_map_iff in Hx; destruct Hx as (y & <- & Hy); apply H, Hy).
    rewrite Hseq in * by (rewrite map_length; exact Ln).
    assert (F1 : firstn (length pre) (map qty L) = map qty pre).
    { rewrite EL, map_app, firstn_app, map_length, Nat.sub_diag. simpl. rewrite app_nil_r. rewrite <- (map_length qty pre). apply firstn_all. }
    assert (F2 : firstn (Datatypes.S (length pre)) (map qty L) = map qty pre ++ [qty r]).
    { rewrite (firstn_split _ _ (qty r)), F1; [reflexivity|]. rewrite EL, map_app, nth_error_app2 by (rewrite map_length; lia).
      rewrite map_length, Nat.sub_diag. reflexivity. }
    destruct (qlt_spec Q (seq_sum R (map qty L))) as [T|T].
    - destruct (cumsum_first (map qty L) 0 Q Q0 Q1) as (_ & K2 & K3). fold (cumsum_r R (map qty L)) in K2, K3. rewrite <- Ek in K2, K3.
      change (seq_sum R (firstn (length pre) (map qty L)) < Q) in K2. change (Q <= seq_sum R (firstn (Datatypes.S (length pre)) (map qty L))) in K3.
      rewrite F1 in K2. rewrite F2, seq_snoc in K3. split; [qlra | exact K3].
    - assert (EQ : Q = seq_sum R (map qty L)) by (apply Qcle_antisym; assumption).
      assert (post = []).
      { rewrite EL, app_length in Ek. simpl in Ek. destruct post; [reflexivity | simpl in Ek; lia]. }
      subst post. assert (ES : seq_sum R (map qty L) = R (seq_sum R (map qty pre) + qty r)) by (rewrite EL, map_app; simpl; apply seq_snoc).
      split; [|rewrite EQ, ES; qlra]. rewrite EQ. rewrite EL, map_app. apply seq_mono. rewrite <- map_app, <- EL. exact Hm.
  Qed.
  Lemma cut_nonneg L Q pre r post q : CutR R A L Q pre r post q -> (length L <= n)%nat ->
    (forall x, In x L -> 0 <= qty x /\ machine R (qty x)) -> 0 < Q -> Q <= A (map qty L) -> 0 <= q.
  Proof.
    intros C Ln H Q0 Q1. destruct (cut_seq _ _ _ _ _ _ C Ln H Q0 Q1) as [K1 K2]. destruct C as (EL & [[-> _]|[-> _]] & _).
    - apply rnd_nonneg. rewrite Hseq; [qlra|]. rewrite map_length. rewrite EL, app_length in Ln. lia.
    - apply H. rewrite EL. apply in_or_app. right; left; reflexivity.
  Qed.

  Variable u : Qc.
  Hypothesis Hrel : rel_error R u.
  Notation B k := ((1 + u) ^ k).
  Notation e := (u * B n).
  Lemma cut_near L Q pre r post q : CutR R A L Q pre r post q -> (length L <= n)%nat ->
    (forall x, In x L -> 0 <= qty x /\ machine R (qty x)) -> 0 < Q -> Q <= A (map qty L) ->
    near (qsumf qty (won_r pre r q)) Q (qnat (n + 1) * e * qsumf qty L).
  Proof.
    intros C Ln H Q0 Q1. pose proof (u_nonneg R u Hrel) as U.
    destruct (cut_seq _ _ _ _ _ _ C Ln H Q0 Q1) as [K1 K2]. destruct C as (EL & D & _).
    assert (Hm : forall x, In x (map qty L) -> 0 <= x /\ machine R x) by (intros x Hx; apply in_map_iff in Hx; destruct Hx as (y & <- & Hy); apply H, Hy).
    assert (Lp : (length (map qty pre) < n)%nat) by (rewrite map_length; rewrite EL, app_length in Ln; simpl in Ln; lia).
    rewrite Hseq in D by lia. set (s := seq_sum R (map qty pre)) in *.
    assert (Hp : forall x, In x (map qty pre) -> 0 <= x /\ machine R x) by (intros x Hx; apply Hm; rewrite EL, map_app; apply in_or_app; left; exact Hx).
    assert (Hr : 0 <= qty r /\ machine R (qty r)) by (apply H; rewrite EL; apply in_or_app; right; left; reflexivity).
    pose proof (sums_near R u Hrel _ _ n (seq_sum_ok R (map qty pre)) Hp ltac:(lia)) as Ns. fold s in Ns.
    pose proof (sums_nonneg R _ _ (seq_sum_ok R (map qty pre)) (fun x Hx => proj1 (Hp x Hx))) as S0. fold s in S0.
    pose proof (B_ge1 R u Hrel n) as Bn.
    set (W := qsumf qty L).
    assert (WL : qsum (map qty pre) + qty r <= W).
    { unfold W. rewrite EL, qsumf_app, qsumf_cons. assert (0 <= qsumf qty post).
      { apply qsumf_nonneg. intros x Hx. apply H. rewrite EL. apply in_or_app. right; right; exact Hx. }
      unfold qsumf in *. qlra. }
    assert (P0 : 0 <= qsum (map qty pre)) by (apply qsum_nonneg'; intros; apply Hp; assumption).
    assert (W0 : 0 <= W) by (destruct Hr; qlra).
    (* everything is at most (1+u)^n W *)
    assert (Bs : s + qty r <= B n * W).
    { destruct (sums_err R u Hrel _ _ (seq_sum_ok R (map qty pre)) Hp) as [T _]. fold s in T.
      replace (qsum (map qty pre) + (B (length (map qty pre) - 1) - 1) * qsum (map qty pre)) with (B (length (map qty pre) - 1) * qsum (map qty pre)) in T by ring.
      pose proof (qmult_le_r _ _ _ P0 (B_mono R u Hrel (length (map qty pre) - 1) n ltac:(lia))) as M1.
      pose proof (qmult_le_l (B n) _ _ ltac:(qlra) WL) as M2.
      replace (B n * (qsum (map qty pre) + qty r)) with (B n * qsum (map qty pre) + B n * qty r) in M2 by ring.
      pose proof (qmult_le_r _ _ _ (proj1 Hr) Bn) as M3. rewrite Qcmult_1_l in M3. qlra. }
    assert (BQ : Q <= B n * W).
    { rewrite Hseq in Q1 by (rewrite map_length; exact Ln).
      destruct (sums_err R u Hrel _ _ (seq_sum_ok R (map qty L)) Hm) as [T _]. fold (qsumf qty L) in T. fold W in T.
      replace (W + (B (length (map qty L) - 1) - 1) * W) with (B (length (map qty L) - 1) * W) in T by ring.
      pose proof (qmult_le_r _ _ _ W0 (B_mono R u Hrel (length (map qty L) - 1) n ltac:(rewrite map_length; lia))) as M1. qlra. }
    assert (Nq : near q (Q - s) (e * W)).
    { pose proof (rnd_near_pos R u Hrel (Q - s) ltac:(qlra)) as [R1 R2].
      assert (M : u * (Q - s) <= e * W).
      { replace (e * W) with (u * (B n * W)) by ring. apply qmult_le_l; [exact U | qlra]. }
      destruct D as [[-> _]|[-> D]]; [split; qlra|].
      pose proof (rnd_near_pos R u Hrel (s + qty r) ltac:(destruct Hr; qlra)) as [R3 R4].
      assert (M' : u * (s + qty r) <= e * W).
      { replace (e * W) with (u * (B n * W)) by ring. apply qmult_le_l; [exact U | exact Bs]. }
      split; qlra. }
    unfold won_r. rewrite qsumf_app, qsumf_cons, qsumf_nil. simpl qty.
    rewrite Nat.add_1_r, qnat_S.
    replace ((qnat n + 1) * e * W) with (qnat n * e * W + e * W) by ring.
    assert (E0 : 0 <= qnat n * e).
    { apply qmult_nonneg; [|apply qmult_nonneg; [exact U | qlra]]. pose proof (qnat_pos n ltac:(lia)). qlra. }
    pose proof (qmult_le_l _ _ _ E0 (ltac:(destruct Hr; qlra) : qsum (map qty pre) <= W)) as M4.
    unfold qsumf. destruct Ns as [N1 N2], Nq as [N3 N4]. split; qlra.
  Qed.
End Seq.

(** ** The whole mechanism *)
Section Top.
  Variables (R : rounding) (A : adder R) (S : sorter) (d : df) (fl : list bool).
  Hypothesis Hq : qty_nonneg d.
  Hypothesis Hu : labels_unique d.
  Notation hl := (rows_in (left_of d fl) d).
  Notation hr := (rows_in (right_of d fl) d).
  Definition body_r : res (transmgr * extra) :=
    pl <- find_competitive_price_r R S hl ;;
    pr <- find_competitive_price_r R S hr ;;
    '(tl, f1) <- solve_market_side_r R A S hl pr (zero_fees d) ;;
    '(tr, f2) <- solve_market_side_r R A S hr pl f1 ;;
    Ok (tm_merge tl tr, XMuda (left_of d fl) (right_of d fl) pl pr f2).
  Lemma muda_r_eq : muda_r R A S d fl = check_equal_price d body_r.
  Proof.
    unfold muda_r, check_equal_price. destruct (_ || _); [reflexivity|]. cbv zeta.
    fold (left_of d fl). fold (right_of d fl). rewrite (loc_left d fl Hu), (loc_right d fl Hu). reflexivity.
  Qed.
  Lemma muda_r_parts tm ex : muda_r R A S d fl = Ok (tm, ex) -> exists tl tr pl pr f1 f2,
    find_competitive_price_r R S hl = Ok pl /\ find_competitive_price_r R S hr = Ok pr /\
    solve_market_side_r R A S hl pr (zero_fees d) = Ok (tl, f1) /\ solve_market_side_r R A S hr pl f1 = Ok (tr, f2) /\
    tm_trans tm = tm_trans tl ++ tm_trans tr /\ ex = XMuda (left_of d fl) (right_of d fl) pl pr f2.
  Proof.
    rewrite muda_r_eq. unfold check_equal_price. destruct (_ || _); [discriminate|]. unfold body_r. intro E.
    destruct (find_competitive_price_r R S hl) as [pl|] eqn:El; [|discriminate]. cbn [bind] in E.
    destruct (find_competitive_price_r R S hr) as [pr|] eqn:Er; [|discriminate]. cbn [bind] in E.
    destruct (solve_market_side_r R A S hl pr (zero_fees d)) as [[tl f1]|] eqn:E1; [|discriminate]. cbn [bind] in E.
    destruct (solve_market_side_r R A S hr pl f1) as [[tr f2]|] eqn:E2; [|discriminate]. cbn [bind] in E.
    injection E as <- <-. exists tl, tr, pl, pr, f1, f2. repeat (split; [first [reflexivity | assumption | apply tm_merge_trans]|]). reflexivity.
  Qed.

  (** gluing two halves together *)
  Section Glue.
    Variables (pl pr : num) (t1 t2 : list trans).
    Hypothesis H1 : HalfR hl pr t1.
    Hypothesis H2 : HalfR hr pl t2.
    Lemma gl_disj i : In i (left_of d fl) -> ~ In i (right_of d fl).
    Proof.
      intros H HR. unfold right_of in HR. apply filter_In in HR. destruct HR as [_ HR]. apply mem_In in H. rewrite H in HR. discriminate.
    Qed.
    Lemma gl_left t : In t t1 -> In (t_bid t) (left_of d fl).
    Proof. intro H. destruct (hr_refer _ _ _ H1 t H) as (r & Hr & <-). apply rows_in_In in Hr. apply Hr. Qed.
    Lemma gl_right t : In t t2 -> In (t_bid t) (right_of d fl).
    Proof. intro H. destruct (hr_refer _ _ _ H2 t H) as (r & Hr & <-). apply rows_in_In in Hr. apply Hr. Qed.
    Lemma glue : refer d (t1 ++ t2) /\ once (t1 ++ t2) /\
      (forall t r, In t (t1 ++ t2) -> In r d -> lbl r = t_bid t -> t_qty t <= qty r) /\ rational d (t1 ++ t2) /\
      (forall t, In t (t1 ++ t2) -> t_source t = (-1)%Z /\ t_active t = false) /\
      (forall t, In t (t1 ++ t2) -> (In (t_bid t) (left_of d fl) /\ pr = Fin (t_price t)) \/ (In (t_bid t) (right_of d fl) /\ pl = Fin (t_price t))).
    Proof.
      assert (In1 : forall t r, In t t1 -> In r d -> lbl r = t_bid t -> In r hl).
      { intros t r Ht Hr E. apply rows_in_In. split; [exact Hr|]. rewrite E. apply gl_left, Ht. }
      assert (In2 : forall t r, In t t2 -> In r d -> lbl r = t_bid t -> In r hr).
      { intros t r Ht Hr E. apply rows_in_In. split; [exact Hr|]. rewrite E. apply gl_right, Ht. }
      split; [|split; [|split; [|split; [|split]]]].
      - intros t Ht. apply in_app_or in Ht. destruct Ht as [Ht|Ht];
        [destruct (hr_refer _ _ _ H1 t Ht) as (r & Hr & E) | destruct (hr_refer _ _ _ H2 t Ht) as (r & Hr & E)];
        apply rows_in_In in Hr; exists r; tauto.
      - unfold once. rewrite map_app. apply NoDup_app_intro; [exact (hr_once _ _ _ H1) | exact (hr_once _ _ _ H2)|].
        intros i Hi Hj. apply in_map_iff in Hi, Hj. destruct Hi as (t & <- & Ht), Hj as (t' & E & Ht').
        apply (gl_disj (t_bid t)); [apply gl_left, Ht | rewrite <- E; apply gl_right, Ht'].
      - intros t r Ht Hr E. apply in_app_or in Ht. destruct Ht as [Ht|Ht].
        + exact (hr_le _ _ _ H1 t r Ht (In1 t r Ht Hr E) E).
        + exact (hr_le _ _ _ H2 t r Ht (In2 t r Ht Hr E) E).
      - intros t r Ht Hr E. apply in_app_or in Ht. destruct Ht as [Ht|Ht].
        + exact (hr_rational _ _ _ H1 t r Ht (In1 t r Ht Hr E) E).
        + exact (hr_rational _ _ _ H2 t r Ht (In2 t r Ht Hr E) E).
      - intros t Ht. apply in_app_or in Ht. destruct Ht as [Ht|Ht]; [apply (hr_const _ _ _ H1 t Ht) | apply (hr_const _ _ _ H2 t Ht)].
      - intros t Ht. apply in_app_or in Ht. destruct Ht as [Ht|Ht].
        + left. split; [apply gl_left, Ht | apply (hr_const _ _ _ H1 t Ht)].
        + right. split; [apply gl_right, Ht | apply (hr_const _ _ _ H2 t Ht)].
    Qed.
    Lemma gl_sums : bought hl (t1 ++ t2) = bought hl t1 /\ sold hl (t1 ++ t2) = sold hl t1 /\
      bought hr (t1 ++ t2) = bought hr t2 /\ sold hr (t1 ++ t2) = sold hr t2.
    Proof.
      assert (Z1 : forall s, filter (on_side s hl) t2 = []).
      { intro s. apply on_other. intros t Ht Hi. apply (gl_disj _ Hi), gl_right, Ht. }
      assert (Z2 : forall s, filter (on_side s hr) t1 = []).
      { intro s. apply on_other. intros t Ht Hi. apply (gl_disj (t_bid t)); [apply gl_left, Ht | exact Hi]. }
      unfold bought, sold. rewrite !filter_app, !Z1, !Z2, !app_nil_r. auto.
    Qed.
  End Glue.

  Theorem muda_r_safe tm ex : muda_r R A S d fl = Ok (tm, ex) ->
    refer d (tm_trans tm) /\ once (tm_trans tm) /\
    (forall t r, In t (tm_trans tm) -> In r d -> lbl r = t_bid t -> t_qty t <= qty r) /\ rational d (tm_trans tm) /\
    (forall t, In t (tm_trans tm) -> t_source t = (-1)%Z /\ t_active t = false) /\
    exists l r pl pr fees, ex = XMuda l r pl pr fees /\ Permutation (l ++ r) (map lbl d) /\
      find_competitive_price_r R S (rows_in l d) = Ok pl /\ find_competitive_price_r R S (rows_in r d) = Ok pr /\
      (forall t, In t (tm_trans tm) -> (In (t_bid t) l /\ pr = Fin (t_price t)) \/ (In (t_bid t) r /\ pl = Fin (t_price t))) /\
      forall f, In f fees -> 0 <= f.
  Proof.
    intro E. destruct (muda_r_parts tm ex E) as (tl & tr & pl & pr & f1 & f2 & P1 & P2 & S1 & S2 & -> & ->).
    pose proof (half_r R A S hl pr (rows_in_unique _ d Hu) _ _ _ S1) as H1.
    pose proof (half_r R A S hr pl (rows_in_unique _ d Hu) _ _ _ S2) as H2.
    destruct (glue _ _ _ _ H1 H2) as (G1 & G2 & G3 & G4 & G5 & G6).
    repeat (split; [assumption|]). exists (left_of d fl), (right_of d fl), pl, pr, f2.
    split; [reflexivity|]. split; [apply halves_perm, Hu|]. repeat (split; [assumption|]).
    destruct (half_r_fees R A S _ _ _ _ _ S1) as [_ F1]. destruct (half_r_fees R A S _ _ _ _ _ S2) as [_ F2].
    intros f Hf. apply F2; [|exact Hf]. apply F1. intros x Hx. apply repeat_spec in Hx. rewrite Hx. qlra.
  Qed.

  (** *** Errors *)
  Section Errors.
    Hypothesis Hp : price_nonneg d.
    Lemma price_r_total ls : exists p, find_competitive_price_r R S (rows_in ls d) = Ok p.
    Proof.
      unfold find_competitive_price_r.
      assert (Pn : price_nonneg (rows_in ls d)) by (intros r Hr; apply rows_in_In in Hr; apply Hp, Hr).
      pose proof (half_qty ls d Hq) as Qn.
      destruct (intersect_r_cases R _ _ (qf 1 2) (demand_r_nonempty R S _) (supply_r_nonempty R S _)
                (demand_r_ends R S _ Qn) (supply_r_ends R S _ Qn) (demand_r_decreasing R S _ Pn) (supply_r_increasing R S (rows_in ls d)))
      as [(x & b & s & u & w & v & E & _)|(v & E & _)]; rewrite E; cbn [bind]; eauto.
    Qed.
    Lemma body_r_err e : body_r = Err e -> e = IndexError.
    Proof.
      unfold body_r. destruct (price_r_total (left_of d fl)) as (pl & ->). destruct (price_r_total (right_of d fl)) as (pr & ->). cbn [bind].
      destruct (solve_market_side_r R A S hl pr (zero_fees d)) as [[tl f1]|e1] eqn:E1; cbn [bind].
      2: { intro H. injection H as <-. exact (half_r_err R A S _ _ _ _ E1). }
      destruct (solve_market_side_r R A S hr pl f1) as [[tr f2]|e2] eqn:E2; cbn [bind]; [discriminate|].
      intro H. injection H as <-. exact (half_r_err R A S _ _ _ _ E2).
    Qed.
    Theorem muda_r_not_implemented : muda_r R A S d fl = Err NotImplementedError <-> repeated_price d.
    Proof.
      rewrite muda_r_eq. unfold check_equal_price. rewrite <- (check_spec d Hu). destruct (_ || _); [tauto|].
      split; [|discriminate]. intro H. apply body_r_err in H. discriminate.
    Qed.
    Theorem muda_r_err e : muda_r R A S d fl = Err e -> e = NotImplementedError \/ e = IndexError.
    Proof.
      rewrite muda_r_eq. unfold check_equal_price. destruct (_ || _); [intro H; left; congruence|]. intro H. right. exact (body_r_err e H).
    Qed.
    Theorem muda_r_total : ~ repeated_price d ->
      (forall r, In r d -> (0 <= user r)%Z /\ (user r < Z.of_nat (length (nodup Z.eq_dec (map user d))))%Z) ->
      exists tm ex, muda_r R A S d fl = Ok (tm, ex).
    Proof.
      intros Nr Hn. rewrite muda_r_eq. unfold check_equal_price. destruct (_ || _) eqn:E; [exfalso; apply Nr, (check_spec d Hu), E|].
      assert (El : length (uniqueZ (map user d)) = length (nodup Z.eq_dec (map user d))).
      { apply Permutation_length. apply NoDup_Permutation; [apply uniqueZ_NoDup | apply NoDup_nodup|]. intro x. rewrite uniqueZ_In, nodup_In. tauto. }
      rewrite <- El in Hn.
      assert (Lz : length (zero_fees d) = length (uniqueZ (map user d))) by apply repeat_length.
      unfold body_r. destruct (price_r_total (left_of d fl)) as (pl & ->). destruct (price_r_total (right_of d fl)) as (pr & ->). cbn [bind].
      destruct (half_r_total R A S hl pr (zero_fees d)) as (tl & f1 & E1).
      { intros r Hr. apply rows_in_In in Hr. rewrite Lz. apply Hn, Hr. }
      destruct (half_r_fees R A S _ _ _ _ _ E1) as [L1 _]. rewrite E1. cbn [bind].
      destruct (half_r_total R A S hr pl f1) as (tr & f2 & E2).
      { intros r Hr. apply rows_in_In in Hr. rewrite L1, Lz. apply Hn, Hr. }
      rewrite E2. cbn [bind]. eauto.
    Qed.
  End Errors.

  (** *** With sums from left to right *)
  Section LeftToRight.
    Hypothesis Hm : machine_qty R d.
    Hypothesis Hseq : forall l, (length l <= length d)%nat -> A l = seq_sum R l.
    Variable u : Qc.
    Hypothesis Hrel : rel_error R u.
    Notation n := (length d).

    Lemma filter_len {X} (P : X -> bool) l : (length (filter P l) <= length l)%nat.
    Proof. induction l as [|x l IH]; simpl; [lia|]. destruct (P x); simpl; lia. Qed.
    Lemma side_len_r ls p b : (length (side_r S (rows_in ls d) p b) <= n)%nat.
    Proof.
      unfold side_r. destruct b.
      - rewrite (Permutation_length (s_desc_perm S _)). etransitivity; [apply filter_len|]. etransitivity; [apply filter_len|]. apply filter_len.
      - rewrite (Permutation_length (s_asc_perm S _)). etransitivity; [apply filter_len|]. etransitivity; [apply filter_len|]. apply filter_len.
    Qed.
    Lemma side_sum_r ls p : qsumf qty (side_r S (rows_in ls d) p true) + qsumf qty (side_r S (rows_in ls d) p false) <= qsumf qty (rows_in ls d).
    Proof.
      unfold side_r. rewrite (qsumf_perm qty _ _ (s_desc_perm S _)), (qsumf_perm qty _ _ (s_asc_perm S _)).
      pose proof (half_qty ls d Hq) as Qn. set (h := rows_in ls d) in *. rewrite !qsumf_filter. unfold buyers, sellers. rewrite !qsumf_filter.
      rewrite <- qsumf_plus. apply qsumf_le. intros r Hr. specialize (Qn r Hr).
      destruct (buying r); cbn [negb]; [destruct (nleb p (Fin (price r))) | destruct (nleb (Fin (price r)) p)]; qlra.
    Qed.
    Lemma half_r_seq ls p fees tm fees' : solve_market_side_r R A S (rows_in ls d) p fees = Ok (tm, fees') ->
      (forall t, In t (tm_trans tm) -> 0 <= t_qty t) /\
      qabs (bought (rows_in ls d) (tm_trans tm) - sold (rows_in ls d) (tm_trans tm)) <= qnat (n + 1) * (u * (1 + u) ^ n) * qsumf qty (rows_in ls d).
    Proof.
      pose proof (u_nonneg R u Hrel) as U. pose proof (B_ge1 R u Hrel n) as Bn.
      assert (K : 0 <= qnat (n + 1) * (u * (1 + u) ^ n)).
      { apply qmult_nonneg; [|apply qmult_nonneg; [exact U | qlra]]. pose proof (qnat_pos (n + 1) ltac:(lia)). qlra. }
      pose proof (half_qty ls d Hq) as Qn. pose proof (rows_in_unique ls d Hu) as Un.
      intro E. pose proof (solve_r_cases R A S (rows_in ls d) p fees) as C. rewrite E in C.
      inversion C as [|pr b preB rB postB qB preS rS postS qS tm' rest li Ep HQ CB CS P E1].
      - split; [intros ? []|]. apply near_abs. change (near 0 0 (qnat (n + 1) * (u * (1 + u) ^ n) * qsumf qty (rows_in ls d))). apply near_self.
        apply qmult_nonneg; [exact K|]. apply qsumf_nonneg, Qn.
      - destruct (charge_users_r _ _ _ _ _ _ _ _) as [f|]; [|discriminate]. cbn [bind] in E1. injection E1 as -> ->.
        assert (G : forall b x, In x (side_r S (rows_in ls d) p b) -> 0 <= qty x /\ machine R (qty x)).
        { intros b' x Hx. apply side_r_in in Hx. destruct Hx as (Hx & _). apply rows_in_In in Hx. split; [apply Hq | apply Hm]; apply Hx. }
        pose proof (total_le R A S (rows_in ls d) p) as TL.
        pose proof (cut_nonneg R A n Hseq _ _ _ _ _ _ CB (side_len_r ls p true) (G true) HQ (TL true)) as N1.
        pose proof (cut_nonneg R A n Hseq _ _ _ _ _ _ CS (side_len_r ls p false) (G false) HQ (TL false)) as N2.
        pose proof (cut_near R A n Hseq u Hrel _ _ _ _ _ _ CB (side_len_r ls p true) (G true) HQ (TL true)) as D1.
        pose proof (cut_near R A n Hseq u Hrel _ _ _ _ _ _ CS (side_len_r ls p false) (G false) HQ (TL false)) as D2.
        split.
        + intros t Ht. apply (Permutation_in _ P) in Ht. apply in_map_iff in Ht. destruct Ht as (y & <- & Hy). simpl.
          unfold won_r in Hy. rewrite !in_app_iff in Hy. destruct CB as (EB & _), CS as (ES & _).
          destruct Hy as [[Hy|[<-|[]]]|[Hy|[<-|[]]]]; [|exact N1| |exact N2].
          * apply (G true y). rewrite EB. apply in_or_app. left; exact Hy.
          * apply (G false y). rewrite ES. apply in_or_app. left; exact Hy.
        + assert (Sb : forall s t, In t (map (mk pr) (if s : bool then won_r preB rB qB else won_r preS rS qS)) ->
                    exists r, In r (rows_in ls d) /\ lbl r = t_bid t /\ buying r = s).
          { intros s t Ht. apply in_map_iff in Ht. destruct Ht as (y & <- & Hy). destruct s.
            - destruct (won_row R A _ _ _ _ _ _ _ CB Hy) as (x & H1 & H2 & _). apply side_r_in in H1. exists x. tauto.
            - destruct (won_row R A _ _ _ _ _ _ _ CS Hy) as (x & H1 & H2 & _). apply side_r_in in H1. exists x. tauto. }
          destruct (side_sums true (rows_in ls d) (map (mk pr) (won_r preB rB qB)) Un (Sb true)) as [X1 X2].
          destruct (side_sums false (rows_in ls d) (map (mk pr) (won_r preS rS qS)) Un (Sb false)) as [Y1 Y2].
          assert (Pb : forall s, Permutation (filter (on_side s (rows_in ls d)) (tm_trans tm)) (filter (on_side s (rows_in ls d)) (map (mk pr) (won_r preB rB qB) ++ map (mk pr) (won_r preS rS qS)))).
          { intro s. rewrite <- map_app. apply filter_perm, P. }
          unfold bought, sold. rewrite (qsumf_perm t_qty _ _ (Pb true)), (qsumf_perm t_qty _ _ (Pb false)).
          fold (bought (rows_in ls d) (map (mk pr) (won_r preB rB qB) ++ map (mk pr) (won_r preS rS qS))).
          fold (sold (rows_in ls d) (map (mk pr) (won_r preB rB qB) ++ map (mk pr) (won_r preS rS qS))).
          rewrite bought_app, sold_app, X1, X2, Y1, Y2, !qsumf_map. simpl.
          change (fun x : row => qty x) with qty.
          pose proof (near_trans _ _ _ _ _ D1 (near_sym _ _ _ D2)) as D.
          apply near_abs. apply near_weaken with (2 := qmult_le_l _ _ _ K (side_sum_r ls p)).
          replace (qnat (n + 1) * (u * (1 + u) ^ n) * (qsumf qty (side_r S (rows_in ls d) p true) + qsumf qty (side_r S (rows_in ls d) p false)))
            with (qnat (n + 1) * (u * (1 + u) ^ n) * qsumf qty (side_r S (rows_in ls d) p true) + qnat (n + 1) * (u * (1 + u) ^ n) * qsumf qty (side_r S (rows_in ls d) p false)) by ring.
          destruct D as [Da Db]. split; qlra.
    Qed.
    Theorem muda_r_seq tm ex : muda_r R A S d fl = Ok (tm, ex) ->
      feasible d (tm_trans tm) /\
      forall h p, half_of ex d h p ->
        qabs (bought h (tm_trans tm) - sold h (tm_trans tm)) <= qnat (n + 1) * (u * (1 + u) ^ n) * qsumf qty h.
    Proof.
      intro E. destruct (muda_r_safe tm ex E) as (M1 & M2 & M3 & _).
      destruct (muda_r_parts tm ex E) as (tl & tr & pl & pr & f1 & f2 & P1 & P2 & S1 & S2 & ET & ->).
      pose proof (half_r R A S hl pr (rows_in_unique _ d Hu) _ _ _ S1) as H1.
      pose proof (half_r R A S hr pl (rows_in_unique _ d Hu) _ _ _ S2) as H2.
      destruct (half_r_seq _ _ _ _ _ S1) as [Q1 B1]. destruct (half_r_seq _ _ _ _ _ S2) as [Q2 B2].
      split.
      - apply feasible_once; auto. intros t r Ht Hr El. split; [|apply (M3 t r Ht Hr El)].
        rewrite ET in Ht. apply in_app_or in Ht. destruct Ht as [Ht|Ht]; [apply Q1, Ht | apply Q2, Ht].
      - rewrite ET. destruct (gl_sums _ _ _ _ H1 H2) as (G1 & G2 & G3 & G4).
        intros h p [[-> ->]|[-> ->]]; [rewrite G1, G2; exact B1 | rewrite G3, G4; exact B2].
    Qed.
  End LeftToRight.
End Top.
