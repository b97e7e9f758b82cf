(** The mechanisms on doubles are the mechanisms with [binary64], as long as quantities and prices are not too large. *)
From Coq Require Import Floats.SpecFloat.
From Verif Require P2PFacts MudaHalf.
From Verif Require Import QcTac Num ModelMerge MergeFacts ModelBase ModelCurves ModelHuang ModelMuda ModelMarket ModelUniform ModelRound ModelRoundUniform ModelFloat ModelBounded
  Spec SpecMuda SpecGrid SpecDouble SpecIeee Sorter ListFacts StoreFacts UpdateFacts MudaFacts RoundFacts BoundFacts ModelOps OpsFacts.

Notation zlen l := (Z.of_nat (length l)).

Section Run.
  Variable j : Qc.
  Notation D := (doubles j).
  Notation B := binary64.

  (** ** Sums *)
  Section Sums.
    Variable e : Z.
    Hypothesis He : okE e.
    Lemma sums_in l s : sums_to B l s -> Forall (inb e 1) l -> (zlen l <= 2 ^ 53)%Z -> inb e (zlen l) s.
    Proof.
      intros H. induction H as [|x|l1 l2 a b H1 IH1 H2 IH2|l l' s P H IH]; intros F L.
      - apply inb_0.
      - inversion F; subst. exact H1.
      - apply Forall_app in F. destruct F as [F1 F2]. rewrite app_length, Nat2Z.inj_add in L |- *.
        apply (inb_round e); [exact He | lia|]. apply sum_bound; [apply IH1; [exact F1 | lia] | apply IH2; [exact F2 | lia]].
      - rewrite <- (Permutation_length P) in L |- *. apply IH; [|exact L]. rewrite Forall_forall in F |- *. intros x Hx. apply F. eapply Permutation_in; [exact P | exact Hx].
    Qed.
    Lemma fold_in l : forall a m, inb e m a -> Forall (inb e 1) l -> (0 <= m)%Z -> (m + zlen l <= 2 ^ 53)%Z ->
      fold_left (o_add D) l a = fold_left (fun a x => B (a + x)) l a.
    Proof.
      induction l as [|x l IH]; intros a m A F M L; [reflexivity|]. inversion F as [|? ? Hx Fl]; subst. cbn [length] in L. rewrite Nat2Z.inj_succ in L.
      cbn [fold_left]. destruct (o_add_in j e He m 1 a x A Hx M ltac:(lia) ltac:(lia)) as [E N]. rewrite E. apply (IH _ (m + 1)%Z); [exact N | exact Fl | lia | lia].
    Qed.
    Lemma seq_in l : Forall (inb e 1) l -> (zlen l <= 2 ^ 53)%Z -> seq_sum_o D l = seq_sum B l /\ inb e (zlen l) (seq_sum B l).
    Proof. intros F L. split; [apply (fold_in l 0 0); [apply inb_0 | exact F | lia | lia] | apply sums_in; [apply seq_sum_ok | exact F | exact L]]. Qed.
    Lemma every8_in l : forall k x, In x (every8 k l) -> In x l.
    Proof. induction l as [|y l IH]; intros k x H; [destruct H|]. destruct k; cbn [every8] in H; [destruct H as [->|H]; [left; reflexivity|]|]; right; eapply IH; exact H. Qed.
    Lemma every8_len l : forall k, (length (every8 k l) <= length l)%nat.
    Proof. induction l as [|y l IH]; intros k; [simpl; lia|]. destruct k; cbn [every8 length]; [specialize (IH 7%nat) | specialize (IH k)]; lia. Qed.
    Lemma block_in l : Forall (inb e 1) l -> (zlen l <= 2 ^ 49)%Z -> np_block_o D l = np_block B l.
    Proof.
      intros F L. unfold np_block_o, np_block. destruct (Nat.ltb (length l) 8); [apply seq_in; [exact F | lia]|].
      cbv zeta. set (n := (length l - length l mod 8)%nat).
      assert (Ff : forall k, Forall (inb e 1) (every8 k (firstn n l))).
      { intro k. rewrite Forall_forall in F |- *. intros x Hx. apply F. apply every8_in in Hx. rewrite <- (firstn_skipn n l). apply in_or_app. left. exact Hx. }
      assert (Lf : forall k, (zlen (every8 k (firstn n l)) <= zlen l)%Z) by (intro k; pose proof (every8_len (firstn n l) k); pose proof (firstn_le_length n l); lia).
      assert (Ea : forall k, seq_sum_o D (every8 k (firstn n l)) = seq_sum B (every8 k (firstn n l)) /\ inb e (2 ^ 49) (seq_sum B (every8 k (firstn n l)))).
      { intro k. pose proof (Lf k). destruct (seq_in _ (Ff k) ltac:(lia)) as [E1 E2]. split; [exact E1 | apply (inb_m e (zlen (every8 k (firstn n l)))); [exact E2 | lia]]. }
      destruct (Ea 0%nat) as [E0 I0], (Ea 1%nat) as [E1 I1], (Ea 2%nat) as [E2 I2], (Ea 3%nat) as [E3 I3], (Ea 4%nat) as [E4 I4], (Ea 5%nat) as [E5 I5], (Ea 6%nat) as [E6 I6], (Ea 7%nat) as [E7 I7].
      rewrite E0, E1, E2, E3, E4, E5, E6, E7. clear E0 E1 E2 E3 E4 E5 E6 E7.
      generalize dependent (seq_sum B (every8 0 (firstn n l))). generalize dependent (seq_sum B (every8 1 (firstn n l))). generalize dependent (seq_sum B (every8 2 (firstn n l))). generalize dependent (seq_sum B (every8 3 (firstn n l))).
      generalize dependent (seq_sum B (every8 4 (firstn n l))). generalize dependent (seq_sum B (every8 5 (firstn n l))). generalize dependent (seq_sum B (every8 6 (firstn n l))). generalize dependent (seq_sum B (every8 7 (firstn n l))).
      intros a7 A7 a6 A6 a5 A5 a4 A4 a3 A3 a2 A2 a1 A1 a0 A0.
      destruct (o_add_in j e He _ _ a0 a1 A0 A1 ltac:(lia) ltac:(lia) ltac:(lia)) as [-> J1].
      destruct (o_add_in j e He _ _ a2 a3 A2 A3 ltac:(lia) ltac:(lia) ltac:(lia)) as [-> J2].
      destruct (o_add_in j e He _ _ a4 a5 A4 A5 ltac:(lia) ltac:(lia) ltac:(lia)) as [-> J3].
      destruct (o_add_in j e He _ _ a6 a7 A6 A7 ltac:(lia) ltac:(lia) ltac:(lia)) as [-> J4].
      destruct (o_add_in j e He _ _ _ _ J1 J2 ltac:(lia) ltac:(lia) ltac:(lia)) as [-> J5].
      destruct (o_add_in j e He _ _ _ _ J3 J4 ltac:(lia) ltac:(lia) ltac:(lia)) as [-> J6].
      destruct (o_add_in j e He _ _ _ _ J5 J6 ltac:(lia) ltac:(lia) ltac:(lia)) as [-> J7].
      apply (fold_in _ _ _ J7).
      - rewrite Forall_forall in F |- *. intros x Hx. apply F. rewrite <- (firstn_skipn n l). apply in_or_app. right. exact Hx.
      - lia.
      - rewrite skipn_length. lia.
    Qed.
    Lemma np_in l : Forall (inb e 1) l -> (zlen l <= 2 ^ 49)%Z -> np_sum_o D l = np_sum B l /\ inb e (zlen l) (np_sum B l).
    Proof.
      intros F L. split; [|apply sums_in; [apply np_sum_ok | exact F | lia]]. unfold np_sum_o, np_sum.
      assert (G : forall k m, Forall (inb e 1) m -> (zlen m <= 2 ^ 49)%Z -> np_pair_o D k m = np_pair B k m); [|apply G; assumption].
      clear l F L. induction k as [|k IH]; intros m F L; [apply block_in; assumption|]. simpl. destruct (Nat.leb (length m) 128); [apply block_in; assumption|].
      set (h := np_half (length m)). rewrite <- (firstn_skipn h m), Forall_app in F. destruct F as [F1 F2].
      assert (L' : (zlen (firstn h m) + zlen (skipn h m) = zlen m)%Z) by (rewrite <- Nat2Z.inj_add, <- app_length, firstn_skipn; reflexivity).
      rewrite !IH by (try assumption; lia).
      apply (o_add_in j e He (zlen (firstn h m)) (zlen (skipn h m))); [apply sums_in; [apply np_pair_ok | exact F1 | lia] | apply sums_in; [apply np_pair_ok | exact F2 | lia] | lia | lia | lia].
    Qed.
    Lemma cumsum_from_in l : forall a m, inb e m a -> Forall (inb e 1) l -> (0 <= m)%Z -> (m + zlen l <= 2 ^ 53)%Z -> cumsum_from_o D a l = cumsum_from_r B a l.
    Proof.
      induction l as [|x l IH]; intros a m A F M L; [reflexivity|]. inversion F as [|? ? Hx Fl]; subst. cbn [length] in L. rewrite Nat2Z.inj_succ in L.
      cbn [cumsum_from_o cumsum_from_r]. destruct (o_add_in j e He m 1 a x A Hx M ltac:(lia) ltac:(lia)) as [E N]. rewrite E. f_equal. apply (IH _ (m + 1)%Z); [exact N | exact Fl | lia | lia].
    Qed.
    Lemma cumsum_in l : Forall (inb e 1) l -> (zlen l <= 2 ^ 53)%Z -> cumsum_o D l = cumsum_r B l.
    Proof. intros F L. apply (cumsum_from_in l 0 0); [apply inb_0 | exact F | lia | lia]. Qed.
  End Sums.

  (** ** Tables *)
  Variables a b : Z.
  Hypothesis Ha : (0 <= a)%Z.
  Hypothesis Hb : (0 <= b)%Z.
  Hypothesis Hab : (a + b <= 800)%Z.
  Ltac oke := unfold okE; lia.
  Definition row_in (r : row) : Prop := inb a 1 (qty r) /\ inb b 1 (price r).
  Definition table_in (d : df) : Prop := Forall row_in d /\ (zlen d <= 2 ^ 40)%Z.
  Definition fin_in (m : Z) (v : num) : Prop := match v with Fin q => inb b m q | _ => True end.

  Lemma table_sub (d d' : df) : table_in d -> (forall r, In r d' -> In r d) -> (length d' <= length d)%nat -> table_in d'.
  Proof. intros [F L] H K. split; [|lia]. rewrite Forall_forall in F |- *. intros r Hr. apply F, H, Hr. Qed.
  Lemma filter_len {X} (P : X -> bool) l : (length (filter P l) <= length l)%nat.
  Proof. induction l as [|x l IH]; simpl; [lia|]. destruct (P x); simpl; lia. Qed.
  Lemma table_filter P d : table_in d -> table_in (filter P d).
  Proof. intro H. apply (table_sub d); [exact H | intros r Hr; apply filter_In in Hr; tauto | apply filter_len]. Qed.
  Lemma table_firstn n d : table_in d -> table_in (firstn n d).
  Proof. intro H. apply (table_sub d); [exact H | intros r Hr; rewrite <- (firstn_skipn n d); apply in_or_app; left; exact Hr | rewrite firstn_length; lia]. Qed.
  Lemma table_perm d d' : table_in d -> Permutation d d' -> table_in d'.
  Proof. intros H P. apply (table_sub d); [exact H | intros r Hr; eapply Permutation_in; [apply Permutation_sym, P | exact Hr] | rewrite (Permutation_length P); lia]. Qed.
  Lemma table_desc S d : table_in d -> table_in (s_desc S d).
  Proof. intro H. apply (table_perm d); [exact H|]. apply Permutation_sym, s_desc_perm. Qed.
  Lemma table_asc S d : table_in d -> table_in (s_asc S d).
  Proof. intro H. apply (table_perm d); [exact H|]. apply Permutation_sym, s_asc_perm. Qed.
  Lemma table_qty d : table_in d -> Forall (inb a 1) (map qty d).
  Proof. intros [F _]. induction F as [|r d [H _] F IH]; constructor; assumption. Qed.
  Lemma sum_qty d : table_in d -> np_sum_o D (map qty d) = np_sum B (map qty d) /\ inb a (2 ^ 40) (np_sum B (map qty d)).
  Proof.
    intro H. destruct H as [F L]. destruct (np_in a ltac:(oke) (map qty d) (table_qty d (conj F L)) ltac:(rewrite map_length; lia)) as [E I]. split; [exact E|].
    apply (inb_m a (zlen (map qty d))); [exact I | rewrite map_length; exact L].
  Qed.
  Lemma rows_curve d : table_in d -> curve_rows_o D d = curve_rows_r B d.
  Proof. intro H. unfold curve_rows_o, curve_rows_r. rewrite (cumsum_in a ltac:(oke)); [reflexivity | apply table_qty, H | rewrite map_length; destruct H as [_ L]; lia]. Qed.
  Lemma demand_in S d : table_in d -> demand_curve_o D S d = demand_curve_r B S d.
  Proof. intro H. unfold demand_curve_o, demand_curve_r. rewrite rows_curve by (apply table_desc, table_filter, H). reflexivity. Qed.
  Lemma supply_in S d : table_in d -> supply_curve_o D S d = supply_curve_r B S d.
  Proof. intro H. unfold supply_curve_o, supply_curve_r. rewrite rows_curve by (apply table_asc, table_filter, H). reflexivity. Qed.

  Lemma rows_prices d : table_in d -> forall x v, In (x, v) (curve_rows_r B d) -> fin_in 1 v.
  Proof.
    intros [F _] x v H. unfold curve_rows_r in H. apply in_combine_r in H. apply in_map_iff in H. destruct H as (r & <- & Hr).
    rewrite Forall_forall in F. apply F, Hr.
  Qed.
  Lemma demand_prices S d : table_in d -> forall x v, In (x, v) (fst (demand_curve_r B S d)) -> fin_in 1 v.
  Proof.
    intros H x v Hi. simpl in Hi. apply in_app_or in Hi. destruct Hi as [Hi|[Hi|[]]]; [apply (rows_prices _ (table_desc S _ (table_filter _ d H)) x v Hi)|].
    injection Hi as <- <-. apply (inb_m b 0); [apply inb_0 | lia].
  Qed.
  Lemma supply_prices S d : table_in d -> forall x v, In (x, v) (fst (supply_curve_r B S d)) -> fin_in 1 v.
  Proof.
    intros H x v Hi. simpl in Hi. apply in_app_or in Hi. destruct Hi as [Hi|[Hi|[]]]; [apply (rows_prices _ (table_asc S _ (table_filter _ d H)) x v Hi)|].
    injection Hi as <- <-. exact I.
  Qed.

  (** ** Prices *)
  Lemma half_in : inb 0 1 (qf 1 2).
  Proof. split; [apply b64_half|]. rewrite qz_1, p2_0. discriminate. Qed.
  Lemma one_in : inb 0 1 1.
  Proof. split; [rewrite <- p2_0; apply IeeeAny.p2_machine; lia|]. rewrite qz_1, p2_0. discriminate. Qed.
  Lemma other_half : o_sub D 1 (qf 1 2) = B (1 - qf 1 2) /\ B (1 - qf 1 2) = qf 1 2.
  Proof.
    split; [apply (o_sub_in j 0 ltac:(oke) 1 1); [apply one_in | apply half_in | lia | lia | lia]|].
    assert (E : 1 - qf 1 2 = qf 1 2) by (apply Qc_is_canon; reflexivity). rewrite E. apply b64_half.
  Qed.
  Lemma mix_in gv fv : fin_in 1 gv -> fin_in 1 fv -> mix_o D gv fv (qf 1 2) = mix_r B gv fv (qf 1 2) /\ fin_in 2 (mix_r B gv fv (qf 1 2)).
  Proof.
    intros Hg Hf. unfold mix_o. rewrite <- mix_rounded. unfold mix_o. destruct other_half as [E1 E2]. rewrite E1. change (o_sub (rounded B) 1 (qf 1 2)) with (B (1 - qf 1 2)). rewrite E2.
    assert (M : forall v, fin_in 1 v -> nmul_o D v (Fin (qf 1 2)) = nmul_o (rounded B) v (Fin (qf 1 2)) /\ nmul_o D (Fin (qf 1 2)) v = nmul_o (rounded B) (Fin (qf 1 2)) v /\
              fin_in 1 (nmul_o (rounded B) v (Fin (qf 1 2))) /\ fin_in 1 (nmul_o (rounded B) (Fin (qf 1 2)) v)).
    { intros [q| | |] Hv; try (split; [reflexivity|]; split; [reflexivity|]; split; exact I). cbn [fin_in] in Hv.
      destruct (o_mul_in j b 0 1 1 q (qf 1 2) ltac:(oke) Hv half_in ltac:(lia) ltac:(lia) ltac:(lia)) as [A1 A2].
      destruct (o_mul_in j 0 b 1 1 (qf 1 2) q ltac:(oke) half_in Hv ltac:(lia) ltac:(lia) ltac:(lia)) as [A3 A4].
      rewrite Z.add_0_r in A2. cbn [nmul_o rounded o_mul fin_in]. rewrite A1, A3. repeat split; try reflexivity; try apply A2; try apply A4. }
    destruct (M gv Hg) as (G1 & _ & G2 & _). destruct (M fv Hf) as (_ & F1 & _ & F2). rewrite G1, F1.
    revert G2 F2. generalize (nmul_o (rounded B) gv (Fin (qf 1 2))) (nmul_o (rounded B) (Fin (qf 1 2)) fv). intros x y X Y.
    destruct x, y; try (split; [reflexivity | exact I]). cbn [nadd_o rounded o_add fin_in] in *. destruct (o_add_in j b ltac:(oke) 1 1 _ _ X Y ltac:(lia) ltac:(lia) ltac:(lia)) as [A1 A2]. rewrite A1. split; [reflexivity | exact A2].
  Qed.
  Lemma step_in x f v : step_search x f = Some v -> exists y, In (y, v) f.
  Proof. induction f as [|[y w] f IH]; simpl; [discriminate|]. destruct (nleb x y); intro H; [injection H as <-; exists y; left; reflexivity|]. destruct (IH H) as (z & Hz). exists z. right. exact Hz. Qed.
  Lemma piece_in ast xs f v : piece_value ast xs f = Ok (Some v) -> exists y, In (y, v) f.
  Proof.
    unfold piece_value, value_at_last. destruct ast as [i|].
    - destruct (nth_error f i) as [[y w]|] eqn:E; [|discriminate]. intro H. injection H as <-. exists y. eapply nth_error_In. exact E.
    - destruct (rev xs) as [|x ?]; [discriminate|]. intro H. injection H as H. unfold get_value_stepwise in H. destruct (nltb x (Fin 0)); [discriminate|]. eapply step_in. exact H.
  Qed.
  Lemma intersect_in f g : (forall x v, In (x, v) f -> fin_in 1 v) -> (forall x v, In (x, v) g -> fin_in 1 v) ->
    intersect_stepwise_o D f g (qf 1 2) = intersect_stepwise_r B f g (qf 1 2) /\
    forall x i k v, intersect_stepwise_r B f g (qf 1 2) = Ok (x, i, k, v) -> fin_in 2 v.
  Proof.
    intros Hf Hg. unfold intersect_stepwise_o, intersect_stepwise_r. destruct (col_max f); simpl; [|split; [reflexivity | discriminate]]. destruct (col_max g); simpl; [|split; [reflexivity | discriminate]].
    destruct (scan _ None) as [x|]; simpl; [|split; [reflexivity | discriminate]].
    destruct (piece_value _ _ g) as [[gv|]|] eqn:Eg; simpl; [| destruct (piece_value _ _ f) as [[fv|]|]; split; try reflexivity; discriminate | split; [reflexivity | discriminate]].
    destruct (piece_value _ _ f) as [[fv|]|] eqn:Ef; simpl; [| split; [reflexivity | discriminate] | split; [reflexivity | discriminate]].
    apply piece_in in Eg, Ef. destruct Eg as (y & Eg), Ef as (z & Ef). apply Hg in Eg. apply Hf in Ef. destruct (mix_in gv fv Eg Ef) as [M1 M2]. rewrite M1. split; [reflexivity|].
    assert (W : forall v, fin_in 1 v -> fin_in 2 v) by (intros [q| | |] H; try exact I; apply (inb_m b 1); [exact H | lia]).
    intros x0 i k v H. injection H as <- <- <- <-. destruct x; [|exact M2]. destruct (mem_col _ f && mem_col _ g); [exact M2|]. destruct (mem_col _ f); apply W; assumption.
  Qed.
  Lemma curves_in S d : table_in d -> intersect_stepwise_o D (fst (demand_curve_o D S d)) (fst (supply_curve_o D S d)) (qf 1 2) =
    intersect_stepwise_r B (fst (demand_curve_r B S d)) (fst (supply_curve_r B S d)) (qf 1 2) /\
    forall x i k v, intersect_stepwise_r B (fst (demand_curve_r B S d)) (fst (supply_curve_r B S d)) (qf 1 2) = Ok (x, i, k, v) -> fin_in 2 v.
  Proof. intro H. rewrite (demand_in S d H), (supply_in S d H). apply intersect_in; [apply demand_prices, H | apply supply_prices, H]. Qed.

  (** ** The uniform price mechanism *)
  Lemma long_in l p : forall t s m n, table_in l -> inb a m t -> inb a n s -> (0 <= m)%Z -> (0 <= n)%Z -> (m + n + zlen l <= 2 ^ 53)%Z -> uniform_long_o D l t s p = uniform_long_r B l t s p.
  Proof.
    induction l as [|r l IH]; intros t s m n H T S M N L; [reflexivity|]. cbn [length] in L. rewrite Nat2Z.inj_succ in L. pose proof H as [F _]. inversion F as [|? ? [Q _] Fl]; subst.
    cbn [uniform_long_o uniform_long_r]. destruct (o_add_in j a ltac:(oke) 1 n _ _ Q S ltac:(lia) ltac:(lia) ltac:(lia)) as [E1 _]. destruct (o_sub_in j a ltac:(oke) m n _ _ T S M N ltac:(lia)) as [E2 _].
    destruct (o_add_in j a ltac:(oke) n 1 _ _ S Q ltac:(lia) ltac:(lia) ltac:(lia)) as [E3 J]. rewrite E1, E2, E3. f_equal. apply (IH _ _ m (n + 1)%Z); [|exact T | exact J | lia | lia | lia].
    apply (table_sub (r :: l)); [exact H | intros; right; assumption | simpl; lia].
  Qed.
  Theorem uniform_in S d : table_in d -> uniform_run_o D (np_sum_o D) S d = uniform_run_r B (np_adder B) S d.
  Proof.
    intro H. unfold uniform_run_o, uniform_run_r, mechanism, mech_run0. destruct (Nat.eqb _ 0 || Nat.eqb _ _); [reflexivity|].
    unfold uniform_price_mechanism_o, uniform_price_mechanism_r. rewrite (proj1 (curves_in S d H)).
    destruct (intersect_stepwise_r B _ _ _) as [[[[q i] k] v]|]; [|reflexivity]. cbn [bind]. destruct i as [i|]; [|reflexivity]. destruct k as [k|]; [|reflexivity]. destruct q as [q|]; [|reflexivity]. destruct v as [p| | |]; try reflexivity.
    pose proof (table_firstn (Datatypes.S i) _ (table_desc S _ (table_filter buying d H))) as HB. pose proof (table_firstn (Datatypes.S k) _ (table_asc S _ (table_filter (fun r => negb (buying r)) d H))) as HS.
    fold (buyers d) in HB. fold (sellers d) in HS. set (bb := firstn (Datatypes.S i) (s_desc S (buyers d))) in *. set (ss := firstn (Datatypes.S k) (s_asc S (sellers d))) in *.
    change (np_adder B (map qty bb)) with (np_sum B (map qty bb)). change (np_adder B (map qty ss)) with (np_sum B (map qty ss)).
    destruct (sum_qty bb HB) as [EB IB]. destruct (sum_qty ss HS) as [ES IS]. rewrite EB, ES.
    destruct (qltb (np_sum B (map qty ss)) (np_sum B (map qty bb))).
    - change (np_adder B (map qty ss)) with (np_sum B (map qty ss)). rewrite ES. rewrite (long_in bb p _ 0 (2 ^ 40) 0 HB IS (inb_0 a)); [reflexivity | lia | lia | destruct HB as [_ L]; lia].
    - change (np_adder B (map qty bb)) with (np_sum B (map qty bb)). rewrite EB. rewrite (long_in ss p _ 0 (2 ^ 40) 0 HS IB (inb_0 a)); [reflexivity | lia | lia | destruct HS as [_ L]; lia].
  Qed.

  (** ** Huang's auction *)
  Lemma somes_none q : somes q = [] -> nanargmin q = None.
  Proof.
    intro E. destruct (nanargmin q) as [[i v]|] eqn:N; [|reflexivity]. exfalso. apply nanargmin_some in N. destruct N as [N _]. apply nth_error_In in N.
    assert (K : In v (somes q)) by (apply in_flat_map; exists (Some v); split; [exact N | left; reflexivity]). rewrite E in K. exact K.
  Qed.
  Lemma somes_set i q x : In x (somes (set_nth i None q)) -> In x (somes q).
  Proof.
    revert i; induction q as [|o q IH]; intros [|i]; simpl; [tauto | tauto | |].
    - intro H. apply in_or_app. right. exact H.
    - rewrite !in_app_iff. intros [H|H]; [left; exact H | right; apply (IH i), H].
  Qed.
  Lemma loop_in fuel : forall q gap N i v m, Forall (inb a 1) (somes q) -> N = length (somes q) -> nanargmin q = Some (i, v) -> inb a m gap -> (0 <= m)%Z -> (m + Z.of_nat fuel <= 2 ^ 53)%Z -> (Z.of_nat N <= 2 ^ 53)%Z ->
    uq_loop_o D fuel q gap N i v = uq_loop_r B fuel q gap N i v /\
    forall q' g' N', uq_loop_r B fuel q gap N i v = Ok (q', g', N') -> Forall (inb a 1) (somes q') /\ length q' = length q /\ (0 < N' <= N)%nat /\ inb a (m + Z.of_nat fuel) g'.
  Proof.
    induction fuel as [|fuel IH]; intros q gap N i v m F HN Hm G M L LN; [split; [reflexivity | discriminate]|]. rewrite Nat2Z.inj_succ in L.
    cbn [uq_loop_o uq_loop_r]. destruct (nanargmin_some _ _ _ Hm) as [Hi _].
    assert (Iv : In v (somes q)) by (apply in_flat_map; exists (Some v); split; [eapply nth_error_In; exact Hi | left; reflexivity]).
    assert (PN : (0 < N)%nat) by (subst N; destruct (somes q); [destruct Iv | simpl; lia]).
    destruct (o_div_in j a ltac:(oke) m gap N G ltac:(lia) PN LN) as [E1 _]. rewrite E1.
    assert (V : inb a 1 v) by (rewrite Forall_forall in F; apply F, Iv).
    destruct (qltb v (B (gap / qnat N))).
    - cbv zeta. destruct (nanargmin (set_nth i None q)) as [[i' v']|] eqn:E; [|split; [reflexivity | discriminate]].
      destruct (o_sub_in j a ltac:(oke) m 1 gap v G V M ltac:(lia) ltac:(lia)) as [E2 J]. rewrite E2. destruct (somes_remove _ _ _ Hi) as [_ El].
      destruct (IH (set_nth i None q) (B (gap - v)) (N - 1)%nat i' v' (m + 1)%Z) as [E3 K]; [|lia | exact E | exact J | lia | lia | lia |].
      + rewrite Forall_forall in F |- *. intros x Hx. apply F, (somes_set i), Hx.
      + split; [exact E3|]. intros q' g' N' H. destruct (K q' g' N' H) as (K1 & K2 & K3 & K4). split; [exact K1|]. split; [rewrite K2; apply P2PFacts.set_nth_len|]. split; [lia|].
        rewrite Nat2Z.inj_succ. replace (m + Z.succ (Z.of_nat fuel))%Z with (m + 1 + Z.of_nat fuel)%Z by lia. exact K4.
    - split; [reflexivity|]. intros q' g' N' H. injection H as <- <- <-. split; [exact F|]. split; [reflexivity|]. split; [lia|]. apply (inb_m a m); [exact G | lia].
  Qed.
  Lemma update_in Q gap m : Forall (inb a 1) Q -> inb a m gap -> (0 <= m)%Z -> (m + zlen Q + 2 <= 2 ^ 53)%Z ->
    update_quantity_o D Q gap = update_quantity_r B Q gap /\ forall r, update_quantity_r B Q gap = Ok r -> Forall (inb (a + 53) 1) r /\ length r = length Q.
  Proof.
    intros F G M L. unfold update_quantity_o, update_quantity_r. cbv zeta. destruct (nanargmin (map Some Q)) as [[i v]|] eqn:E; [|split; [reflexivity | discriminate]].
    assert (ES : somes (map Some Q) = Q) by (clear; induction Q as [|x Q IH]; simpl; [reflexivity | rewrite IH; reflexivity]).
    destruct (loop_in (S (length Q)) (map Some Q) gap (length Q) i v m) as [E1 K]; [rewrite ES; exact F | rewrite ES; reflexivity | exact E | exact G | exact M | lia | lia |]. rewrite E1.
    destruct (uq_loop_r B _ _ _ _ _ _) as [[[q1 g1] N1]|] eqn:E2; [|split; [reflexivity | discriminate]]. cbn [bind]. destruct (K q1 g1 N1 eq_refl) as (K1 & K2 & K3 & K4).
    rewrite map_length in K2. set (m1 := (m + Z.of_nat (S (length Q)))%Z) in *. destruct (o_div_in j a ltac:(oke) m1 g1 N1 K4 ltac:(unfold m1; lia) ltac:(lia) ltac:(lia)) as [E3 J]. rewrite E3.
    set (s := B (g1 / qnat N1)) in *. set (q2 := map (fun o : option Qc => match o with Some x => x | None => 0 end) q1).
    assert (F2 : Forall (inb a 1) q2).
    { unfold q2. clear - K1. induction q1 as [|o q1 IH]; [constructor|]. simpl in K1. apply Forall_app in K1. destruct K1 as [K1 K2]. constructor; [|apply IH, K2]. destruct o as [x|]; [inversion K1; assumption | apply (inb_m a 0); [apply inb_0 | lia]]. }
    assert (E4 : map (fun x => o_sub D x s) q2 = map (fun x => B (x - s)) q2 /\ Forall (inb (a + 53) 1) (map (fun x => B (x - s)) q2)).
    { clear - F2 J L M Ha Hb Hab m1. clearbody s q2. induction F2 as [|x q2 Hx F2 IH]; [split; [reflexivity | constructor]|]. destruct IH as [IH1 IH2].
      destruct (o_sub_in j a ltac:(oke) 1 m1 x s Hx J ltac:(lia) ltac:(unfold m1; lia) ltac:(unfold m1; lia)) as [A1 A2]. cbn [map]. rewrite A1, IH1. split; [reflexivity|]. constructor; [|exact IH2].
      apply (inb_up a (1 + m1)); [exact A2 | lia | unfold m1; lia]. }
    destruct E4 as [E4 F3]. rewrite E4. split; [reflexivity|]. set (q3 := map (fun x => B (x - s)) q2) in *. intros r H.
    assert (L3 : length q3 = length Q) by (unfold q3, q2; rewrite !map_length; exact K2).
    destruct q3 as [|x q3']; [discriminate|]. injection H as <-. split; [|rewrite <- L3; simpl; rewrite map_length; reflexivity].
    assert (Mx : inb (a + 53) 1 (list_max x q3')).
    { unfold list_max. inversion F3 as [|? ? H0 H1]; subst. clear - H0 H1. revert x H0. induction H1 as [|y l Hy H1 IH]; intros x H0; [exact H0|]. cbn [fold_left]. apply IH. unfold qmax. destruct (qleb _ _); assumption. }
    set (mx := list_max x q3') in *. clearbody mx. change (Forall (inb (a + 53) 1) (map (fun y => qmin mx (qmax y 0)) (x :: q3'))).
    clear - F3 Mx. induction F3 as [|y l Hy F IH]; [constructor|]. cbn [map]. constructor; [|exact IH]. assert (Y : inb (a + 53) 1 (qmax y 0)) by (unfold qmax; destruct (qleb _ _); [|exact Hy] || destruct (qleb _ _); first [exact Hy | apply (inb_m _ 0); [apply inb_0 | lia]]).
    unfold qmin. destruct (qleb _ _); assumption.
  Qed.
  (** transactions of such sizes *)
  Definition trade_in (t : trans) : Prop := inb (a + 53) 1 (t_qty t) /\ inb b 2 (t_price t).
  Lemma two_len (p q : row -> bool) d : (forall r, In r d -> q r = negb (p r)) -> (length (filter p d) + length (filter q d) = length d)%nat.
  Proof.
    induction d as [|r d IH]; intro H; [reflexivity|]. cbn [filter]. rewrite (H r (or_introl eq_refl)). specialize (IH (fun x Hx => H x (or_intror Hx))).
    destruct (p r); cbn [negb length]; lia.
  Qed.
  Lemma side_len d : (length (buyers d) + length (sellers d) = length d)%nat.
  Proof. apply two_len. reflexivity. Qed.
  Lemma emit_in l qs p : Forall (inb (a + 53) 1) qs -> inb b 2 p -> Forall trade_in (emit l qs p).
  Proof.
    intros F P. unfold emit. rewrite Forall_forall in F |- *. intros t Ht. apply in_map_iff in Ht. destruct Ht as ([r q] & <- & Hi). split; [|exact P]. apply F. apply in_combine_r in Hi. exact Hi.
  Qed.
  Lemma emit_len l qs p : (length (emit l qs p) <= length l)%nat.
  Proof. unfold emit. rewrite map_length, combine_length. lia. Qed.
  Theorem huang_out S d : table_in d -> forall tm ex, huang_auction_r B (np_adder B) S d = Ok (tm, ex) -> Forall trade_in (tm_trans tm) /\ (length (tm_trans tm) <= length d)%nat.
  Proof.
    intros H tm ex E. unfold huang_auction_r in E. pose proof (demand_prices S d H) as PD. pose proof (supply_prices S d H) as PS.
    destruct (intersect_stepwise_r B _ _ _) as [[[[q i] k] v]|]; [|discriminate]. cbn [bind] in E.
    assert (Nil : Forall trade_in (tm_trans tm_init) /\ (length (tm_trans tm_init) <= length d)%nat) by (split; [constructor | simpl; lia]).
    destruct i as [i|]; [|injection E as <- <-; exact Nil]. destruct k as [k|]; [|injection E as <- <-; exact Nil].
    destruct (nth_error (fst (supply_curve_r B S d)) k) as [[x1 [ps| | |]]|] eqn:E1; try discriminate E; destruct (nth_error (fst (demand_curve_r B S d)) i) as [[x2 [pb| | |]]|] eqn:E2; try discriminate E.
    apply nth_error_In in E1, E2. pose proof (inb_m _ _ 2 _ (PS _ _ E1) ltac:(lia)) as I1. pose proof (inb_m _ _ 2 _ (PD _ _ E2) ltac:(lia)) as I2. clear PD PS E1 E2.
    pose proof (table_firstn i _ (table_desc S _ (table_filter buying d H))) as HB. pose proof (table_firstn k _ (table_asc S _ (table_filter (fun r => negb (buying r)) d H))) as HS.
    fold (buyers d) in HB. fold (sellers d) in HS.
    assert (LB : (length (firstn i (s_desc S (buyers d))) <= length (buyers d))%nat) by (rewrite firstn_length, <- (Permutation_length (s_desc_perm S (buyers d))); lia).
    assert (LS : (length (firstn k (s_asc S (sellers d))) <= length (sellers d))%nat) by (rewrite firstn_length, <- (Permutation_length (s_asc_perm S (sellers d))); lia).
    pose proof (side_len d) as LD. set (bb := firstn i (s_desc S (buyers d))) in *. set (ss := firstn k (s_asc S (sellers d))) in *. cbv zeta in E.
    destruct (Nat.ltb 0 i && Nat.ltb 0 k); [|injection E as <- <-; exact Nil].
    destruct (sum_qty bb HB) as [_ IB]. destruct (sum_qty ss HS) as [_ IS]. change (np_adder B (map qty bb)) with (np_sum B (map qty bb)) in E. change (np_adder B (map qty ss)) with (np_sum B (map qty ss)) in E.
    destruct (o_sub_in j a ltac:(oke) _ _ _ _ IS IB ltac:(lia) ltac:(lia) ltac:(lia)) as [_ IG]. set (gap := B (np_sum B (map qty ss) - np_sum B (map qty bb))) in *.
    assert (Up : forall l, Forall (inb a 1) l -> Forall (inb (a + 53) 1) l) by (intros l F; rewrite Forall_forall in F |- *; intros x Hx; apply (inb_e a); [apply F, Hx | lia]).
    destruct (qltb 0 gap).
    - destruct (update_in (map qty ss) gap _ (table_qty ss HS) IG ltac:(lia) ltac:(rewrite map_length; destruct HS as [_ L]; lia)) as [_ KU].
      destruct (update_quantity_r B (map qty ss) gap) as [qs|]; [|discriminate]. cbn [bind] in E. destruct (KU qs eq_refl) as [F1 _]. injection E as <- _. rewrite !add_all_trans. simpl app. split.
      + apply Forall_app. split; apply emit_in; [exact F1 | exact I1 | apply Up, (table_qty bb HB) | exact I2].
      + rewrite app_length. pose proof (emit_len ss qs ps). pose proof (emit_len bb (map qty bb) pb). lia.
    - destruct (update_in (map qty bb) (- gap) _ (table_qty bb HB) (inb_opp _ _ _ IG) ltac:(lia) ltac:(rewrite map_length; destruct HB as [_ L]; lia)) as [_ KU].
      destruct (update_quantity_r B (map qty bb) (- gap)) as [qb|]; [|discriminate]. cbn [bind] in E. destruct (KU qb eq_refl) as [F1 _]. injection E as <- _. rewrite !add_all_trans. simpl app. split.
      + apply Forall_app. split; apply emit_in; [apply Up, (table_qty ss HS) | exact I1 | exact F1 | exact I2].
      + rewrite app_length. pose proof (emit_len ss (map qty ss) ps). pose proof (emit_len bb qb pb). lia.
  Qed.
  Theorem huang_in S d : table_in d -> huang_auction_o D (np_sum_o D) S d = huang_auction_r B (np_adder B) S d.
  Proof.
    intro H. unfold huang_auction_o, huang_auction_r. rewrite (proj1 (curves_in S d H)), (demand_in S d H), (supply_in S d H).
    destruct (intersect_stepwise_r B _ _ _) as [[[[q i] k] v]|]; [|reflexivity]. cbn [bind]. destruct i as [i|]; [|reflexivity]. destruct k as [k|]; [|reflexivity].
    destruct (nth_error _ k) as [[x1 [ps| | |]]|]; try reflexivity; destruct (nth_error _ i) as [[x2 [pb| | |]]|]; try reflexivity.
    pose proof (table_firstn i _ (table_desc S _ (table_filter buying d H))) as HB. pose proof (table_firstn k _ (table_asc S _ (table_filter (fun r => negb (buying r)) d H))) as HS.
    fold (buyers d) in HB. fold (sellers d) in HS. set (bb := firstn i (s_desc S (buyers d))) in *. set (ss := firstn k (s_asc S (sellers d))) in *. cbv zeta.
    change (np_adder B (map qty bb)) with (np_sum B (map qty bb)). change (np_adder B (map qty ss)) with (np_sum B (map qty ss)).
    destruct (sum_qty bb HB) as [EB IB]. destruct (sum_qty ss HS) as [ES IS]. rewrite EB, ES.
    destruct (Nat.ltb 0 i && Nat.ltb 0 k); [|reflexivity].
    destruct (o_sub_in j a ltac:(oke) _ _ _ _ IS IB ltac:(lia) ltac:(lia) ltac:(lia)) as [EG IG]. rewrite EG. set (gap := B (np_sum B (map qty ss) - np_sum B (map qty bb))) in *.
    destruct (qltb 0 gap).
    - destruct (update_in (map qty ss) gap _ (table_qty ss HS) IG ltac:(lia) ltac:(rewrite map_length; destruct HS as [_ L]; lia)) as [EU _]. rewrite EU.
      destruct (update_quantity_r B (map qty ss) gap) as [qs|]; [|reflexivity]. cbn [bind]. change (np_adder B (map qty bb)) with (np_sum B (map qty bb)). rewrite EB. reflexivity.
    - destruct (update_in (map qty bb) (- gap) _ (table_qty bb HB) (inb_opp _ _ _ IG) ltac:(lia) ltac:(rewrite map_length; destruct HB as [_ L]; lia)) as [EU KU]. rewrite EU.
      destruct (update_quantity_r B (map qty bb) (- gap)) as [qb|]; [|reflexivity]. cbn [bind]. destruct (KU qb eq_refl) as [F1 L1].
      change (np_adder B qb) with (np_sum B qb). rewrite (proj1 (np_in (a + 53) ltac:(oke) qb F1 ltac:(rewrite L1, map_length; destruct HB as [_ L]; lia))). reflexivity.
  Qed.

  (** ** MUDA *)
  Definition long_row (r : row) : Prop := inb (a + 53) 1 (qty r) /\ inb b 1 (price r).
  Lemma long_of r : row_in r -> long_row r.
  Proof. intros [Q P]. split; [apply (inb_e a); [exact Q | lia] | exact P]. Qed.
  Lemma trading_in d Q : table_in d -> inb a (2 ^ 40) Q ->
    get_trading_bids_o D (np_sum_o D) d Q = get_trading_bids_r B (np_adder B) d Q /\
    forall l i, get_trading_bids_r B (np_adder B) d Q = Ok (l, i) -> Forall long_row l /\ (length l <= length d + 1)%nat /\ (i < length d)%nat.
  Proof.
    intros H HQ. pose proof H as [F L]. unfold get_trading_bids_o, get_trading_bids_r. cbv zeta. change (np_adder B (map qty d)) with (np_sum B (map qty d)).
    destruct (sum_qty d H) as [E1 _]. rewrite E1. rewrite (cumsum_in a ltac:(oke) (map qty d) (table_qty d H)) by (rewrite map_length; lia).
    set (n := if qltb Q (np_sum B (map qty d)) then _ else _). destruct (sum_qty (firstn n d) (table_firstn n d H)) as [E2 I2]. change (np_adder B (map qty (firstn n d))) with (np_sum B (map qty (firstn n d))). rewrite E2.
    destruct (o_sub_in j a ltac:(oke) _ _ Q _ HQ I2 ltac:(lia) ltac:(lia) ltac:(lia)) as [E3 I3]. rewrite E3. set (x := B (Q - np_sum B (map qty (firstn n d)))) in *. clearbody x.
    assert (FL : Forall long_row d) by (rewrite Forall_forall in F |- *; intros r Hr; apply long_of, F, Hr).
    destruct (nth_error d n) as [r|] eqn:En; [|split; [reflexivity | discriminate]].
    assert (Hr : row_in r) by (rewrite Forall_forall in F; apply F; eapply nth_error_In; exact En). destruct Hr as [Hq Hp].
    destruct (o_sub_in j a ltac:(oke) 1 _ (qty r) x Hq I3 ltac:(lia) ltac:(lia) ltac:(lia)) as [E4 I4]. rewrite E4.
    destruct (qltb x (qty r)).
    - remember (skipn (S n) d) as tl eqn:Etl. split; [reflexivity|]. intros l i E. injection E as <- <-. subst tl. split.
      + apply Forall_app. split; [rewrite <- (firstn_skipn n d), Forall_app in FL; apply FL|]. constructor; [split; [apply (inb_up a (2 ^ 40 + 2 ^ 40)); [exact I3 | lia | lia] | exact Hp]|].
        constructor; [split; [apply (inb_up a (1 + (2 ^ 40 + 2 ^ 40))); [exact I4 | lia | lia] | exact Hp]|]. rewrite <- (firstn_skipn (S n) d), Forall_app in FL. apply FL.
      + assert (n < length d)%nat by (apply nth_error_Some; rewrite En; discriminate). split; [|assumption]. rewrite app_length, firstn_length. cbn [app length]. rewrite (skipn_length (S n) d). lia.
    - split; [reflexivity|]. intros l i E. injection E as <- <-. split; [exact FL|]. split; [lia | apply nth_error_Some; rewrite En; discriminate].
  Qed.
  Definition fee_small (f : Qc) : Prop := inb (b + 2 + (a + 106)) (2 ^ 41) f.
  Lemma fee_0 : fee_small 0.
  Proof. apply (inb_m _ 0); [apply inb_0 | lia]. Qed.
  Lemma fee_abs x : fee_small x -> fee_small (qabs x).
  Proof. intro H. unfold qabs. destruct (qle_spec 0 x); [|apply inb_opp]; exact H. Qed.
  Lemma fee_in (d : list (nat * row)) index u Q p : Forall (fun ir => long_row (snd ir)) d -> (zlen d <= 2 ^ 41)%Z -> inb a (2 ^ 40) Q -> inb b 2 p ->
    compute_fee_o D (np_sum_o D) d index u Q p = compute_fee_r B (np_adder B) d index u Q p /\ fee_small (compute_fee_r B (np_adder B) d index u Q p).
  Proof.
    intros F L HQ HP. unfold compute_fee_o, compute_fee_r. cbv zeta. set (o := filter (fun ir => negb (Z.eqb (user (snd ir)) u)) d).
    assert (FO : Forall (fun ir : nat * row => long_row (snd ir)) o) by (unfold o; rewrite Forall_forall in F |- *; intros x Hx; apply filter_In in Hx; apply F, Hx).
    assert (LO : (zlen o <= 2 ^ 41)%Z) by (unfold o; pose proof (filter_len (fun ir => negb (Z.eqb (user (snd ir)) u)) d); lia). clearbody o. clear d F L.
    assert (FS : forall n, Forall (inb (a + 53) 1) (map (fun ir : nat * row => qty (snd ir)) (firstn n o))).
    { intro n. rewrite <- (firstn_skipn n o), Forall_app in FO. destruct FO as [FO _]. induction FO as [|x l [Hx _] FO IH]; constructor; assumption. }
    assert (F0 : Forall (inb (a + 53) 1) (map (fun ir : nat * row => qty (snd ir)) o)) by (rewrite <- (firstn_all o); apply FS).
    destruct o as [|o0 o']; [split; [reflexivity | apply fee_0]|]. set (o := o0 :: o') in *.
    set (qs := map (fun ir : nat * row => qty (snd ir)) o) in *. assert (Lq : (zlen qs <= 2 ^ 41)%Z) by (unfold qs; rewrite map_length; exact LO).
    change (np_adder B qs) with (np_sum B qs). rewrite (proj1 (np_in (a + 53) ltac:(oke) qs F0 ltac:(lia))), (cumsum_in (a + 53) ltac:(oke) qs F0) by lia.
    set (n := if qltb Q (np_sum B qs) then _ else _). clearbody n.
    assert (Ln : (zlen (map (fun ir : nat * row => qty (snd ir)) (firstn n o)) <= 2 ^ 41)%Z) by (rewrite map_length, firstn_length; lia).
    change (np_adder B (map (fun ir : nat * row => qty (snd ir)) (firstn n o))) with (np_sum B (map (fun ir : nat * row => qty (snd ir)) (firstn n o))).
    destruct (np_in (a + 53) ltac:(oke) _ (FS n) ltac:(lia)) as [E1 I1]. rewrite E1.
    assert (HQ' : inb (a + 53) 1 Q) by (apply (inb_up a (2 ^ 40)); [exact HQ | lia | lia]).
    destruct (o_sub_in j (a + 53) ltac:(oke) 1 _ Q _ HQ' I1 ltac:(lia) ltac:(lia) ltac:(lia)) as [E2 I2]. rewrite E2.
    set (x := B (Q - np_sum B (map (fun ir : nat * row => qty (snd ir)) (firstn n o)))) in *.
    assert (X : inb (a + 106) 1 x) by (replace (a + 106)%Z with (a + 53 + 53)%Z by lia; apply (inb_up (a + 53) _ 53 x I2); lia). clearbody x.
    set (w := match nth_error o n with Some _ => _ | None => _ end).
    assert (W : Forall (fun ir : nat * row => inb (a + 106) 1 (qty (snd ir)) /\ inb b 1 (price (snd ir))) w /\ (zlen w <= 2 ^ 41)%Z).
    { assert (W0 : Forall (fun ir : nat * row => inb (a + 106) 1 (qty (snd ir)) /\ inb b 1 (price (snd ir))) (firstn (S n) o)).
      { rewrite <- (firstn_skipn (S n) o), Forall_app in FO. destruct FO as [FO _]. rewrite Forall_forall in FO |- *. intros y Hy. destruct (FO y Hy) as [Y1 Y2]. split; [apply (inb_e (a + 53)); [exact Y1 | lia] | exact Y2]. }
      assert (L0 : (zlen (firstn (S n) o) <= 2 ^ 41)%Z) by (rewrite firstn_length; lia).
      unfold w. destruct (nth_error o n) as [[z r]|]; [|split; assumption]. destruct (qltb x (qty r)); [|split; assumption].
      unfold set_last_qty. revert W0 L0. generalize (firstn (S n) o). intros l W0 L0. assert (W1 : Forall (fun ir : nat * row => inb (a + 106) 1 (qty (snd ir)) /\ inb b 1 (price (snd ir))) (rev l)) by (apply Forall_rev, W0).
      rewrite <- (rev_length l) in L0. destruct (rev l) as [|[i r'] t]; [split; [constructor | simpl; lia]|]. inversion W1 as [|? ? [_ P1] W2]; subst. split.
      - apply Forall_app. split; [apply Forall_rev, W2|]. constructor; [|constructor]. split; [exact X | exact P1].
      - rewrite app_length, rev_length. cbn [length] in *. lia. }
    destruct W as [W LW]. clearbody w. set (pn := filter (fun ir : nat * row => Nat.ltb index (fst ir)) w).
    assert (Fp : Forall (fun ir : nat * row => inb (a + 106) 1 (qty (snd ir)) /\ inb b 1 (price (snd ir))) pn) by (unfold pn; rewrite Forall_forall in W |- *; intros y Hy; apply filter_In in Hy; apply W, Hy).
    assert (Lp : (zlen pn <= 2 ^ 41)%Z) by (unfold pn; pose proof (filter_len (fun ir : nat * row => Nat.ltb index (fst ir)) w); lia). clearbody pn.
    assert (G : map (fun ir : nat * row => o_mul D (o_sub D (price (snd ir)) p) (qty (snd ir))) pn = map (fun ir : nat * row => B (B (price (snd ir) - p) * qty (snd ir))) pn /\
                Forall (inb (b + 2 + (a + 106)) 1) (map (fun ir : nat * row => B (B (price (snd ir) - p) * qty (snd ir))) pn)).
    { clear - Fp HP Ha Hb Hab. induction Fp as [|y l [Y1 Y2] Fp IH]; [split; [reflexivity | constructor]|]. destruct IH as [IH1 IH2]. cbn [map].
      destruct (o_sub_in j b ltac:(oke) 1 2 _ p Y2 HP ltac:(lia) ltac:(lia) ltac:(lia)) as [A1 A2]. rewrite A1. apply (inb_up b _ 2) in A2; [|lia | lia].
      destruct (o_mul_in j (b + 2) (a + 106) 1 1 _ _ ltac:(oke) A2 Y1 ltac:(lia) ltac:(lia) ltac:(lia)) as [A3 A4]. rewrite A3, IH1. split; [reflexivity|]. constructor; [exact A4 | exact IH2]. }
    destruct G as [G1 G2]. rewrite G1. change (np_adder B (map (fun ir : nat * row => B (B (price (snd ir) - p) * qty (snd ir))) pn)) with (np_sum B (map (fun ir : nat * row => B (B (price (snd ir) - p) * qty (snd ir))) pn)).
    destruct (np_in (b + 2 + (a + 106)) ltac:(oke) _ G2 ltac:(rewrite map_length; lia)) as [E3 I3]. rewrite E3. split; [reflexivity|]. apply fee_abs. apply (inb_m _ _ _ _ I3). rewrite map_length. exact Lp.
  Qed.
  Lemma set_nth_len {X} n (x : X) l : length (set_nth n x l) = length l.
  Proof. revert n; induction l as [|y l IH]; intros [|n]; simpl; [reflexivity | reflexivity | reflexivity | rewrite IH; reflexivity]. Qed.
  Lemma set_small n x l : fee_small x -> Forall fee_small l -> Forall fee_small (set_nth n x l).
  Proof. intros X F. revert n; induction F as [|y l Y F IH]; intros [|n]; simpl; constructor; try assumption. apply IH. Qed.
  Lemma charge_in l i Q p us : Forall long_row l -> (zlen l <= 2 ^ 41)%Z -> inb a (2 ^ 40) Q -> inb b 2 p ->
    forall fees, charge_users_o D (np_sum_o D) l i Q p us fees = charge_users_r B (np_adder B) l i Q p us fees /\
      (Forall fee_small fees -> forall f, charge_users_r B (np_adder B) l i Q p us fees = Ok f -> Forall fee_small f /\ length f = length fees).
  Proof.
    intros F L HQ HP. induction us as [|u us IH]; intro fees; [split; [reflexivity|]; intros H f E; injection E as <-; split; [exact H | reflexivity]|]. cbn [charge_users_o charge_users_r].
    destruct (fee_in (indexed l) i u Q p) as [E I]; [..|exact HQ | exact HP|].
    - unfold indexed. rewrite Forall_forall in F |- *. intros [k r] H. apply in_combine_r in H. apply F, H.
    - unfold indexed. rewrite combine_length, seq_length. lia.
    - rewrite E. set (x := compute_fee_r B (np_adder B) (indexed l) i u Q p) in *. clearbody x. destruct (set_fee fees u x) as [fs|] eqn:ES; [|split; [reflexivity | discriminate]]. cbn [bind].
      destruct (IH fs) as [IH1 IH2]. split; [exact IH1|]. intros H f Ef.
      assert (K : Forall fee_small fs /\ length fs = length fees).
      { unfold set_fee in ES. destruct (_ && _); [|destruct (_ && _); [|discriminate]]; injection ES as <-; (split; [apply set_small; assumption | apply set_nth_len]). }
      destruct K as [K1 K2]. destruct (IH2 K1 f Ef) as [J1 J2]. split; [exact J1 | rewrite J2; exact K2].
  Qed.
  Lemma made_in n l p : Forall long_row l -> inb b 2 p -> Forall trade_in (map (fun r => mkTrans (lbl r) (qty r) p (-1) false) (firstn n l)).
  Proof.
    intros F P. rewrite <- (firstn_skipn n l), Forall_app in F. destruct F as [F _]. revert F. generalize (firstn n l). intros m F. induction F as [|r m [Q _] F IH]; constructor; [split; [exact Q | exact P] | exact IH].
  Qed.
  Lemma solve_in S d p fees : table_in d -> fin_in 2 p -> solve_market_side_o D (np_sum_o D) S d p fees = solve_market_side_r B (np_adder B) S d p fees /\
    (Forall fee_small fees -> forall tm f, solve_market_side_r B (np_adder B) S d p fees = Ok (tm, f) ->
      Forall trade_in (tm_trans tm) /\ (length (tm_trans tm) <= length d)%nat /\ Forall fee_small f /\ length f = length fees).
  Proof.
    intros H HP. pose proof (side_len d) as SL.
    assert (Nil : Forall fee_small fees -> forall tm f, Ok (tm_init, fees) = Ok (tm, f) -> Forall trade_in (tm_trans tm) /\ (length (tm_trans tm) <= length d)%nat /\ Forall fee_small f /\ length f = length fees).
    { intros Hf tm f E. injection E as <- <-. split; [constructor|]. split; [simpl; lia | split; [exact Hf | reflexivity]]. }
    unfold solve_market_side_o, solve_market_side_r. pose proof (table_filter buying d H) as HB. pose proof (table_filter (fun r => negb (buying r)) d H) as HS.
    fold (buyers d) in HB. fold (sellers d) in HS. destruct (buyers d) as [|b0 bs]; [split; [reflexivity | exact Nil]|]. destruct (sellers d) as [|s0 ss]; [split; [reflexivity | exact Nil]|]. set (bl := b0 :: bs) in *. set (sl := s0 :: ss) in *.
    pose proof (table_desc S _ (table_filter (fun r => nleb p (Fin (price r))) bl HB)) as HD. pose proof (table_asc S _ (table_filter (fun r => nleb (Fin (price r)) p) sl HS)) as HU.
    assert (LD : (length (s_desc S (filter (fun r => nleb p (Fin (price r))) bl)) <= length bl)%nat) by (rewrite (Permutation_length (s_desc_perm S _)); apply filter_len).
    assert (LU : (length (s_asc S (filter (fun r => nleb (Fin (price r)) p) sl)) <= length sl)%nat) by (rewrite (Permutation_length (s_asc_perm S _)); apply filter_len).
    cbv zeta. set (dm := s_desc S (filter (fun r => nleb p (Fin (price r))) bl)) in *. set (sp := s_asc S (filter (fun r => nleb (Fin (price r)) p) sl)) in *. clearbody dm sp.
    change (np_adder B (map qty dm)) with (np_sum B (map qty dm)). change (np_adder B (map qty sp)) with (np_sum B (map qty sp)).
    destruct (sum_qty dm HD) as [ED ID]. destruct (sum_qty sp HU) as [EU IU]. rewrite ED, EU. set (c := qltb (np_sum B (map qty dm)) (np_sum B (map qty sp))).
    set (lg := if c then sp else dm). set (sh := if c then dm else sp). set (t := if c then np_sum B (map qty dm) else np_sum B (map qty sp)).
    assert (HL : table_in lg) by (unfold lg; destruct c; assumption). assert (HH : table_in sh) by (unfold sh; destruct c; assumption). assert (HT : inb a (2 ^ 40) t) by (unfold t; destruct c; assumption).
    assert (LL : (length lg + length sh <= length d)%nat) by (unfold lg, sh; destruct c; lia).
    clearbody lg sh t. destruct (qltb 0 t); [|split; [reflexivity | exact Nil]]. destruct p as [p| | |]; try (split; [reflexivity | discriminate]).
    destruct (trading_in lg t HL HT) as [E1 K1]. destruct (trading_in sh t HH HT) as [E2 K2]. rewrite E1, E2.
    destruct (get_trading_bids_r B (np_adder B) lg t) as [[l i]|]; [|split; [reflexivity | discriminate]]. cbn [bind]. destruct (get_trading_bids_r B (np_adder B) sh t) as [[l' i']|]; [|split; [reflexivity | discriminate]]. cbn [bind].
    destruct (K1 l i eq_refl) as (F & L & L1). destruct (K2 l' i' eq_refl) as (F' & _ & L2). destruct HL as [_ L'].
    destruct (charge_in l i t p (uniqueZ (map user (firstn (Datatypes.S i) l))) F ltac:(lia) HT HP fees) as [E3 K3]. rewrite E3. split; [reflexivity|]. intros Hf tm f E.
    destruct (charge_users_r B (np_adder B) l i t p _ fees) as [f'|]; [|discriminate]. cbn [bind] in E. destruct (K3 Hf f' eq_refl) as [K4 K5]. remember (add_all _ _) as tm' eqn:Etm in E. injection E as <- <-. subst tm'.
    rewrite !add_all_trans. change (tm_trans tm_init) with (@nil trans). rewrite app_nil_l. split; [|split; [|split; [exact K4 | exact K5]]].
    - apply Forall_app. split; apply made_in; assumption.
    - rewrite app_length, !map_length, !firstn_length. lia.
  Qed.
  Lemma price_in S d : table_in d -> find_competitive_price_o D S d = find_competitive_price_r B S d /\ forall p, find_competitive_price_r B S d = Ok p -> fin_in 2 p.
  Proof.
    intro H. unfold find_competitive_price_o, find_competitive_price_r. destruct (curves_in S d H) as [E K]. rewrite E. split; [reflexivity|].
    destruct (intersect_stepwise_r B _ _ _) as [[[[x i] k] v]|]; [|discriminate]. intros p Hp. cbn [bind] in Hp. injection Hp as <-. apply (K x i k v eq_refl).
  Qed.
  Lemma uniqueZ_len l : (length (uniqueZ l) <= length l)%nat.
  Proof. apply NoDup_incl_length; [apply MudaHalf.uniqueZ_NoDup | intros x Hx; apply MudaHalf.uniqueZ_In, Hx]. Qed.
  Theorem muda_in S d fl : table_in d -> labels_unique d -> muda_o D (np_sum_o D) S d fl = muda_r B (np_adder B) S d fl /\
    forall tm l r pl pr f, muda_r B (np_adder B) S d fl = Ok (tm, XMuda l r pl pr f) -> Forall trade_in (tm_trans tm) /\ (length (tm_trans tm) <= length d)%nat /\ Forall fee_small f /\ (length f <= length d)%nat.
  Proof.
    intros H U. unfold muda_o, muda_r, check_equal_price. destruct (_ || _); [split; [reflexivity | discriminate]|]. cbv zeta.
    change (pick_left (map lbl d) fl) with (left_of d fl). change (filter (fun i => negb (existsb (Nat.eqb i) (left_of d fl))) (map lbl d)) with (right_of d fl).
    assert (HL : table_in (loc d (left_of d fl))) by (rewrite loc_left by exact U; apply table_filter, H). assert (HR : table_in (loc d (right_of d fl))) by (rewrite loc_right by exact U; apply table_filter, H).
    destruct (price_in S _ HL) as [E1 K1]. destruct (price_in S _ HR) as [E2 K2]. rewrite E1, E2.
    assert (LN : (length (loc d (left_of d fl)) + length (loc d (right_of d fl)) = length d)%nat).
    { rewrite loc_left, loc_right by exact U. unfold rows_in. apply two_len. intros r Hr. apply right_mem, Hr. }
    destruct (find_competitive_price_r B S (loc d (left_of d fl))) as [pl|]; [|split; [reflexivity | discriminate]]. destruct (find_competitive_price_r B S (loc d (right_of d fl))) as [pr|]; [|split; [reflexivity | discriminate]]. cbn [bind].
    set (f0 := repeat 0 (length (uniqueZ (map user d)))). assert (F0 : Forall fee_small f0) by (unfold f0; apply Forall_forall; intros x Hx; apply repeat_spec in Hx; subst x; apply fee_0).
    assert (L0 : (length f0 <= length d)%nat) by (unfold f0; rewrite repeat_length, <- (map_length user d); apply uniqueZ_len).
    clearbody f0. destruct (solve_in S _ pr f0 HL (K2 pr eq_refl)) as [E3 K3]. rewrite E3. destruct (solve_market_side_r B _ S (loc d (left_of d fl)) pr f0) as [[t1 f1]|]; [|split; [reflexivity | discriminate]]. cbn [bind].
    destruct (K3 F0 t1 f1 eq_refl) as (A1 & A2 & A3 & A4). destruct (solve_in S _ pl f1 HR (K1 pl eq_refl)) as [E4 K4]. rewrite E4. split; [reflexivity|].
    destruct (solve_market_side_r B _ S (loc d (right_of d fl)) pl f1) as [[t2 f2]|]; [|discriminate]. cbn [bind]. destruct (K4 A3 t2 f2 eq_refl) as (B1 & B2 & B3 & B4).
    intros tm l r p1 p2 f E. remember (tm_merge t1 t2) as tm' eqn:Etm. injection E as E5 E6 E7 E8 E9 E10. subst tm f tm'. unfold tm_merge. rewrite !add_all_trans. simpl app.
    split; [apply Forall_app; split; assumption|]. split; [rewrite app_length; lia|]. split; [exact B3 | lia].
  Qed.
End Run.
