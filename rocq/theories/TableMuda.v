(** MUDA on tables whose quantities can have any sign. *)
From Verif Require Import QcTac Num NumFacts ModelBase ModelCurves ModelHuang ModelMuda ListFacts Spec SpecTrade SpecMuda SpecErrors SpecTables
  FillFacts StoreFacts CurveFacts IntersectFacts MudaSide MudaHalf MudaSolve MudaOutcome MudaFacts MudaErrors RoundMuda ErrorFacts TableFacts.

(** ** The cut *)
Lemma argmax_cum_first (l : list Qc) : forall a Q, Q <= a + qsum l -> l <> [] ->
  let k := argmax_bool (map (fun c => qleb Q c) (cumsum_from a l)) in
  (k < length l)%nat /\ Q <= a + qsum (firstn (Datatypes.S k) l) /\ forall i, (i < k)%nat -> a + qsum (firstn (Datatypes.S i) l) < Q.
Proof.
  induction l as [|q l IH]; intros a Q H Hn; [congruence|]. cbn [cumsum_from map]. unfold argmax_bool in *. cbn [first_true].
  destruct (qle_spec Q (a + q)) as [L|L].
  - cbn [length firstn qsum]. split; [lia|]. split; [rewrite Qcplus_0_r; exact L | intros; lia].
  - cbn [qsum] in H. destruct l as [|q' l]; [cbn [qsum] in H; exfalso; qlra|].
    destruct (IH (a + q) Q) as (I1 & I2 & I3); [qlra | discriminate|].
    destruct (first_true (map (fun c => qleb Q c) (cumsum_from (a + q) (q' :: l)))) as [k|] eqn:E; cbn [option_map].
    + split; [cbn [length] in *; lia|]. split; [cbn [firstn qsum] in *; qlra|].
      intros [|i] Hi; [cbn [firstn qsum]; qlra|]. specialize (I3 i ltac:(lia)). cbn [firstn qsum] in *. qlra.
    + exfalso. cbv zeta in I2. clear - E I2 L H. 
      assert (F : forall l a, first_true (map (fun c => qleb Q c) (cumsum_from a l)) = None -> l <> [] -> a + qsum l < Q).
      { clear. induction l as [|x l IH]; intros a E N; [congruence|]. cbn [cumsum_from map first_true] in E. destruct (qle_spec Q (a + x)) as [L|L]; [discriminate|].
        destruct l as [|y l]; [cbn [qsum]; qlra|].
        assert (X : a + x + qsum (y :: l) < Q) by (apply IH; [destruct (first_true (map (fun c => qleb Q c) (cumsum_from (a + x) (y :: l)))); [discriminate | reflexivity] | discriminate]).
        cbn [qsum] in *. qlra. }
      pose proof (F _ _ E ltac:(discriminate)). qlra.
Qed.
Lemma firstn_with {A} (l : list A) k (x y : A) r : nth_error l k = Some r ->
  firstn (Datatypes.S k) (firstn k l ++ [x; y] ++ skipn (Datatypes.S k) l) = firstn k l ++ [x].
Proof.
  intro H. assert (Hk : length (firstn k l) = k) by (apply firstn_length_le, Nat.lt_le_incl, nth_error_Some; congruence).
  rewrite firstn_app, Hk. rewrite firstn_all2 by lia. replace (Datatypes.S k - k)%nat with 1%nat by lia. reflexivity.
Qed.
Lemma trading_any (L : df) (Q : Qc) : L <> [] -> exists L' k, get_trading_bids L Q = Ok (L', k) /\
  forall u, In u (map user (firstn (Datatypes.S k) L')) <-> exists r, user r = u /\ reached L Q r.
Proof.
  intro Hn. unfold get_trading_bids.
  set (k := if qltb Q (qsum (map qty L)) then _ else _).
  assert (Lk : (k < length L)%nat).
  { unfold k. destruct (qltb _ _).
    - rewrite <- (map_length qty L). assert (X : map qty L <> []) by (destruct L; [congruence | discriminate]). revert X. generalize (map qty L) as l. intros l X.
      eapply Nat.lt_le_trans; [apply argmax_bool_bound|rewrite map_length].
      + unfold cumsum. destruct l; [congruence | discriminate].
      + unfold cumsum. generalize 0 as a. clear. induction l as [|x l IH]; intro a; cbn [cumsum_from length]; [lia | specialize (IH (a + x)); lia].
    - destruct L; [congruence | cbn [length]; lia]. }
  destruct (nth_error L k) as [r|] eqn:E; [|apply nth_error_None in E; lia].
  assert (R : forall u, In u (map user (firstn (Datatypes.S k) L)) <-> exists r, user r = u /\ reached L Q r).
  { intro u. rewrite in_map_iff. split.
    - intros (x & Ux & Ix). exists x. split; [exact Ux|]. apply In_nth_error in Ix. destruct Ix as (j & Ej).
      assert (Lj : (j < Datatypes.S k)%nat) by (pose proof (proj1 (nth_error_Some (firstn (Datatypes.S k) L) j) ltac:(congruence)) as X; rewrite firstn_length in X; lia).
      assert (Ej' : nth_error L j = Some x).
      { rewrite <- (firstn_skipn (Datatypes.S k) L). rewrite nth_error_app1; [exact Ej | apply nth_error_Some; congruence]. }
      exists (firstn j L), (skipn (Datatypes.S j) L). split; [apply split_at, Ej'|]. unfold k in Lj.
      destruct (qlt_spec Q (qsum (map qty L))) as [B|B]; [right | left; exact B].
      destruct (argmax_cum_first (map qty L) 0 Q) as (_ & _ & K3); [qlra | destruct L; [congruence | discriminate]|].
      intros a b Ea Na. assert (La : length a <> 0%nat) by (destruct a; [congruence | discriminate]).
      assert (Lj' : length (firstn j L) = j) by (apply firstn_length_le, Nat.lt_le_incl, nth_error_Some; congruence).
      assert (La' : (length a <= j)%nat) by (rewrite <- Lj', Ea, app_length; lia).
      specialize (K3 (length a - 1)%nat). fold (cumsum (map qty L)) in K3. specialize (K3 ltac:(lia)).
      replace (Datatypes.S (length a - 1)) with (length a) in K3 by lia. rewrite firstn_map in K3.
      assert (Fa : firstn (length a) L = a).
      { rewrite <- (firstn_skipn j L), Ea, <- app_assoc. rewrite firstn_app, Nat.sub_diag, firstn_O, app_nil_r. apply firstn_all. }
      rewrite Fa in K3. rewrite Qcplus_0_l in K3. exact K3.
    - intros (x & Ux & l1 & l2 & EL & H). exists x. split; [exact Ux|].
      assert (Lj : (length l1 <= k)%nat).
      { destruct (Nat.le_gt_cases (length l1) k) as [X|X]; [exact X|]. exfalso. unfold k in X.
        destruct (qlt_spec Q (qsum (map qty L))) as [B|B].
        - destruct H as [H|H]; [unfold qsumf in H; qlra|].
          destruct (argmax_cum_first (map qty L) 0 Q) as (K1 & K2 & _); [qlra | destruct L; [congruence | discriminate]|].
          fold (cumsum (map qty L)) in K1, K2. set (j := argmax_bool _) in *.
          assert (F : firstn (Datatypes.S j) L = firstn (Datatypes.S j) l1).
          { rewrite EL, firstn_app. replace (Datatypes.S j - length l1)%nat with 0%nat by lia. rewrite firstn_O, app_nil_r. reflexivity. }
          rewrite firstn_map, F, Qcplus_0_l in K2.
          specialize (H (firstn (Datatypes.S j) l1) (skipn (Datatypes.S j) l1) (eq_sym (firstn_skipn _ _))).
          assert (N : firstn (Datatypes.S j) l1 <> []) by (destruct l1; [cbn [length] in X; lia | discriminate]).
          specialize (H N). unfold qsumf in H. qlra.
        - rewrite EL, app_length in X. cbn [length] in X. lia. }
      assert (Ex : nth_error L (length l1) = Some x) by (rewrite EL, nth_error_app2, Nat.sub_diag by lia; reflexivity).
      assert (Ex' : nth_error (firstn (Datatypes.S k) L) (length l1) = Some x).
      { rewrite <- (firstn_skipn (Datatypes.S k) L) in Ex. rewrite nth_error_app1 in Ex by (rewrite firstn_length; lia). exact Ex. }
      eapply nth_error_In, Ex'. }
  destruct (qltb _ (qty r)); eexists _, k; (split; [reflexivity|]); [|exact R].
  intro u. rewrite <- R, (firstn_with _ _ _ _ _ E), (firstn_split _ _ _ E), !map_app. cbn [map]. reflexivity.
Qed.

(** ** A half *)
Lemma solve_any S d p fees : solve_market_side S d (Fin p) fees = if qltb 0 (Q d p) then trade S d p fees else Ok (tm_init, fees).
Proof.
  unfold solve_market_side.
  assert (E1 : qsum (map qty (Ls S d p true)) = demand_at d p) by apply (Ls_sum S d p true).
  assert (E2 : qsum (map qty (Ls S d p false)) = supply_at d p) by apply (Ls_sum S d p false).
  assert (Z1 : buyers d = [] -> demand_at d p = 0) by (intro E; unfold demand_at; rewrite <- (filter_filter _ buying); fold (buyers d); rewrite E; reflexivity).
  assert (Z2 : sellers d = [] -> supply_at d p = 0) by (intro E; unfold supply_at; rewrite <- (filter_filter _ (fun r => negb (buying r))); fold (sellers d); rewrite E; reflexivity).
  assert (ZZ : Q d p <= 0 -> qltb 0 (Q d p) = false) by (intro H; apply qltb_ge, H).
  destruct (buyers d) as [|b0 bs] eqn:Eb; [|destruct (sellers d) as [|s0 ss] eqn:Es].
  - rewrite ZZ; [reflexivity|]. unfold Q. rewrite Z1 by reflexivity. destruct (qmin_case 0 (supply_at d p)) as [[-> ?]|[-> ?]]; qlra.
  - rewrite ZZ; [reflexivity|]. unfold Q. rewrite Z2 by reflexivity. destruct (qmin_case (demand_at d p) 0) as [[-> ?]|[-> ?]]; qlra.
  - rewrite <- Eb, <- Es. fold (Ls S d p true) (Ls S d p false). cbv zeta. rewrite E1, E2.
    unfold trade, lb, long_side, Q.
    destruct (qlt_spec (demand_at d p) (supply_at d p)) as [L|L]; simpl negb; cbv iota.
    + destruct (qmin_case (demand_at d p) (supply_at d p)) as [[-> ?]|[-> ?]]; [reflexivity|exfalso; qlra].
    + replace (qmin (demand_at d p) (supply_at d p)) with (supply_at d p); [reflexivity|].
      destruct (qmin_case (demand_at d p) (supply_at d p)) as [[-> ?]|[-> ?]]; qlra.
Qed.
Lemma queue_Ls S d p b : queue S b p d = Ls S d p b.
Proof. unfold queue, Ls, buyers, sellers. destruct b; rewrite filter_filter; reflexivity. Qed.
Lemma half_any S h p fees :
  ((forall u, pays S h p u -> in_range (length fees) u) -> exists tm fees', solve_market_side S h p fees = Ok (tm, fees') /\ length fees' = length fees) /\
  (forall u, pays S h p u -> ~ in_range (length fees) u -> solve_market_side S h p fees = Err IndexError).
Proof.
  destruct p as [q| | |]; cbn [pays].
  2-4: rewrite half_infinite by discriminate; split; [eauto | intros u []].
  rewrite solve_any. cbn [volume]. fold (Q h q). destruct (qlt_spec 0 (Q h q)) as [L|L].
  2:{ split; [eauto|]. intros u [X _] _. exfalso. qlra. }
  assert (Ne : forall b, Ls S h q b <> []).
  { intros b E. pose proof (Ls_sum S h q b) as X. rewrite E in X. unfold qsumf in X. cbn [map qsum] in X. pose proof (Q_le h q b). qlra. }
  unfold trade. destruct (trading_any (Ls S h q (lb h q)) (Q h q) (Ne _)) as (L1 & k1 & -> & U1).
  destruct (trading_any (Ls S h q (negb (lb h q))) (Q h q) (Ne _)) as (L2 & k2 & -> & _). cbn [bind]. cbv zeta.
  rewrite queue_Ls. change (long_side h q) with (lb h q).
  destruct (charge_full L1 k1 (Q h q) q (uniqueZ (map user (firstn (Datatypes.S k1) L1))) fees) as [C1 C2]. split.
  - intro H. destruct C1 as (f' & -> & Lf & _); [|cbn [bind]; eauto]. intros u Hu. apply uniqueZ_In, U1 in Hu. apply H. split; [exact L | exact Hu].
  - intros u [_ H] V. rewrite (C2 u); [reflexivity | apply uniqueZ_In, U1, H | exact V].
Qed.

(** ** The halves *)
Lemma flipped_left d : labels_unique d -> forall fl, length fl = length d -> rows_in (left_of d fl) d = flipped true fl d /\ rows_in (right_of d fl) d = flipped false fl d.
Proof.
  intros Hu fl Hl.
  assert (ER : rows_in (right_of d fl) d = filter (fun r => negb (existsb (Nat.eqb (lbl r)) (left_of d fl))) d) by (apply filter_ext_in'; intros r Hr; apply right_mem, Hr).
  rewrite ER. clear ER.
  unfold rows_in, left_of, flipped. revert fl Hl. induction d as [|r d IH]; intros [|b fl] Hl; try discriminate; [split; reflexivity|].
  unfold labels_unique in Hu. cbn [map] in Hu. inversion_clear Hu as [|? ? H1 H2]. injection Hl as Hl. destruct (IH H2 fl Hl) as [E1 E2].
  assert (Nr : existsb (Nat.eqb (lbl r)) (pick_left (map lbl d) fl) = false).
  { rewrite <- not_true_iff_false, mem_In. intro H. apply pick_left_sub in H. contradiction. }
  destruct b; cbn [map pick_left combine filter fst Bool.eqb snd].
  - assert (E : forall x, In x d -> existsb (Nat.eqb (lbl x)) (lbl r :: pick_left (map lbl d) fl) = existsb (Nat.eqb (lbl x)) (pick_left (map lbl d) fl)).
    { intros x Hx. cbn [existsb]. destruct (Nat.eqb_spec (lbl x) (lbl r)) as [E|]; [exfalso; apply H1; rewrite <- E; apply in_map, Hx | reflexivity]. }
    assert (Er : existsb (Nat.eqb (lbl r)) (lbl r :: pick_left (map lbl d) fl) = true) by (cbn [existsb]; rewrite Nat.eqb_refl; reflexivity).
    rewrite Er. cbn [negb]. split.
    + f_equal. rewrite <- E1. apply filter_ext_in', E.
    + rewrite <- E2. apply filter_ext_in'. intros x Hx. f_equal. apply E, Hx.
  - rewrite Nr. cbn [negb]. split; [exact E1 | f_equal; exact E2].
Qed.

Theorem muda_table S d fl : labels_unique d -> length fl = length d ->
  let l := flipped true fl d in let r := flipped false fl d in let n := length (nodup Z.eq_dec (map user d)) in
  (repeated_price d -> muda S d fl = Err NotImplementedError) /\
  (~ repeated_price d -> overdrawn S l \/ overdrawn S r -> muda S d fl = Err TypeError) /\
  (~ repeated_price d -> ~ (overdrawn S l \/ overdrawn S r) -> exists pl pr, find_competitive_price S l = Ok pl /\ find_competitive_price S r = Ok pr /\
     ((forall u, pays S l pr u \/ pays S r pl u -> in_range n u) -> exists tm ex, muda S d fl = Ok (tm, ex)) /\
     (forall u, pays S l pr u \/ pays S r pl u -> ~ in_range n u -> muda S d fl = Err IndexError)).
Proof.
  intros Hu Hl. destruct (flipped_left d Hu fl Hl) as [El Er]. cbv zeta. rewrite <- El, <- Er. clear El Er Hl.
  rewrite muda_eq by exact Hu. unfold check_equal_price. set (L := rows_in (left_of d fl) d). set (R := rows_in (right_of d fl) d). set (n := length _).
  destruct (_ || _) eqn:E.
  { apply (check_spec d Hu) in E. split; [reflexivity|]. split; [intro; contradiction | intro; contradiction]. }
  assert (Nr : ~ repeated_price d) by (rewrite <- (check_spec d Hu), E; discriminate).
  split; [intro; contradiction|].
  assert (En : length (uniqueZ (map user d)) = n).
  { apply Permutation_length. apply NoDup_Permutation; [apply uniqueZ_NoDup | apply NoDup_nodup|]. intro x. rewrite uniqueZ_In, nodup_In. tauto. }
  assert (Lz : length (zero_fees d) = n) by (rewrite <- En; apply repeat_length).
  unfold muda_body. fold L R. destruct (price_table S L) as [PL1 PL2]. destruct (price_table S R) as [PR1 PR2]. split; intros _ O.
  - destruct (overdrawn_dec S L) as [OL|OL]; [rewrite PL1 by exact OL; reflexivity|].
    assert (X : exists pl, find_competitive_price S L = Ok pl) by (destruct (PL2 OL) as [->|(p & ->)]; eauto).
    destruct X as (pl & ->). cbn [bind]. rewrite PR1 by tauto. reflexivity.
  - assert (X : exists pl, find_competitive_price S L = Ok pl) by (destruct PL2 as [->|(p & ->)]; [tauto | eauto | eauto]).
    assert (Y : exists pr, find_competitive_price S R = Ok pr) by (destruct PR2 as [->|(p & ->)]; [tauto | eauto | eauto]).
    destruct X as (pl & EL), Y as (pr & ER). exists pl, pr. split; [exact EL|]. split; [exact ER|]. rewrite EL, ER. cbn [bind].
    destruct (half_any S L pr (zero_fees d)) as [A1 A2]. rewrite Lz in A1, A2. split.
    + intro V. destruct A1 as (tm & f1 & -> & L1); [auto|]. cbn [bind].
      destruct (half_any S R pl f1) as [B1 _]. rewrite L1 in B1. destruct B1 as (tm' & f2 & -> & _); [auto|]. cbn [bind]. eauto.
    + intros u [Hu'|Hu'] V; [rewrite (A2 u Hu' V); reflexivity|].
      destruct (solve_market_side S L pr (zero_fees d)) as [[tm f1]|e] eqn:Es.
      * cbn [bind]. assert (L1 : length f1 = n).
        { destruct A1 as (tm' & f1' & E1 & L1); [|congruence]. intros v Hv.
          destruct (Z_lt_dec v (- Z.of_nat n)) as [W|W]; [exfalso; specialize (A2 v Hv ltac:(unfold in_range; lia)); discriminate|].
          destruct (Z_lt_dec v (Z.of_nat n)) as [W'|W']; [unfold in_range; lia | exfalso; specialize (A2 v Hv ltac:(unfold in_range; lia)); discriminate]. }
        destruct (half_any S R pl f1) as [_ B2]. rewrite L1 in B2. rewrite (B2 u Hu' V). reflexivity.
      * cbn [bind]. f_equal. destruct (half_any S L pr (zero_fees d)) as [A1' A2'].
        destruct pr as [q| | |]; [|rewrite half_infinite in Es by discriminate; discriminate..].
        rewrite solve_any in Es. destruct (qlt_spec 0 (Q L q)) as [LQ|LQ]; [|discriminate].
        (* an error of a half is an IndexError *)
        assert (Ne : forall b, Ls S L q b <> []).
        { intros b X. pose proof (Ls_sum S L q b) as Y. rewrite X in Y. unfold qsumf in Y. cbn [map qsum] in Y. pose proof (Q_le L q b). qlra. }
        unfold trade in Es. destruct (trading_any (Ls S L q (lb L q)) (Q L q) (Ne _)) as (L1 & k1 & E1 & _). rewrite E1 in Es.
        destruct (trading_any (Ls S L q (negb (lb L q))) (Q L q) (Ne _)) as (L2 & k2 & E2 & _). rewrite E2 in Es. cbn [bind] in Es. cbv zeta in Es.
        destruct (charge_users _ _ _ _ _ _) as [f'|e'] eqn:Ec in Es; cbn [bind] in Es; [discriminate|]. injection Es as <-.
        revert Ec. generalize (zero_fees d) as fees. generalize (uniqueZ (map user (firstn (Datatypes.S k1) L1))) as us. clear.
        induction us as [|u us IH]; intros fees Ec; cbn [charge_users] in Ec; [discriminate|].
        unfold set_fee in Ec. destruct ((0 <=? u)%Z && (u <? Z.of_nat (length fees))%Z); [cbn [bind] in Ec; eapply IH, Ec|].
        destruct ((- Z.of_nat (length fees) <=? u)%Z && (u <? 0)%Z); [cbn [bind] in Ec; eapply IH, Ec | cbn [bind] in Ec; congruence].
Qed.
