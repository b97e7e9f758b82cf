(** The uniform price mechanism on tables with infinite and NaN prices: what a run does. *)
From Verif Require Import QcTac Num NumFacts ListFacts ModelBase ModelCurves ModelHuang ModelAny ModelWild ModelWildUniform Spec SpecWild SpecWildUniform CurveFacts IntersectFacts
  StoreFacts UpdateFacts HuangFacts UnitFacts SepFacts WildFacts WildSort WildCap.

(** ** The price of the intersection *)
Lemma value_of f g k x i j v a u b w : intersect_stepwise f g k = Ok (Some x, Some i, Some j, v) -> nth_error f i = Some (a, u) -> nth_error g j = Some (b, w) ->
  v = if mem_col (Some x) f && mem_col (Some x) g then nadd (nmul w (Fin k)) (nmul (Fin (1 - k)) u) else if mem_col (Some x) f then w else u.
Proof.
  intros H Nf Ng. unfold intersect_stepwise in H. destruct (col_max f) as [fm|]; [|discriminate]. destruct (col_max g) as [gm|]; [|discriminate]. cbn [bind] in H.
  destruct (scan _ None) as [x_ast|]; [|discriminate]. cbn [bind] in H. destruct x_ast as [x'|]; cbn [option_map] in H.
  - unfold piece_value in H. destruct (nth_error g (argmax_bool _)) as [[b' w']|] eqn:Eg; [|discriminate]. destruct (nth_error f (argmax_bool _)) as [[a' u']|] eqn:Ef; [|discriminate].
    cbn [bind] in H. injection H as E1 E2 E3 E4. subst x'. rewrite E2, Nf in Ef. rewrite E3, Ng in Eg. injection Ef as <- <-. injection Eg as <- <-. symmetry. exact E4.
  - destruct (piece_value None _ g) as [[|]|]; cbn [bind] in H; try discriminate; destruct (piece_value None _ f) as [[|]|]; cbn [bind] in H; try discriminate.
Qed.

(** ** Ends of a side *)
Section Side.
  Variable l : wdf.
  Variable v : num.
  Hypothesis Hq : forall r, In r l -> 0 <= w_qty r.
  Let h := w_rows l ++ [(PInf, v)].
  Lemma side_nth i r : nth_error l i = Some r -> nth_error h i = Some (Fin (qsumf w_qty (firstn (S i) l)), w_price r).
  Proof.
    intro H. unfold h. rewrite w_rows_wrows, nth_error_app1 by (rewrite wrows_length; apply nth_error_Some; congruence).
    rewrite (wrows_nth 0 _ _ r H). rewrite Qcplus_0_l. reflexivity.
  Qed.
  Lemma side_end x i u r : StepAt h x i u -> nth_error l i = Some r -> (is_end h x <-> x = Fin (qsumf w_qty (firstn (S i) l))).
  Proof.
    intros ((a & N & Le) & Bef) Nr. rewrite (side_nth i r Nr) in N. injection N as <- <-. split.
    - intros (w & H). apply In_nth_error in H. destruct H as (k & Hk). apply nle_antisym; [exact Le|].
      destruct (Nat.lt_ge_cases k i) as [C|C]; [specialize (Bef _ _ _ C Hk); rewrite nle_refl in Bef by (apply (nle_ok _ _ Le)); discriminate|].
      destruct (proj1 (Nat.lt_eq_cases i k) C) as [C'|<-]; [|rewrite (side_nth i r Nr) in Hk; injection Hk as <- _; apply nle_refl; discriminate].
      destruct (w_ends l v Hq) as [_ So]. fold h in So. exact (sorted_nth _ _ _ _ _ _ So C' (side_nth i r Nr) Hk).
    - intros ->. exists (w_price r). apply (nth_error_In _ i), side_nth, Nr.
  Qed.
  Lemma side_before x i u c : StepAt h x i u -> (i < length l)%nat -> x = Fin c -> 0 <= c -> qsumf w_qty (firstn i l) <= c.
  Proof.
    intros (_ & Bef) Li -> C0. destruct i as [|i]; [rewrite firstn_O, qsumf_nil; exact C0|].
    destruct (nth_error l i) as [r|] eqn:Nr; [|apply nth_error_None in Nr; lia]. specialize (Bef i _ _ (Nat.lt_succ_diag_r i) (side_nth i r Nr)). cbn in Bef.
    apply qleb_gt in Bef. apply Qclt_le_weak, Bef.
  Qed.
End Side.

(** ** The transactions *)
Lemma long_part l r traded p : forall a, (forall y, In y l -> 0 <= w_qty y) -> a + qsumf w_qty l <= traded -> traded <= a + qsumf w_qty l + w_qty r ->
  w_uniform_long (l ++ [r]) traded a p = last_part l r (traded - (a + qsumf w_qty l)) p.
Proof.
  induction l as [|x l IH]; intros a Hl H1 H2.
  - rewrite qsumf_nil in *. cbn. unfold last_part. cbn. repeat f_equal. replace (traded - (a + 0)) with (traded - a) by ring.
    destruct (qle_spec (w_qty r + a) traded); [qlra | reflexivity].
  - rewrite qsumf_cons in *. cbn [app w_uniform_long]. assert (S0 : 0 <= qsumf w_qty l) by (apply qsumf_nonneg; intros y Hy; apply Hl; right; exact Hy).
    destruct (qle_spec (w_qty x + a) traded) as [_|G]; [|exfalso; qlra]. unfold last_part. cbn [in_full map app]. f_equal. rewrite IH.
    + unfold last_part. replace (a + w_qty x + qsumf w_qty l) with (a + (w_qty x + qsumf w_qty l)) by ring. reflexivity.
    + intros y Hy. apply Hl. right; exact Hy.
    + qlra.
    + qlra.
Qed.
Lemma firstn_last (l : wdf) i r : nth_error l i = Some r -> firstn (S i) l = firstn i l ++ [r].
Proof. revert i; induction l as [|x l IH]; intros [|i] H; simpl in H; try discriminate; [injection H as ->; reflexivity|]. cbn [firstn app] in *. f_equal. apply IH, H. Qed.

Section Run.
  Variable S : wsorter.
  Variable d : wdf.
  Hypothesis Hq : w_qty_nonneg d.
  Hypothesis Hs : asks_not_negative d.
  Let B := w_desc S (w_buyers d).
  Let L := w_asc S (w_sellers d).

  Theorem uniform_cases :
    w_uniform S d = Err TypeError /\ w_huang S d = Ok ([], None) \/
    exists ts q p, w_uniform S d = Ok (ts, Some (Fin q, p)) /\ Cleared B L ts q p /\ w_huang S d <> Ok ([], None).
  Proof.
    assert (QB : forall r, In r B -> 0 <= w_qty r) by exact (qB S d Hq). assert (QL : forall r, In r L -> 0 <= w_qty r) by exact (qL S d Hq).
    unfold w_uniform, w_huang in *. fold B. fold L. cbn zeta.
    destruct (intersect_pairs (w_demand B) (w_supply L) (w_ends B _ QB) (w_ends L _ QL) (w_end_inf B _) (w_end_inf L _) (qf 1 2))
      as [(x & y & b & s & u & w & i' & j' & u' & w' & v & E & Nx & Sf & Sg & Lwu & _)|(v & E & _)].
    2:{ rewrite E. left. split; reflexivity. }
    right. destruct (StepAt_in _ _ _ _ Sf) as (af & _ & _ & Nf). destruct (StepAt_in _ _ _ _ Sg) as (ag & _ & _ & Ng).
    pose proof (value_of _ _ _ _ _ _ _ _ _ _ _ E Nf Ng) as Ev. rewrite E in *. cbn [bind] in *. rewrite Ng, Nf in *.
    assert (HL : exists rs, nth_error L s = Some rs /\ w = w_price rs).
    { destruct (w_nth _ _ _ _ _ Ng) as [(r & H1 & _ & H2)|(_ & _ & ->)]; [eauto|]. destruct u; discriminate. }
    destruct HL as (rs & Ns & ->).
    assert (HB : exists rb, nth_error B b = Some rb /\ u = w_price rb).
    { destruct (w_nth _ _ _ _ _ Nf) as [(r & H1 & _ & H2)|(_ & _ & ->)]; [eauto|].
      destruct (in_L S d rs (nth_error_In _ _ Ns)) as [I1 I2]. unfold nlt in Lwu. rewrite (Hs rs I1 I2) in Lwu. discriminate. }
    destruct HB as (rb & Nb & ->). clear Ng Nf af ag.
    pose proof (nth_error_split' _ _ _ Nb) as EB. pose proof (nth_error_split' _ _ _ Ns) as EL.
    assert (LB : (b < length B)%nat) by (apply nth_error_Some; congruence). assert (LL : (s < length L)%nat) by (apply nth_error_Some; congruence).
    pose proof (side_end B (Fin 0) QB x b _ rb Sf Nb) as If. pose proof (side_end L PInf QL x s _ rs Sg Ns) as Ig.
    fold (w_demand B) in If. fold (w_supply L) in Ig.
    assert (Mf : mem_col (Some x) (w_demand B) = true <-> is_end (w_demand B) x) by apply mem_col_iff, w_ends, QB.
    assert (Mg : mem_col (Some x) (w_supply L) = true <-> is_end (w_supply L) x) by apply mem_col_iff, w_ends, QL.
    rewrite If in Mf. rewrite Ig in Mg.
    assert (P0 : nle (Fin 0) x) by (apply (end_pos (w_demand B) (w_supply L) (w_ends B (Fin 0) QB) (w_ends L PInf QL)), Nx).
    assert (Ex : x = Fin (qsumf w_qty (firstn (Datatypes.S b) B)) \/ x = Fin (qsumf w_qty (firstn (Datatypes.S s) L))).
    { destruct Nx as ([H|H] & _); [left; apply If, H | right; apply Ig, H]. }
    assert (Lf : nle x (Fin (qsumf w_qty (firstn (Datatypes.S b) B)))).
    { destruct Sf as ((a & H1 & H2) & _). unfold w_demand in H1. rewrite (side_nth B _ b rb Nb) in H1. injection H1 as <-. exact H2. }
    assert (Lg : nle x (Fin (qsumf w_qty (firstn (Datatypes.S s) L)))).
    { destruct Sg as ((a & H1 & H2) & _). unfold w_supply in H1. rewrite (side_nth L _ s rs Ns) in H1. injection H1 as <-. exact H2. }
    destruct x as [c| | |]; [|destruct Ex; discriminate..]. apply nle_Fin in P0, Lf, Lg.
    pose proof (side_before B (Fin 0) _ b _ c Sf LB eq_refl P0) as Bb. pose proof (side_before L PInf _ s _ c Sg LL eq_refl P0) as Bs.
    pose proof (firstn_last B b rb Nb) as FB. pose proof (firstn_last L s rs Ns) as FL.
    change (qsum (map w_qty (firstn (Datatypes.S b) B))) with (qsumf w_qty (firstn (Datatypes.S b) B)). change (qsum (map w_qty (firstn (Datatypes.S s) L))) with (qsumf w_qty (firstn (Datatypes.S s) L)).
    rewrite FB, FL in *. set (B1 := firstn b B) in *. set (L1 := firstn s L) in *.
    assert (QB1 : forall z, In z B1 -> 0 <= w_qty z) by (intros z Hz; apply QB, (In_firstn _ _ _ Hz)).
    assert (QL1 : forall z, In z L1 -> 0 <= w_qty z) by (intros z Hz; apply QL, (In_firstn _ _ _ Hz)).
    set (sb := qsumf w_qty (B1 ++ [rb])) in *. set (sl := qsumf w_qty (L1 ++ [rs])) in *.
    assert (Esb : sb = qsumf w_qty B1 + w_qty rb) by (unfold sb; rewrite qsumf_app, qsumf_cons, qsumf_nil; ring).
    assert (Esl : sl = qsumf w_qty L1 + w_qty rs) by (unfold sl; rewrite qsumf_app, qsumf_cons, qsumf_nil; ring).
    assert (Em : c = qmin sb sl) by (destruct (qmin_case sb sl) as [[-> ?]|[-> ?]]; destruct Ex as [Ex|Ex]; injection Ex as Ex; qlra).
    assert (Ef : mem_col (Some (Fin c)) (w_demand B) = true <-> c = sb) by (rewrite Mf; split; [intro H; injection H; auto | congruence]).
    assert (Eg : mem_col (Some (Fin c)) (w_supply L) = true <-> c = sl) by (rewrite Mg; split; [intro H; injection H; auto | congruence]).
    destruct (qlt_spec sl sb) as [G|G].
    - eexists _, c, v. split; [reflexivity|]. split; [|intro C; destruct (Nat.ltb 0 b && Nat.ltb 0 s); [|discriminate C]; destruct (qltb 0 _) in C; destruct (update_quantity _ _) in C; discriminate C].
      exists B1, rb, (skipn (Datatypes.S b) B), L1, rs, (skipn (Datatypes.S s) L). split; [exact EB|]. split; [exact EL|]. split; [exact Lwu|]. cbn zeta. fold sb sl.
      assert (Ec : c = sl) by (destruct Ex as [Ex|Ex]; injection Ex as Ex; qlra).
      split; [exact Em|]. split; [exact Bb|]. split; [exact Bs|]. left. split; [exact G|].
      assert (Vp : v = w_price rb). { rewrite Ev. destruct (mem_col (Some (Fin c)) (w_demand B)); [|reflexivity]. exfalso. assert (c = sb) by (apply Ef; reflexivity). qlra. }
      split; [exact Vp|]. unfold w_uniform_short, in_full. f_equal. change (qsum (map w_qty (L1 ++ [rs]))) with sl. rewrite <- Ec.
      rewrite long_part by (try exact QB1; qlra). f_equal. ring.
    - eexists _, c, v. split; [reflexivity|]. split; [|intro C; destruct (Nat.ltb 0 b && Nat.ltb 0 s); [|discriminate C]; destruct (qltb 0 _) in C; destruct (update_quantity _ _) in C; discriminate C].
      exists B1, rb, (skipn (Datatypes.S b) B), L1, rs, (skipn (Datatypes.S s) L). split; [exact EB|]. split; [exact EL|]. split; [exact Lwu|]. cbn zeta. fold sb sl.
      assert (Ec : c = sb) by (destruct Ex as [Ex|Ex]; injection Ex as Ex; qlra).
      split; [exact Em|]. split; [exact Bb|]. split; [exact Bs|]. right.
      assert (Ets : w_uniform_short (B1 ++ [rb]) v ++ w_uniform_long (L1 ++ [rs]) (qsum (map w_qty (B1 ++ [rb]))) 0 v = in_full (B1 ++ [rb]) v ++ last_part L1 rs (c - qsumf w_qty L1) v).
      { unfold w_uniform_short, in_full. f_equal. change (qsum (map w_qty (B1 ++ [rb]))) with sb. rewrite <- Ec. rewrite long_part by (try exact QL1; qlra). f_equal. ring. }
      rewrite (proj2 Ef Ec) in Ev. cbn [andb] in Ev.
      destruct (qlt_spec sb sl) as [G'|G'].
      + left. split; [exact G'|]. split; [|exact Ets]. rewrite Ev. destruct (mem_col (Some (Fin c)) (w_supply L)); [|reflexivity]. exfalso. assert (c = sl) by (apply Eg; reflexivity). qlra.
      + right. assert (Es : sb = sl) by qlra. split; [exact Es|]. split; [|exact Ets]. rewrite Ev, (proj2 Eg) by congruence. reflexivity.
  Qed.
End Run.
