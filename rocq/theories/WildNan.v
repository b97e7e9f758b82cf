(** The Huang auction with NaN prices: the NaN bids are left out, or the auction does nothing. *)
From Verif Require Import QcTac Num NumFacts ListFacts ModelBase ModelCurves ModelHuang ModelAny ModelWild Spec SpecWild CurveFacts IntersectFacts
  StoreFacts UpdateFacts HuangFacts UnitFacts SepFacts WildFacts ExactFacts WildSort WildCap WildTop.

Lemma StepAt_prefix (p q q' : curve) x i u : (i < length p)%nat -> StepAt (p ++ q) x i u -> StepAt (p ++ q') x i u.
Proof.
  intros Li ((a & H1 & H2) & H3). rewrite nth_error_app1 in H1 by exact Li. split.
  - exists a. rewrite nth_error_app1 by exact Li. auto.
  - intros j b w Lj Nj. apply (H3 j b w Lj). rewrite nth_error_app1 in * by lia. exact Nj.
Qed.

(** a curve with rows [p] then others, and the curve with the rows [p] only *)
Section Side.
  Variables P N : wdf.
  Variable v : num.
  Hypothesis Hq : forall x, In x (P ++ N) -> 0 < w_qty x.
  Hypothesis HN : forall x, In x N -> w_price x = NaN.
  Let f := w_rows (P ++ N) ++ [(PInf, v)].
  Let f0 := w_rows P ++ [(PInf, v)].
  Let tot := qsumf w_qty P.
  Lemma side_split : exists rest, f = w_rows P ++ rest.
  Proof. exists (wrows (0 + tot) N ++ [(PInf, v)]). unfold f. rewrite !w_rows_wrows, wrows_app, <- app_assoc. reflexivity. Qed.
  Lemma rows_len : length (w_rows P) = length P. Proof. rewrite w_rows_wrows. apply wrows_length. Qed.
  Lemma step_into x i u : (i < length P)%nat -> StepAt f x i u -> StepAt f0 x i u.
  Proof. destruct side_split as (rest & E). rewrite E. unfold f0. intro L. apply StepAt_prefix. rewrite rows_len. exact L. Qed.
  Lemma step_out x i u : (i < length P)%nat -> StepAt f0 x i u -> StepAt f x i u.
  Proof. destruct side_split as (rest & E). rewrite E. unfold f0. intro L. apply StepAt_prefix. rewrite rows_len. exact L. Qed.
  Lemma nonneg_all x : In x (P ++ N) -> 0 <= w_qty x. Proof. intro H. apply Qclt_le_weak, Hq, H. Qed.
  Lemma nonneg_P x : In x P -> 0 <= w_qty x. Proof. intro H. apply nonneg_all, in_or_app. auto. Qed.
  (** before the total of [P], at a row of [P] *)
  Lemma step_below x i u : P <> [] -> nle x (Fin tot) -> StepAt f0 x i u -> (i < length P)%nat.
  Proof.
    intros NP L Su. destruct (w_step _ _ _ _ _ Su) as [(r & Nr & _)|(_ & _ & [C|C])]; [apply nth_error_Some; congruence | contradiction|].
    exfalso. apply (nlt_irrefl x), (nle_lt_trans _ _ _ L C).
  Qed.
  Lemma row_below x i u : (i < length P)%nat -> StepAt f0 x i u -> nle x (Fin tot).
  Proof.
    intros L Su. destruct (w_step _ _ _ _ _ Su) as [(r & _ & H & _)|(-> & _)]; [|lia].
    apply (nle_trans _ _ _ H), nle_Fin, prefix_sum. exact nonneg_P.
  Qed.
  (** the total of [P] is an end *)
  Lemma total_end : P <> [] -> is_end f0 (Fin tot).
  Proof.
    intro NP. destruct (exists_last NP) as (P' & r & E). exists (w_price r). unfold f0, tot. apply in_or_app. left. rewrite w_rows_wrows.
    apply (nth_error_In _ (length P')). rewrite (wrows_nth 0 P (length P') r) by (rewrite E, nth_error_app2, Nat.sub_diag by lia; reflexivity).
    rewrite Qcplus_0_l. do 3 f_equal. rewrite E, firstn_app, firstn_all2 by lia. replace (S (length P') - length P')%nat with 1%nat by lia. reflexivity.
  Qed.
  Lemma end_out x : is_end f0 x -> is_end f x.
  Proof.
    intros (w & H). unfold f0 in H. apply in_app_or in H. destruct H as [H|[H|[]]].
    - destruct side_split as (rest & ->). exists w. apply in_or_app. auto.
    - injection H as <- <-. apply w_end_inf.
  Qed.
  (** an end is one of [P], or is after the total of [P] *)
  Lemma end_into x : is_end f x -> is_end f0 x \/ nlt (Fin tot) x.
  Proof.
    intros (w & H). apply In_nth_error in H. destruct H as (i & H). destruct (Nat.lt_ge_cases i (length P)) as [L|L].
    - left. exists w. destruct side_split as (rest & E). rewrite E in H. rewrite nth_error_app1 in H by (rewrite rows_len; exact L).
      unfold f0. apply in_or_app. left. exact (nth_error_In _ _ H).
    - right. destruct (w_nth _ _ _ _ _ H) as [(r & Nr & -> & _)|(_ & -> & _)]; [|reflexivity].
      apply nlt_Fin. rewrite nth_error_app2 in Nr by exact L. rewrite firstn_app, firstn_all2, qsumf_app by lia.
      replace (S i - length P)%nat with (S (i - length P)) by lia. rewrite (firstn_S_snoc _ _ _ Nr), qsumf_app, qsumf_cons, qsumf_nil.
      assert (0 < w_qty r) by (apply Hq, in_or_app; right; exact (nth_error_In _ _ Nr)).
      assert (0 <= qsumf w_qty (firstn (i - length P) N)) by (apply qsumf_nonneg; intros z Hz; apply nonneg_all, in_or_app; right; apply (In_firstn _ _ _ Hz)).
      unfold tot. qlra.
  Qed.
  Lemma end_below x : nle x (Fin tot) -> is_end f x -> is_end f0 x.
  Proof. intros L H. destruct (end_into x H) as [K|K]; [exact K|]. exfalso. apply (nlt_irrefl x), (nle_lt_trans _ _ _ L K). Qed.
  (** with NaN rows: if the curve has values other than NaN at two neighbouring ends, both are in [P], or the value at the first is the closing value *)
  Lemma step_nan x i u : N <> [] -> ok u -> StepAt f x i u -> (i < length P)%nat \/ (u = v /\ nlt (Fin (qsumf w_qty (P ++ N))) x).
  Proof.
    intros NN Ou Su. destruct (w_step _ _ _ _ _ Su) as [(r & Nr & _ & ->)|(_ & -> & C)].
    - left. destruct (Nat.lt_ge_cases i (length P)) as [L|L]; [exact L|]. rewrite nth_error_app2 in Nr by exact L. apply nth_error_In in Nr.
      elim Ou. apply HN, Nr.
    - right. split; [reflexivity|]. destruct C as [C|C]; [|exact C]. apply app_eq_nil in C. tauto.
  Qed.
  Lemma all_end : N <> [] -> is_end f (Fin (qsumf w_qty (P ++ N))).
  Proof.
    intro NN. destruct (exists_last NN) as (N' & r & E). exists (w_price r). unfold f. apply in_or_app. left. rewrite w_rows_wrows. apply (nth_error_In _ (length (P ++ N'))).
    rewrite (wrows_nth 0 _ _ r) by (rewrite E, app_assoc, nth_error_app2, Nat.sub_diag by lia; reflexivity).
    rewrite Qcplus_0_l. do 3 f_equal. rewrite E, app_assoc, firstn_app, firstn_all2 by lia. replace (S (length (P ++ N')) - length (P ++ N'))%nat with 1%nat by lia. reflexivity.
  Qed.
End Side.

Section Nan.
  Variables B0 NB L0 NL : wdf.
  Hypothesis QB : forall x, In x (B0 ++ NB) -> 0 < w_qty x.
  Hypothesis QL : forall x, In x (L0 ++ NL) -> 0 < w_qty x.
  Hypothesis HNB : forall x, In x NB -> w_price x = NaN.
  Hypothesis HNL : forall x, In x NL -> w_price x = NaN.
  Hypothesis OB : forall x, In x B0 -> ok (w_price x) /\ nle (Fin 0) (w_price x).
  Hypothesis OL : forall x, In x L0 -> ok (w_price x) /\ nle (Fin 0) (w_price x).
  Hypothesis SB : StronglySorted down B0.
  Hypothesis SL : StronglySorted up L0.
  Let f := w_demand (B0 ++ NB). Let f0 := w_demand B0.
  Let g := w_supply (L0 ++ NL). Let g0 := w_supply L0.
  Let tb := qsumf w_qty B0. Let tl := qsumf w_qty L0.
  (** the two curves change sides between [x] and [y] *)
  Definition changes (h k : curve) (x y : num) (i j : nat) (u w : num) : Prop :=
    next_end h k x y /\ StepAt h x i u /\ StepAt k x j w /\ nlt w u /\ exists i' j' u' w', StepAt h y i' u' /\ StepAt k y j' w' /\ nlt u' w'.
  Lemma supply_nonneg (x : num) (l n : wdf) j w : (forall z, In z l -> ok (w_price z) /\ nle (Fin 0) (w_price z)) -> (forall z, In z n -> w_price z = NaN) ->
    StepAt (w_supply (l ++ n)) x j w -> ok w -> nle (Fin 0) w.
  Proof.
    intros O H Sw Ow. destruct (w_step _ _ _ _ _ Sw) as [(r & Nr & _ & ->)|(_ & -> & _)]; [|reflexivity].
    apply nth_error_In, in_app_or in Nr. destruct Nr as [Nr|Nr]; [apply O, Nr | elim Ow; apply H, Nr].
  Qed.
  Lemma nlt_okl a b : nlt a b -> ok a. Proof. intro H. apply nlt_ok in H. tauto. Qed.
  Lemma nlt_okr a b : nlt a b -> ok b. Proof. intro H. apply nlt_ok in H. tauto. Qed.

  (** what changes sides in the full table does so in the table without NaN, and before the totals of the sides with NaN *)
  Lemma changes_into x y i j u w : changes f g x y i j u w ->
    changes f0 g0 x y i j u w /\ (NB <> [] -> nle y (Fin tb)) /\ (NL <> [] -> nle y (Fin tl)).
  Proof.
    intros ((Ex & Ey & Lxy & Nx) & Su & Sw & L1 & i' & j' & u' & w' & Su' & Sw' & L2).
    assert (Pw : nle (Fin 0) w) by (apply (supply_nonneg x L0 NL j w OL HNL Sw), (nlt_okl _ _ L1)).
    (* demand side *)
    assert (DB : NB <> [] -> (i < length B0)%nat /\ (i' < length B0)%nat).
    { intro NN. destruct (step_nan B0 NB (Fin 0) HNB x i u NN (nlt_okr _ _ L1) Su) as [Hi|[-> _]].
      - split; [exact Hi|]. destruct (step_nan B0 NB (Fin 0) HNB y i' u' NN (nlt_okl _ _ L2) Su') as [Hi'|[_ C]]; [exact Hi'|]. exfalso.
        destruct (Nx _ (or_introl (all_end B0 NB (Fin 0) NN))) as [K|K].
        + pose proof (row_below B0 NB (Fin 0) QB x i u Hi (step_into B0 NB (Fin 0) x i u Hi Su)) as K2.
          apply (nle_trans _ _ _ K), nle_Fin in K2. rewrite qsumf_app in K2. destruct NB as [|n NB']; [congruence|].
          assert (0 < qsumf w_qty (n :: NB')).
          { rewrite qsumf_cons. assert (0 < w_qty n) by (apply QB, in_or_app; right; left; reflexivity).
            assert (0 <= qsumf w_qty NB') by (apply qsumf_nonneg; intros z Hz; apply Qclt_le_weak, QB, in_or_app; right; right; exact Hz). qlra. }
          qlra.
        + apply (nlt_irrefl y), (nle_lt_trans _ _ _ K C).
      - exfalso. apply (nlt_irrefl w), (nlt_le_trans _ _ _ L1 Pw). }
    assert (DL : NL <> [] -> (j < length L0)%nat /\ (j' < length L0)%nat).
    { intro NN. destruct (step_nan L0 NL PInf HNL x j w NN (nlt_okl _ _ L1) Sw) as [Hi|[-> _]].
      - split; [exact Hi|]. destruct (step_nan L0 NL PInf HNL y j' w' NN (nlt_okr _ _ L2) Sw') as [Hi'|[_ C]]; [exact Hi'|]. exfalso.
        destruct (Nx _ (or_intror (all_end L0 NL PInf NN))) as [K|K].
        + pose proof (row_below L0 NL PInf QL x j w Hi (step_into L0 NL PInf x j w Hi Sw)) as K2.
          apply (nle_trans _ _ _ K), nle_Fin in K2. rewrite qsumf_app in K2. destruct NL as [|n NL']; [congruence|].
          assert (0 < qsumf w_qty (n :: NL')).
          { rewrite qsumf_cons. assert (0 < w_qty n) by (apply QL, in_or_app; right; left; reflexivity).
            assert (0 <= qsumf w_qty NL') by (apply qsumf_nonneg; intros z Hz; apply Qclt_le_weak, QL, in_or_app; right; right; exact Hz). qlra. }
          qlra.
        + apply (nlt_irrefl y), (nle_lt_trans _ _ _ K C).
      - destruct u; discriminate. }
    assert (CB : NB = [] \/ NB <> []) by (destruct NB; [left; reflexivity | right; discriminate]).
    assert (CL : NL = [] \/ NL <> []) by (destruct NL; [left; reflexivity | right; discriminate]).
    assert (TB : StepAt f0 x i u /\ StepAt f0 y i' u' /\ (NB <> [] -> nle x (Fin tb) /\ nle y (Fin tb))).
    { destruct CB as [C|C].
      - unfold f, f0 in *. rewrite C, app_nil_r in Su, Su'. split; [exact Su|]. split; [exact Su'|]. intro K; contradiction.
      - destruct (DB C) as [I1 I2]. pose proof (step_into B0 NB (Fin 0) x i u I1 Su) as T1. pose proof (step_into B0 NB (Fin 0) y i' u' I2 Su') as T2.
        split; [exact T1|]. split; [exact T2|]. intros _. split; [exact (row_below B0 NB (Fin 0) QB _ _ _ I1 T1) | exact (row_below B0 NB (Fin 0) QB _ _ _ I2 T2)]. }
    assert (TL : StepAt g0 x j w /\ StepAt g0 y j' w' /\ (NL <> [] -> nle x (Fin tl) /\ nle y (Fin tl))).
    { destruct CL as [C|C].
      - unfold g, g0 in *. rewrite C, app_nil_r in Sw, Sw'. split; [exact Sw|]. split; [exact Sw'|]. intro K; contradiction.
      - destruct (DL C) as [I1 I2]. pose proof (step_into L0 NL PInf x j w I1 Sw) as T1. pose proof (step_into L0 NL PInf y j' w' I2 Sw') as T2.
        split; [exact T1|]. split; [exact T2|]. intros _. split; [exact (row_below L0 NL PInf QL _ _ _ I1 T1) | exact (row_below L0 NL PInf QL _ _ _ I2 T2)]. }
    destruct TB as (B1 & B2 & B3), TL as (L1' & L2' & L3'). split.
    2:{ split; intro K; [apply B3, K | apply L3', K]. }
    assert (EB : forall z, (z = x \/ z = y) -> is_end f z -> is_end f0 z).
    { intros z Hz H. destruct CB as [C|C]; [unfold f in H; rewrite C, app_nil_r in H; exact H|].
      apply (end_below B0 NB (Fin 0) QB z); [|exact H]. destruct Hz as [->| ->]; apply B3, C. }
    assert (EL : forall z, (z = x \/ z = y) -> is_end g z -> is_end g0 z).
    { intros z Hz H. destruct CL as [C|C]; [unfold g in H; rewrite C, app_nil_r in H; exact H|].
      apply (end_below L0 NL PInf QL z); [|exact H]. destruct Hz as [->| ->]; apply L3', C. }
    split.
    - split; [destruct Ex as [K|K]; [left; apply EB | right; apply EL]; auto|]. split; [destruct Ey as [K|K]; [left; apply EB | right; apply EL]; auto|].
      split; [exact Lxy|]. intros z [K|K]; apply Nx; [left; apply (end_out B0 NB (Fin 0)), K | right; apply (end_out L0 NL PInf), K].
    - split; [exact B1|]. split; [exact L1'|]. split; [exact L1|]. exists i', j', u', w'. auto.
  Qed.
  (** and back, unless the crossing uses up a side with NaN *)
  Lemma changes_out x y i j u w : changes f0 g0 x y i j u w -> (NB <> [] -> x <> Fin tb) -> (NL <> [] -> x <> Fin tl) -> changes f g x y i j u w.
  Proof.
    intros ((Ex & Ey & Lxy & Nx) & Su & Sw & L1 & i' & j' & u' & w' & Su' & Sw' & L2) HB HL.
    assert (Pw : nle (Fin 0) w).
    { apply (supply_nonneg x L0 [] j w OL); [intros z [] | rewrite app_nil_r; exact Sw | apply (nlt_okl _ _ L1)]. }
    assert (Ib : (i < length B0)%nat).
    { destruct (w_step _ _ _ _ _ Su) as [(r & Nr & _)|(_ & -> & _)]; [apply nth_error_Some; congruence|]. exfalso. apply (nlt_irrefl w), (nlt_le_trans _ _ _ L1 Pw). }
    assert (Il : (j < length L0)%nat).
    { destruct (w_step _ _ _ _ _ Sw) as [(r & Nr & _)|(_ & -> & _)]; [apply nth_error_Some; congruence|]. destruct u; discriminate. }
    assert (N1 : B0 <> []) by (intro Z; rewrite Z in Ib; simpl in Ib; lia). assert (N2 : L0 <> []) by (intro Z; rewrite Z in Il; simpl in Il; lia).
    assert (Xb : nle x (Fin tb)) by (apply (row_below B0 NB (Fin 0) QB x i u Ib Su)). assert (Xl : nle x (Fin tl)) by (apply (row_below L0 NL PInf QL x j w Il Sw)).
    assert (Yb : NB <> [] -> nle y (Fin tb)).
    { intro C. destruct (Nx (Fin tb) (or_introl (total_end B0 (Fin 0) N1))) as [K|K]; [|exact K]. elim (HB C). apply nle_antisym; assumption. }
    assert (Yl : NL <> [] -> nle y (Fin tl)).
    { intro C. destruct (Nx (Fin tl) (or_intror (total_end L0 PInf N2))) as [K|K]; [|exact K]. elim (HL C). apply nle_antisym; assumption. }
    assert (CB : NB = [] \/ NB <> []) by (destruct NB; [left; reflexivity | right; discriminate]).
    assert (CL : NL = [] \/ NL <> []) by (destruct NL; [left; reflexivity | right; discriminate]).
    split; [|split; [apply (step_out B0 NB (Fin 0)); assumption|]; split; [apply (step_out L0 NL PInf); assumption|]; split; [exact L1|]].
    - split; [destruct Ex as [K|K]; [left; apply (end_out B0 NB (Fin 0)), K | right; apply (end_out L0 NL PInf), K]|].
      split; [destruct Ey as [K|K]; [left; apply (end_out B0 NB (Fin 0)), K | right; apply (end_out L0 NL PInf), K]|]. split; [exact Lxy|].
      intros z [K|K].
      + destruct CB as [C|C]; [apply Nx; left; unfold f in K; rewrite C, app_nil_r in K; exact K|].
        destruct (end_into B0 NB (Fin 0) QB z K) as [K'|K']; [apply Nx; left; exact K'|]. right. apply (nle_trans _ _ _ (Yb C)), nlt_le, K'.
      + destruct CL as [C|C]; [apply Nx; right; unfold g in K; rewrite C, app_nil_r in K; exact K|].
        destruct (end_into L0 NL PInf QL z K) as [K'|K']; [apply Nx; right; exact K'|]. right. apply (nle_trans _ _ _ (Yl C)), nlt_le, K'.
    - exists i', j', u', w'. split; [|split; [|exact L2]].
      + destruct CB as [C|C]; [unfold f; rewrite C, app_nil_r; exact Su'|]. apply (step_out B0 NB (Fin 0)); [|exact Su'].
        apply (step_below B0 (Fin 0) y i' u' N1 (Yb C) Su').
      + destruct CL as [C|C]; [unfold g; rewrite C, app_nil_r; exact Sw'|]. apply (step_out L0 NL PInf); [|exact Sw'].
        apply (step_below L0 PInf y j' w' N2 (Yl C) Sw').
  Qed.
End Nan.

(** ** The curves without NaN *)
Lemma demand_decreasing l : (forall x, In x l -> ok (w_price x) /\ nle (Fin 0) (w_price x)) -> StronglySorted down l -> decreasing (w_demand l).
Proof.
  intros O So. unfold w_demand. rewrite w_rows_wrows. enough (G : forall a, decreasing (wrows a l ++ [(PInf, Fin 0)])) by apply G. induction So as [|r l So IH F]; intro a.
  - split; [intros p [<-|[]]; discriminate|]. constructor; constructor.
  - rewrite wrows_cons. cbn [app]. destruct (IH (fun x Hx => O x (or_intror Hx)) (a + w_qty r)) as [I1 I2].
    destruct (O r (or_introl eq_refl)) as [O1 O2]. split.
    + intros p [<-|Hp]; [exact O1 | apply I1, Hp].
    + constructor; [exact I2|]. rewrite Forall_forall in *. intros p Hp. apply in_app_or in Hp. destruct Hp as [Hp|[<-|[]]]; [|exact O2].
      cbn [snd]. destruct (wrows_snd _ _ _ Hp) as (x & Hx & ->). destruct (F x Hx) as [K|K]; [destruct (O x (or_intror Hx)); contradiction | exact K].
Qed.
Lemma supply_increasing l : (forall x, In x l -> ok (w_price x) /\ nle (Fin 0) (w_price x)) -> StronglySorted up l -> increasing (w_supply l).
Proof.
  intros O So. unfold w_supply. rewrite w_rows_wrows. enough (G : forall a, increasing (wrows a l ++ [(PInf, PInf)])) by apply G. induction So as [|r l So IH F]; intro a.
  - split; [intros p [<-|[]]; discriminate|]. constructor; constructor.
  - rewrite wrows_cons. cbn [app]. destruct (IH (fun x Hx => O x (or_intror Hx)) (a + w_qty r)) as [I1 I2].
    destruct (O r (or_introl eq_refl)) as [O1 O2]. split.
    + intros p [<-|Hp]; [exact O1 | apply I1, Hp].
    + constructor; [exact I2|]. rewrite Forall_forall in *. intros p Hp. apply in_app_or in Hp. destruct Hp as [Hp|[<-|[]]]; [|apply nle_PInf, O1].
      cbn [snd]. destruct (wrows_snd _ _ _ Hp) as (x & Hx & ->). destruct (F x Hx) as [K|K]; [destruct (O x (or_intror Hx)); contradiction | exact K].
Qed.
Lemma changes_crossing (f g : curve) x y i j u w : ends_sorted f -> ends_sorted g -> decreasing f -> increasing g -> is_end f PInf -> is_end g PInf ->
  changes f g x y i j u w -> Crossing f g x.
Proof.
  intros Hf Hg Df Ig Ef Eg (NE & Su & Sw & L1 & i' & j' & u' & w' & Su' & Sw' & L2).
  assert (C : forall x, In x (common_xs f g PInf) <-> end_of f g x).
  { intro z. rewrite common_In by assumption. unfold end_of. split; [tauto|]. intro H. split; [exact H|]. apply nle_PInf, (end_ok f g Hf Hg), H. }
  destruct NE as (Ex & Ey & Lxy & Nx).
  destruct (sorted_next (common_xs f g PInf) x y) as (l1 & l2 & E); [apply common_sorted; assumption | apply C, Ex | apply C, Ey | exact Lxy | intros z Hz; apply Nx, C, Hz|].
  pose proof (end_pos f g Hf Hg x Ex) as P1. pose proof (end_pos f g Hf Hg y Ey) as P2.
  apply (crossing_of_pair f g Hf Hg Df Ig PInf l1 x y l2).
  - intros z Hz. split; [|intros _; apply nle_PInf, (nle_ok _ _ Hz)]. intros _. split; apply step_some; try assumption; apply (nle_ok _ _ Hz).
  - exact E.
  - destruct (fval_StepAt f x _ _ P1 Su) as [-> _], (fval_StepAt g x _ _ P1 Sw) as [-> _]. exact L1.
  - destruct (fval_StepAt f y _ _ P2 Su') as [-> _], (fval_StepAt g y _ _ P2 Sw') as [-> _]. exact L2.
Qed.

(** ** The auction *)
Lemma w_huang_eq S S' d d' x i j v v' : 
  intersect_stepwise (w_demand (w_desc S (w_buyers d))) (w_supply (w_asc S (w_sellers d))) (qf 1 2) = Ok (Some x, Some i, Some j, v) ->
  intersect_stepwise (w_demand (w_desc S' (w_buyers d'))) (w_supply (w_asc S' (w_sellers d'))) (qf 1 2) = Ok (Some x, Some i, Some j, v') ->
  option_map snd (nth_error (w_demand (w_desc S (w_buyers d))) i) = option_map snd (nth_error (w_demand (w_desc S' (w_buyers d'))) i) ->
  option_map snd (nth_error (w_supply (w_asc S (w_sellers d))) j) = option_map snd (nth_error (w_supply (w_asc S' (w_sellers d'))) j) ->
  firstn i (w_desc S (w_buyers d)) = firstn i (w_desc S' (w_buyers d')) -> firstn j (w_asc S (w_sellers d)) = firstn j (w_asc S' (w_sellers d')) ->
  w_huang S d = w_huang S' d'.
Proof.
  intros E1 E2 N1 N2 F1 F2. unfold w_huang. rewrite E1, E2. cbn [bind]. rewrite F1, F2.
  destruct (nth_error (w_demand (w_desc S (w_buyers d))) i) as [[a1 p1]|], (nth_error (w_demand (w_desc S' (w_buyers d'))) i) as [[a2 p2]|]; try discriminate;
  destruct (nth_error (w_supply (w_asc S (w_sellers d))) j) as [[a3 p3]|], (nth_error (w_supply (w_asc S' (w_sellers d'))) j) as [[a4 p4]|]; try discriminate; try reflexivity.
  cbn in N1, N2. injection N1 as ->. injection N2 as ->. reflexivity.
Qed.
Lemma filter_swap {A} (p q : A -> bool) l : filter p (filter q l) = filter q (filter p l).
Proof. rewrite !filter_filter. apply filter_ext. intro x. apply andb_comm. Qed.

Theorem nan_bids S d : w_qty_pos d -> no_negative d -> exists S',
  (nan_blocks S' d /\ w_huang S d = Ok ([], None)) \/ (~ nan_blocks S' d /\ w_huang S d = w_huang S' (filter not_nan d)).
Proof.
  intros Hq Hn. set (d0 := filter not_nan d). set (B := w_desc S (w_buyers d)). set (L := w_asc S (w_sellers d)).
  set (B0 := filter not_nan B). set (NB := filter (fun x => negb (not_nan x)) B). set (L0 := filter not_nan L). set (NL := filter (fun x => negb (not_nan x)) L).
  assert (EB : B = B0 ++ NB) by (apply down_nan, w_desc_sorted). assert (EL : L = L0 ++ NL) by (apply up_nan, w_asc_sorted).
  assert (SB : StronglySorted down B0) by (pose proof (w_desc_sorted S (w_buyers d)) as H; fold B in H; rewrite EB in H; apply sorted_app2 in H; apply H).
  assert (SL : StronglySorted up L0) by (pose proof (w_asc_sorted S (w_sellers d)) as H; fold L in H; rewrite EL in H; apply sorted_app2 in H; apply H).
  destruct (wsorter_for (w_buyers d0) B0 (w_sellers d0) L0) as (S' & E1 & E2).
  { unfold w_buyers, d0. rewrite filter_swap. apply filter_perm, w_desc_perm. }
  { exact SB. }
  { unfold w_sellers, d0. rewrite filter_swap. apply filter_perm, w_asc_perm. }
  { exact SL. }
  exists S'.
  assert (QB : forall x, In x (B0 ++ NB) -> 0 < w_qty x) by (intros x Hx; rewrite <- EB in Hx; apply Hq, (in_B S d), Hx).
  assert (QL : forall x, In x (L0 ++ NL) -> 0 < w_qty x) by (intros x Hx; rewrite <- EL in Hx; apply Hq, (in_L S d), Hx).
  assert (NN : forall l x, In x (filter (fun x => negb (not_nan x)) l) -> w_price x = NaN).
  { intros l x Hx. apply filter_In in Hx. destruct Hx as [_ Hx]. unfold not_nan in Hx. destruct (w_price x); try discriminate. reflexivity. }
  assert (OO : forall l, (forall x, In x l -> In x d) -> forall x, In x (filter not_nan l) -> ok (w_price x) /\ nle (Fin 0) (w_price x)).
  { intros l Hl x Hx. apply filter_In in Hx. destruct Hx as [Hx K]. specialize (Hn x (Hl x Hx)). unfold not_nan in K.
    assert (Ox : ok (w_price x)) by (destruct (w_price x); discriminate). split; [exact Ox|].
    apply nltb_false; [exact Ox | discriminate | exact Hn]. }
  assert (OB : forall x, In x B0 -> ok (w_price x) /\ nle (Fin 0) (w_price x)) by (apply OO; intros x Hx; apply (in_B S d), Hx).
  assert (OL : forall x, In x L0 -> ok (w_price x) /\ nle (Fin 0) (w_price x)) by (apply OO; intros x Hx; apply (in_L S d), Hx).
  assert (TB : qsumf w_qty B0 = wanted d0) by (rewrite <- E1; apply QcTac.qsumf_perm, w_desc_perm).
  assert (TL : qsumf w_qty L0 = offered d0) by (rewrite <- E2; apply QcTac.qsumf_perm, w_asc_perm).
  assert (XB : NB <> [] <-> exists r, In r d /\ w_price r = NaN /\ w_buying r = true).
  { split.
    - intro K. destruct NB as [|r NB'] eqn:ENB; [congruence|]. assert (Hr : In r B) by (rewrite EB; apply in_or_app; right; left; reflexivity).
      destruct (in_B S d r Hr). exists r. repeat split; auto. apply (NN B). fold NB. rewrite ENB. left. reflexivity.
    - intros (r & H1 & H2 & H3) K. assert (In r NB); [|rewrite K in *; contradiction]. apply filter_In. split; [|unfold not_nan; rewrite H2; reflexivity].
      apply (Permutation_in r (Permutation_sym (w_desc_perm S (w_buyers d)))). apply filter_In. auto. }
  assert (XL : NL <> [] <-> exists r, In r d /\ w_price r = NaN /\ w_buying r = false).
  { split.
    - intro K. destruct NL as [|r NL'] eqn:ENL; [congruence|]. assert (Hr : In r L) by (rewrite EL; apply in_or_app; right; left; reflexivity).
      destruct (in_L S d r Hr). exists r. repeat split; auto. apply (NN L). fold NL. rewrite ENL. left. reflexivity.
    - intros (r & H1 & H2 & H3) K. assert (In r NL); [|rewrite K in *; contradiction]. apply filter_In. split; [|unfold not_nan; rewrite H2; reflexivity].
      apply (Permutation_in r (Permutation_sym (w_asc_perm S (w_sellers d)))). apply filter_In. rewrite H3. auto. }
  assert (F1 : ends_sorted (w_demand B0)) by (apply w_ends, (nonneg_P B0 NB QB)). assert (F2 : ends_sorted (w_supply L0)) by (apply w_ends, (nonneg_P L0 NL QL)).
  assert (F3 : ends_sorted (w_demand B)) by (rewrite EB; apply w_ends, (nonneg_all B0 NB QB)). assert (F4 : ends_sorted (w_supply L)) by (rewrite EL; apply w_ends, (nonneg_all L0 NL QL)).
  pose proof (demand_decreasing B0 OB SB) as D1. pose proof (supply_increasing L0 OL SL) as D2.
  assert (CC : forall x y i j u w, changes (w_demand B0) (w_supply L0) x y i j u w -> Crossing (w_demand B0) (w_supply L0) x)
    by (intros; eapply changes_crossing; eauto using w_end_inf).
  unfold nan_blocks, curves_cross. fold d0. rewrite E1, E2.
  destruct (intersect_pairs _ _ F3 F4 (w_end_inf B _) (w_end_inf L _) (qf 1 2))
    as [(x & y & i & j & u & w & i' & j' & u' & w' & v & E & NE & Sf & Sg & Lwu & Sf' & Sg' & Lwu')|(v & E & No)].
  - right. assert (Ch : changes (w_demand (B0 ++ NB)) (w_supply (L0 ++ NL)) x y i j u w).
    { rewrite <- EB, <- EL. split; [exact NE|]. repeat (split; [assumption|]). exists i', j', u', w'. auto. }
    destruct (changes_into B0 NB L0 NL QB QL (NN B) (NN L) OL x y i j u w Ch) as (Ch0 & Yb & Yl).
    pose proof (CC _ _ _ _ _ _ Ch0) as Cx. destruct NE as (_ & _ & Lxy & _). split.
    + intros (x0 & C0 & K). pose proof (crossing_unique _ _ x0 x C0 Cx) as ->. destruct K as [[K1 K2]|[K1 K2]].
      * apply XB in K1. specialize (Yb K1). rewrite TB, <- K2 in Yb. apply (nlt_irrefl x), (nlt_le_trans _ _ _ Lxy Yb).
      * apply XL in K1. specialize (Yl K1). rewrite TL, <- K2 in Yl. apply (nlt_irrefl x), (nlt_le_trans _ _ _ Lxy Yl).
    + destruct Ch0 as (NE0 & T1 & T2 & _ & i1 & j1 & u1 & w1 & T3 & T4 & T5).
      destruct (intersect_pairs _ _ F1 F2 (w_end_inf B0 _) (w_end_inf L0 _) (qf 1 2))
        as [(x' & y' & a & b & u2 & w2 & a' & b' & u3 & w3 & v' & E' & NE' & Sf2 & Sg2 & Lwu2 & Sf3 & Sg3 & Lwu3)|(v' & E' & No')].
      2:{ exfalso. exact (No' x y i j u w i1 j1 u1 w1 NE0 T1 T2 T3 T4 (conj Lwu T5)). }
      assert (Ch' : changes (w_demand B0) (w_supply L0) x' y' a b u2 w2) by (split; [exact NE'|]; repeat (split; [assumption|]); exists a', b', u3, w3; auto).
      pose proof (crossing_unique _ _ x' x (CC _ _ _ _ _ _ Ch') Cx) as ->.
      destruct (StepAt_fun _ _ _ _ _ _ Sf2 T1) as [-> ->], (StepAt_fun _ _ _ _ _ _ Sg2 T2) as [-> ->].
      apply (w_huang_eq S S' d d0 x i j v v'); rewrite ?E1, ?E2; fold B; fold L; [exact E | exact E'| | | |].
      * destruct (StepAt_in _ _ _ _ Sf) as (? & _ & _ & ->), (StepAt_in _ _ _ _ T1) as (? & _ & _ & ->). reflexivity.
      * destruct (StepAt_in _ _ _ _ Sg) as (? & _ & _ & ->), (StepAt_in _ _ _ _ T2) as (? & _ & _ & ->). reflexivity.
      * assert (H : (i <= length B0)%nat) by (destruct (w_step _ _ _ _ _ T1) as [(r & Nr & _)|(-> & _)]; [apply Nat.lt_le_incl, nth_error_Some; congruence | lia]).
        rewrite EB, firstn_app. replace (i - length B0)%nat with 0%nat by lia. cbn [firstn]. apply app_nil_r.
      * assert (H : (j <= length L0)%nat) by (destruct (w_step _ _ _ _ _ T2) as [(r & Nr & _)|(-> & _)]; [apply Nat.lt_le_incl, nth_error_Some; congruence | lia]).
        rewrite EL, firstn_app. replace (j - length L0)%nat with 0%nat by lia. cbn [firstn]. apply app_nil_r.
  - assert (R : w_huang S d = Ok ([], None)) by (unfold w_huang; fold B; fold L; rewrite E; reflexivity). rewrite R.
    destruct (intersect_pairs _ _ F1 F2 (w_end_inf B0 _) (w_end_inf L0 _) (qf 1 2))
      as [(x & y & i & j & u & w & i' & j' & u' & w' & v' & E' & NE & Sf & Sg & Lwu & Sf' & Sg' & Lwu')|(v' & E' & No')].
    + left. split; [|reflexivity]. assert (Ch0 : changes (w_demand B0) (w_supply L0) x y i j u w) by (split; [exact NE|]; repeat (split; [assumption|]); exists i', j', u', w'; auto).
      exists x. split; [apply (CC _ _ _ _ _ _ Ch0)|]. rewrite <- XB, <- XL, <- TB, <- TL.
      assert (CB : NB = [] \/ NB <> []) by (destruct NB; [left; reflexivity | right; discriminate]).
      assert (CL : NL = [] \/ NL <> []) by (destruct NL; [left; reflexivity | right; discriminate]).
      destruct (num_eq_dec x (Fin (qsumf w_qty B0))) as [Xb|Xb], (num_eq_dec x (Fin (qsumf w_qty L0))) as [Xl|Xl]; destruct CB as [CB|CB], CL as [CL|CL]; try (left; split; assumption); try (right; split; assumption);
      exfalso; destruct (changes_out B0 NB L0 NL QB QL (NN B) (NN L) OL x y i j u w Ch0) as (G1 & G2 & G3 & G4 & a & b & c & e & G5 & G6 & G7); try (intro; assumption); try (intro; contradiction);
      rewrite <- EB, <- EL in *; exact (No x y i j u w a b c e G1 G2 G3 G5 G6 (conj G4 G7)).
    + right. split; [|unfold w_huang; rewrite E1, E2, E'; reflexivity]. intros (x & Cx & _).
      destruct (intersect_cases (w_demand B0) (w_supply L0) (qf 1 2)) as [(x' & i & j & u & w & v'' & E'' & _)|(v'' & _ & NC)]; try assumption.
      * destruct (w_end_inf B0 (Fin 0)) as (z & Hz). intro K. unfold w_demand in K. rewrite K in Hz. destruct Hz.
      * destruct (w_end_inf L0 PInf) as (z & Hz). intro K. unfold w_supply in K. rewrite K in Hz. destruct Hz.
      * rewrite E' in E''. discriminate.
      * exact (NC x Cx).
Qed.

(** ** A NaN bid that trades *)
Definition nan_witness : wdf := [mkWRow 0 1 NaN 0 true 0 true; mkWRow 1 1 (Fin (- qz 3)) 1 false 0 true; mkWRow 2 (qz 2) (Fin (- qz 1)) 2 false 0 true].
Lemma nan_negative_refuted : ~ (forall S d ts e, w_qty_pos d -> w_huang S d = Ok (ts, e) ->
  forall x t, In x d -> w_price x = NaN -> In t ts -> x_bid t = w_lbl x -> x_qty t = 0).
Proof.
  intro H. destruct (w_huang w_stable nan_witness) as [[ts e]|] eqn:E; [|vm_compute in E; discriminate].
  assert (Q : w_qty_pos nan_witness) by (intros x [<-|[<-|[<-|[]]]]; reflexivity).
  pose proof (H w_stable nan_witness ts e Q E (mkWRow 0 1 NaN 0 true 0 true) (nth 1 ts (mkATrans 7 0 NaN 0 true)) (or_introl eq_refl) eq_refl) as K. clear H Q.
  vm_compute in E. injection E as <- <-. specialize (K (or_intror (or_introl eq_refl)) eq_refl).
  apply (f_equal this) in K. vm_compute in K. discriminate.
Qed.
