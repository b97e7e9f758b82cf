(** The uniform price mechanism on the mirror image of a market, the orders of equal prices, and what the users gain. *)
From Verif Require Import QcTac Num NumFacts ModelBase ModelCurves ModelHuang ModelMuda ModelUniform ListFacts Spec SpecTrade SpecMuda SpecTables SpecDual
  Sorter CurveFacts IntersectFacts CurveTop UpdateFacts StoreFacts HuangFacts UniformFacts SortFacts MudaFacts TableMuda DualFacts DualHuang DualMuda.

(** ** Orders *)
Lemma flip_sorted (P P' : row -> row -> Prop) M l : (forall a b, P a b -> P' (flip M a) (flip M b)) -> StronglySorted P l -> StronglySorted P' (map (flip M) l).
Proof.
  intros H Hs. induction Hs as [|x l Hs IH F]; cbn [map]; constructor; [exact IH|]. rewrite Forall_forall in *. intros y Hy.
  apply in_map_iff in Hy. destruct Hy as (z & <- & Hz). apply H, F, Hz.
Qed.
Lemma mirror_asc_perm M S l : Permutation (map (flip M) (s_desc S (map (flip M) l))) l.
Proof. rewrite <- (flip_all M l) at 2. apply Permutation_map, s_desc_perm. Qed.
Lemma mirror_desc_perm M S l : Permutation (map (flip M) (s_asc S (map (flip M) l))) l.
Proof. rewrite <- (flip_all M l) at 2. apply Permutation_map, s_asc_perm. Qed.
Lemma mirror_asc_sorted M S l : StronglySorted (fun a b => price a <= price b) (map (flip M) (s_desc S (map (flip M) l))).
Proof. eapply flip_sorted; [|apply s_desc_sorted]. intros a b H. cbn [flip price]. cbv beta in H. qlra. Qed.
Lemma mirror_desc_sorted M S l : StronglySorted (fun a b => price b <= price a) (map (flip M) (s_asc S (map (flip M) l))).
Proof. eapply flip_sorted; [|apply s_asc_sorted]. intros a b H. cbn [flip price]. cbv beta in H. qlra. Qed.
Definition mirror (M : Qc) (S : sorter) : sorter :=
  mkSorter _ _ (mirror_asc_perm M S) (mirror_desc_perm M S) (mirror_asc_sorted M S) (mirror_desc_sorted M S).
Lemma mirror_ok M S : mirrored M S (mirror M S).
Proof. intro l. cbn [mirror s_asc s_desc]. rewrite flip_all. split; reflexivity. Qed.
Lemma stable_mirror M : mirrored M stable_sorter stable_sorter.
Proof.
  intro l. cbn [stable_sorter s_asc s_desc].
  assert (K : forall le le' : row -> row -> bool, (forall a b, le' (flip M a) (flip M b) = le a b) -> isort le' (map (flip M) l) = map (flip M) (isort le l)).
  { intros le le' H. unfold isort. induction l as [|x t IH]; [reflexivity|]. cbn [map fold_right]. rewrite IH. generalize (fold_right (ins le) [] t) as r. intro r.
    induction r as [|y r IHr]; [reflexivity|]. cbn [map ins]. rewrite H. destruct (le x y); [reflexivity|]. cbn [map]. rewrite IHr. reflexivity. }
  split; apply K; intros a b; unfold le_asc, le_desc; cbn [flip price].
  - destruct (qle_spec (M - price b) (M - price a)), (qle_spec (price a) (price b)); try reflexivity; exfalso; qlra.
  - destruct (qle_spec (M - price a) (M - price b)), (qle_spec (price b) (price a)); try reflexivity; exfalso; qlra.
Qed.
Lemma flip_distinct M d : prices_distinct d -> prices_distinct (map (flip M) d).
Proof.
  assert (K : forall l, NoDup (map price l) -> NoDup (map price (map (flip M) l))).
  { intros l H. rewrite map_map. cbn [flip price]. rewrite <- (map_map price (fun p => M - p)). apply FinFun.Injective_map_NoDup; [|exact H]. intros a b E. qlra. }
  intros [H1 H2]. split.
  - change (filter buying (map (flip M) d)) with (buyers (map (flip M) d)). rewrite flip_buyers. apply K, H2.
  - change (filter (fun r => negb (buying r)) (map (flip M) d)) with (sellers (map (flip M) d)). rewrite flip_sellers. apply K, H1.
Qed.
Lemma tie_uniform S1 S2 d : prices_distinct d -> uniform_price_mechanism S1 d = uniform_price_mechanism S2 d.
Proof.
  intro N. unfold uniform_price_mechanism. rewrite (tie_demand S1 S2 d d (Permutation_refl _) N), (tie_supply S1 S2 d d (Permutation_refl _) N),
    (tie_buy S1 S2 d d (Permutation_refl _) N), (tie_sell S1 S2 d d (Permutation_refl _) N). reflexivity.
Qed.

(** ** Uniform prices *)
Lemma app_same_length {X} (a b a' b' : list X) : a ++ b = a' ++ b' -> length a = length a' -> a = a' /\ b = b'.
Proof. revert a'. induction a as [|x a IH]; intros [|x' a'] E L; try discriminate L; [auto|]. cbn [app] in E. injection E as -> E. injection L as L. destruct (IH a' E L) as [-> ->]. auto. Qed.
Theorem uniform_flip M S S' d : qty_nonneg d -> inside M d -> mirrored M S S' ->
  (uniform_price_mechanism S d = Err TypeError /\ uniform_price_mechanism S' (map (flip M) d) = Err TypeError) \/
  exists tm tm' c p, uniform_price_mechanism S d = Ok (tm, XUniform (Fin c) (Fin p)) /\ uniform_price_mechanism S' (map (flip M) d) = Ok (tm', XUniform (Fin c) (Fin (M - p))) /\
    Permutation (tm_trans tm') (map (flip_trans M) (tm_trans tm)).
Proof.
  intros Hq Hin Hm.
  pose proof (uniform_cases S d Hq (inside_nonneg M d Hin)) as U. pose proof (uniform_cases S' _ (flip_nonneg M d Hq) (inside_nonneg M _ (flip_inside M d Hin))) as U'.
  destruct (price_flip M S S' d Hq Hin Hm) as (v & P1 & P2 & _).
  destruct U as [N|c p B1 rb B2 L1 rs L2 tm EB EL Lp Q1 Q2 C0 Cr Sf Sg Pr B3 B4 L3 L4 T].
  - left. split; [reflexivity|]. destruct U' as [N'|c' p' B1' rb' B2' L1' rs' L2' tm' EB' EL' Lp' Q1' Q2' C0' Cr' Sf' Sg' Pr' B3' B4' L3' L4' T']; [reflexivity|].
    destruct (N (Fin c')). apply (crossing_flip M S S' d Hin Hm), Cr'.
  - right. pose proof (proj1 (crossing_flip M S S' d Hin Hm (Fin c)) Cr) as Cf.
    destruct U' as [N'|c' p' B1' rb' B2' L1' rs' L2' tm' EB' EL' Lp' Q1' Q2' C0' Cr' Sf' Sg' Pr' B3' B4' L3' L4' T']; [destruct (N' _ Cf)|].
    pose proof (crossing_unique _ _ _ _ Cr' Cf) as Ec. injection Ec as Ec. subst c'.
    rewrite P1 in Pr. injection Pr as Pr. rewrite Pr in P2. rewrite P2 in Pr'. cbn [flip_num] in Pr'. injection Pr' as <-.
    exists tm, tm', c, p. split; [reflexivity|]. split; [reflexivity|].
    destruct (crel_step _ _ _ _ _ _ (supply_crel M S S' d Hin Hm) Sf) as (u' & Su' & _). destruct (crel_step _ _ _ _ _ _ (demand_crel M S S' d Hin Hm) Sg) as (w' & Sw' & _).
    destruct (StepAt_fun _ _ _ _ _ _ Su' Sg') as [IL _]. destruct (StepAt_fun _ _ _ _ _ _ Sw' Sf') as [IB _].
    rewrite (desc_flip M S S' d Hm), EL, map_app in EB'. rewrite (asc_flip M S S' d Hm), EB, map_app in EL'. cbn [map] in EB', EL'.
    apply app_same_length in EB'; [|rewrite map_length; exact IB]. apply app_same_length in EL'; [|rewrite map_length; exact IL].
    destruct EB' as [<- EB']. injection EB' as <- <-. destruct EL' as [<- EL']. injection EL' as <- <-.
    assert (CL : forall X, cut_last (map (flip M) X) c = cut_last X c) by (intro X; unfold cut_last; rewrite flip_qty; unfold qsumf; rewrite flip_qty; reflexivity).
    assert (EM : forall X r, emit (map (flip M) X ++ [flip M r]) (cut_last (map (flip M) X) c) (M - p) = map (flip_trans M) (emit (X ++ [r]) (cut_last X c) p)).
    { intros X r. rewrite CL. change [flip M r] with (map (flip M) [r]). rewrite <- map_app. apply emit_flip. }
    rewrite T', T. rewrite !EM. destruct (qltb _ _), (qltb _ _); rewrite map_app; try apply Permutation_refl; apply Permutation_app_comm.
Qed.

(** ** Any orders when the prices of each side are different *)
Section Either.
  Variables (M : Qc) (S S' : sorter) (d : df).
  Hypothesis Hq : qty_nonneg d.
  Hypothesis Hin : inside M d.
  Hypothesis Hm : mirrored M S S' \/ prices_distinct d.
  Notation d' := (map (flip M) d).

  Theorem price_either : exists v, find_competitive_price S d = Ok v /\ find_competitive_price S' d' = Ok (flip_num M v).
  Proof.
    destruct Hm as [H|H].
    - destruct (price_flip M S S' d Hq Hin H) as (v & E & E' & _). eauto.
    - rewrite (tie_price S' (mirror M S) d' d' (Permutation_refl _) (flip_distinct M d H)). destruct (price_flip M S _ d Hq Hin (mirror_ok M S)) as (v & E & E' & _). eauto.
  Qed.
  Theorem huang_either :
    (huang_auction S d = Ok (tm_init, XEmpty) /\ huang_auction S' d' = Ok (tm_init, XEmpty)) \/
    exists tm tm' ps pb q q', huang_auction S d = Ok (tm, XHuang ps pb q) /\ huang_auction S' d' = Ok (tm', XHuang (M - pb) (M - ps) q') /\
      Permutation (tm_trans tm') (map (flip_trans M) (tm_trans tm)) /\ (tm_trans tm <> [] -> q' = q).
  Proof.
    destruct Hm as [H|H]; [exact (huang_flip M S S' d Hq Hin H)|].
    rewrite (tie_huang S' (mirror M S) d' d' (Permutation_refl _) (flip_distinct M d H)). exact (huang_flip M S _ d Hq Hin (mirror_ok M S)).
  Qed.
  Theorem uniform_either :
    (uniform_price_mechanism S d = Err TypeError /\ uniform_price_mechanism S' d' = Err TypeError) \/
    exists tm tm' c p, uniform_price_mechanism S d = Ok (tm, XUniform (Fin c) (Fin p)) /\ uniform_price_mechanism S' d' = Ok (tm', XUniform (Fin c) (Fin (M - p))) /\
      Permutation (tm_trans tm') (map (flip_trans M) (tm_trans tm)).
  Proof.
    destruct Hm as [H|H]; [exact (uniform_flip M S S' d Hq Hin H)|].
    rewrite (tie_uniform S' (mirror M S) d' (flip_distinct M d H)). exact (uniform_flip M S _ d Hq Hin (mirror_ok M S)).
  Qed.
  Hypothesis Hu : labels_unique d.
  Variable fl : list bool.
  Lemma muda_mirror : exists S'', mirrored M S S'' /\ muda S' d' fl = muda S'' d' fl.
  Proof.
    destruct Hm as [H|H]; [exists S'; auto|]. exists (mirror M S). split; [apply mirror_ok|]. apply tie_muda; [unfold labels_unique; rewrite flip_lbl; exact Hu | apply flip_distinct, H].
  Qed.
  Theorem muda_either l r pl pr :
    l = left_of d fl -> r = right_of d fl -> find_competitive_price S (rows_in l d) = Ok pl -> find_competitive_price S (rows_in r d) = Ok pr ->
    (~ tied (rows_in l d) pr -> ~ tied (rows_in r d) pl ->
       match muda S d fl with
       | Ok (tm, XMuda l r pl pr f) => muda S' d' fl = Ok (mkTM (n_trans tm) (map (flip_trans M) (tm_trans tm)), XMuda l r (flip_num M pl) (flip_num M pr) f)
       | Ok _ => False
       | Err e => muda S' d' fl = Err e
       end) /\
    (forall tm f tm' ex', muda S d fl = Ok (tm, XMuda l r pl pr f) -> muda S' d' fl = Ok (tm', ex') ->
       exists f', ex' = XMuda l r (flip_num M pl) (flip_num M pr) f' /\ Permutation (tm_trans tm') (map (flip_trans M) (tm_trans tm)) /\ (~ tied (rows_in r d) pl -> f' = f)).
  Proof.
    intros -> -> El Er. destruct muda_mirror as (S'' & H & ->). destruct (muda_flip M S S'' d fl Hq Hin H) as (pl' & pr' & El' & Er' & X & Y).
    fold (left_of d fl) in El', Er', X, Y. fold (right_of d fl) in El', Er', X, Y. rewrite (loc_left d fl Hu) in El', X. rewrite (loc_right d fl Hu) in Er', X, Y.
    rewrite El in El'. rewrite Er in Er'. injection El' as <-. injection Er' as <-. split.
    - intros T1 T2. rewrite (X T1 T2). rewrite (muda_eq S d fl Hu). unfold check_equal_price. destruct (_ || _); [reflexivity|]. unfold muda_body. rewrite El, Er. cbn [bind].
      destruct (solve_market_side S _ pr _) as [[tl f1]|]; cbn [bind]; [|reflexivity]. destruct (solve_market_side S _ pl f1) as [[tr f2]|]; cbn [bind]; reflexivity.
    - intros tm f tm' ex' E E'. destruct (Y _ _ _ _ _ _ _ _ E E') as (f' & Z1 & Z2 & Z3). eauto.
  Qed.
End Either.

(** ** Gains *)
Lemma profit_perm d u tl tl' : Permutation tl tl' -> profit d u tl = profit d u tl'.
Proof. intro P. unfold profit. apply qsumf_ext. intros r _. apply qsumf_perm, filter_perm, P. Qed.
Lemma profit_flip M d u tl tl' : Permutation tl' (map (flip_trans M) tl) -> profit (map (flip M) d) u tl' = profit d u tl.
Proof.
  intro P. rewrite (profit_perm _ _ _ _ P). unfold profit, by_user. rewrite filter_map, qsumf_map. apply qsumf_ext. intros r _.
  rewrite filter_map, qsumf_map. apply qsumf_ext. intros t _. unfold gain. cbn [flip flip_trans buying price t_price t_qty].
  destruct (buying r); cbn [negb]; f_equal; ring.
Qed.

(** ** MUDA by the outcomes of the flips *)
Theorem muda_dual M S S' d fl pl pr : let l := flipped true fl d in let r := flipped false fl d in
  qty_nonneg d -> inside M d -> mirrored M S S' \/ prices_distinct d -> labels_unique d -> length fl = length d ->
  find_competitive_price S l = Ok pl -> find_competitive_price S r = Ok pr ->
  (~ tied l pr -> ~ tied r pl ->
     match muda S d fl with
     | Ok (tm, XMuda l r pl pr f) => muda S' (map (flip M) d) fl = Ok (mkTM (n_trans tm) (map (flip_trans M) (tm_trans tm)), XMuda l r (flip_num M pl) (flip_num M pr) f)
     | Ok _ => False
     | Err e => muda S' (map (flip M) d) fl = Err e
     end) /\
  (forall tm ll rr a b f tm' ex', muda S d fl = Ok (tm, XMuda ll rr a b f) -> muda S' (map (flip M) d) fl = Ok (tm', ex') ->
     exists f', ex' = XMuda ll rr (flip_num M a) (flip_num M b) f' /\ Permutation (tm_trans tm') (map (flip_trans M) (tm_trans tm)) /\ (~ tied r pl -> f' = f)).
Proof.
  intros l r Hq Hin Hm Hu Hl El Er. destruct (flipped_left d Hu fl Hl) as [E1 E2]. unfold l, r in *. rewrite <- E1, <- E2 in *.
  destruct (muda_either M S S' d Hq Hin Hm Hu fl _ _ pl pr eq_refl eq_refl El Er) as [X Y]. split; [exact X|].
  intros tm ll rr a b f tm' ex' E E'.
  assert (Z : ll = left_of d fl /\ rr = right_of d fl /\ a = pl /\ b = pr).
  { rewrite (muda_eq S d fl Hu) in E. unfold check_equal_price in E. destruct (_ || _); [discriminate E|]. unfold muda_body in E. rewrite El, Er in E. cbn [bind] in E.
    destruct (solve_market_side S _ pr _) as [[tl f1]|]; cbn [bind] in E; [|discriminate E]. destruct (solve_market_side S _ pl f1) as [[tr f2]|]; cbn [bind] in E; [|discriminate E].
    injection E as <- <- <- <- <-. auto. }
  destruct Z as (-> & -> & -> & ->). exact (Y _ _ _ _ E E').
Qed.
Lemma orders_mirror M : (forall S : sorter, exists S', mirrored M S S') /\ mirrored M stable_sorter stable_sorter.
Proof. split; [intro S; exists (mirror M S); apply mirror_ok | apply stable_mirror]. Qed.
