(** [Market.run("huang")] depends on the book only. *)
From Verif Require Import QcTac Num NumFacts ModelBase ModelCurves ModelHuang ModelMerge ModelMarket ListFacts StoreFacts Spec SpecTrade SpecMerge SpecUnits SpecBook
  UpdateFacts TradeFacts Sorter HuangFacts MergeFacts HuangMarketFacts HuangMarketTop UnitFacts UnitMech UnitMarket UnitWitness MarketOrder MarketTables MarketZero.

(** ** One price per side, whatever the table *)
Lemma huang_prices S d tm ex : labels_unique d -> huang_auction S d = Ok (tm, ex) -> forall t r, In t (tm_trans tm) -> In r d -> lbl r = t_bid t ->
  exists ps pb q, ex = XHuang ps pb q /\ t_price t = if buying r then pb else ps.
Proof.
  intro Hu. unfold huang_auction. intro E. destruct (intersect_stepwise _ _ _) as [[[[q b] s] v]|]; [|discriminate]. cbn [bind] in E.
  assert (Z : forall ex', Ok (tm_init, ex') = Ok (tm, ex) -> forall t r, In t (tm_trans tm) -> In r d -> lbl r = t_bid t -> exists ps pb q, ex = XHuang ps pb q /\ t_price t = if buying r then pb else ps)
    by (intros ex' X; injection X as <- _; intros ? ? []).
  destruct b as [b|]; [|exact (Z _ E)]. destruct s as [s|]; [|exact (Z _ E)].
  destruct (nth_error _ s) as [[x1 y1]|]; [|discriminate]. destruct (nth_error _ b) as [[x2 y2]|]; [|destruct y1; discriminate].
  destruct y1 as [ps| | |]; try discriminate. destruct y2 as [pb| | |]; try discriminate.
  destruct (Nat.ltb 0 b && Nat.ltb 0 s); [|exact (Z _ E)]. cbv zeta in E.
  set (B := firstn b (s_desc S (buyers d))) in *. set (L := firstn s (s_asc S (sellers d))) in *.
  assert (HB : forall r, In r B -> In r d /\ buying r = true).
  { intros r Hr. apply In_firstn in Hr. apply (Permutation_in _ (s_desc_perm S _)) in Hr. apply filter_In in Hr. tauto. }
  assert (HL : forall r, In r L -> In r d /\ buying r = false).
  { intros r Hr. apply In_firstn in Hr. apply (Permutation_in _ (s_asc_perm S _)) in Hr. apply filter_In in Hr. destruct Hr as [H1 H2]. apply negb_true_iff in H2. auto. }
  destruct (if qltb 0 _ then _ else _) as [[qs qb]|]; [|discriminate]. cbn [bind] in E. injection E as <- <-.
  intros t r Ht Hr El. exists ps, pb, (qsum qb). split; [reflexivity|].
  rewrite !add_all_trans in Ht. apply in_app_or in Ht. destruct Ht as [Ht|Ht]; [apply in_app_or in Ht; destruct Ht as [[]|Ht]|];
    apply emit_in in Ht; destruct Ht as (r' & q' & _ & Hr' & ->); cbn [t_bid t_price] in *.
  - destruct (HL r' Hr') as [H1 H2]. assert (r = r') by (apply (NoDup_map_in lbl d); auto). subst r'. rewrite H2. reflexivity.
  - destruct (HB r' Hr') as [H1 H2]. assert (r = r') by (apply (NoDup_map_in lbl d); auto). subst r'. rewrite H2. reflexivity.
Qed.

(** ** Equal books, equal merged tables *)
Section Book.
  Variables (d d' : df).
  Hypothesis Bk : same_book d d'.

  Lemma level_side (e : df) (b : bool) k : level e b k = grp 5 (if b then buyers e else sellers e) k.
  Proof.
    unfold level, grp, buyers, sellers. destruct b; rewrite filter_filter; apply filter_ext; intro x; destruct (buying x); reflexivity.
  Qed.
  Lemma book_keys (b : bool) : side_keys 5 (if b then buyers d else sellers d) = side_keys 5 (if b then buyers d' else sellers d').
  Proof.
    assert (K : forall e k, In k (side_keys 5 (if b then buyers e else sellers e)) <-> level e b k <> []).
    { intros e k. unfold side_keys. rewrite group_keys_In, in_map_iff, level_side. split.
      - intros (x & E & Hx) N. assert (I : In x (grp 5 (if b then buyers e else sellers e) k)) by (apply filter_In; split; [exact Hx | apply qeqb_eq, E]). rewrite N in I. exact I.
      - intro N. destruct (grp 5 (if b then buyers e else sellers e) k) as [|x l] eqn:G; [congruence|]. exists x.
        assert (I : In x (grp 5 (if b then buyers e else sellers e) k)) by (rewrite G; left; reflexivity). apply filter_In in I. destruct I as [I J]. apply qeqb_eq in J. auto. }
    apply sorted_lt_unique; try apply group_keys_sorted. intro k. rewrite !K. rewrite (proj1 (Bk b k)). reflexivity.
  Qed.
  Lemma book_entries (b : bool) keys m m' : Forall2 (entry_ok 5 (if b then buyers d else sellers d) b) keys m -> Forall2 (entry_ok 5 (if b then buyers d' else sellers d') b) keys m' ->
    Forall2 (fun x y => qty (fst y) = qty (fst x) /\ price (fst y) = price (fst x) /\ buying (fst y) = buying (fst x)) m m'.
  Proof.
    intro F. revert m'. induction F as [|k x keys m Hx F IH]; intros m' F'; inversion_clear F' as [|? y ? m0 Hy F0]; constructor; [|apply IH; assumption].
    destruct Hx as (A1 & A2 & A3 & _), Hy as (B1 & B2 & B3 & _). rewrite <- level_side in A2, B2. pose proof (proj2 (Bk b k)). split; [congruence|]. split; congruence.
  Qed.
  Lemma book_rows c0 c2 mb ms c0' c2' mb' ms' : merge_ok 5 d c0 mb ms c2 -> merge_ok 5 d' c0' mb' ms' c2' -> Forall2 (same_bid 1 1) (map fst (mb ++ ms)) (map fst (mb' ++ ms')).
  Proof.
    intros M M'.
    assert (F : Forall2 (fun x y => qty (fst y) = qty (fst x) /\ price (fst y) = price (fst x) /\ buying (fst y) = buying (fst x)) (mb ++ ms) (mb' ++ ms')).
    { apply Forall2_app.
      - apply (book_entries true (side_keys 5 (buyers d))); [apply M|]. rewrite (book_keys true). apply M'.
      - apply (book_entries false (side_keys 5 (sellers d))); [apply M|]. rewrite (book_keys false). apply M'. }
    pose proof (mo_lbl _ _ _ _ _ _ M) as L. pose proof (mo_lbl _ _ _ _ _ _ M') as L'. rewrite <- (Forall2_len _ _ _ F) in L'.
    revert L L'. generalize (length (mb ++ ms)) as n. generalize 0%nat as i. induction F as [|x y l l' (A1 & A2 & A3) F IH]; intros i n E E'; [constructor|]. destruct n as [|n]; [discriminate E|].
    cbn [map seq] in *. injection E as E0 E. injection E' as E0' E'. constructor; [|apply (IH (Datatypes.S i) n); assumption].
    split; [congruence|]. split; [rewrite A1; ring|]. split; [rewrite A2; ring | exact A3].
  Qed.
End Book.

(** what a bid of side [b] at the rounded price [p] gets per unit *)
Definition per_unit (md : df) (tl : list trans) (b : bool) (p : Qc) : Qc :=
  match find (fun r => Bool.eqb (buying r) b && qeqb (price r) p) md with Some r => traded_by (lbl r) tl / qty r | None => 0 end.
Lemma per_unit_same md md' tl b p : Forall2 (same_bid 1 1) md md' -> per_unit md' tl b p = per_unit md tl b p.
Proof.
  intro F. unfold per_unit. induction F as [|r r' md md' (A1 & A2 & A3 & A4) F IH]; [reflexivity|]. cbn [find].
  assert (Ep : price r' = price r) by (rewrite A3; ring). assert (Eq : qty r' = qty r) by (rewrite A2; ring). rewrite A4, Ep. destruct (_ && _); [rewrite A1, Eq; reflexivity | exact IH].
Qed.

Section Run.
  Variables (S : sorter) (smp : nat -> nat) (cnt : Z) (d : df).
  Hypothesis Hl : map lbl d = seq 0 (length d).
  Let Hu : labels_unique d.
  Proof. unfold labels_unique. rewrite Hl. apply seq_NoDup. Qed.
  Lemma run_refer md tm ex : mech_run0 (huang_auction S) md = Ok (tm, ex) -> refer md (tm_trans tm).
  Proof. unfold mech_run0. destruct (_ || _); intro E; [injection E as <- _; intros ? [] | exact (huang_refer S md tm ex E)]. Qed.

  (** the run of a market described by the run of its merged table *)
  Lemma run_by_merge : exists mb ms c2, merge_ok 5 d (user_max d + 1)%Z mb ms c2 /\
    let md := map fst (mb ++ ms) in let run := mechanism (Some (smp, cnt)) (huang_auction S) d in
    match merged_run (huang_auction S) md with
    | Err e => run = Err e
    | Ok (tm0, ex) =>
        ((exists t r, In t (tm_trans tm0) /\ In r md /\ lbl r = t_bid t /\ qty r = 0) -> run = Err NaNProduced) /\
        ((forall t r, In t (tm_trans tm0) -> In r md -> lbl r = t_bid t -> qty r <> 0) -> exists tm, run = Ok (tm, ex) /\
           (forall x, In x d -> traded_by (lbl x) (tm_trans tm) = per_unit md (tm_trans tm0) (buying x) (np_round 5 (price x)) * qty x) /\
           (forall t x, In t (tm_trans tm) -> In x d -> lbl x = t_bid t -> exists ps pb q, ex = XHuang ps pb q /\ t_price t = if buying x then pb else ps))
    end.
  Proof.
    unfold mechanism. destruct (merge_same_price_ok 5 smp d cnt) as (mb & ms & c2 & E & M). rewrite E. cbn [bind]. exists mb, ms, c2. split; [exact M|]. cbv zeta.
    set (md := map fst (mb ++ ms)). set (mp := map snd (mb ++ ms)).
    destruct (merged_run (huang_auction S) md) as [[tm0 ex]|e] eqn:T; cbn [bind]; [|reflexivity]. apply merged_run_ok in T.
    pose proof (run_refer md tm0 ex T) as Ref. destruct (split_md d _ _ mb ms M Hl tm0 Ref) as [N1 N2]. fold md mp in N1, N2.
    split; [intro H; rewrite (N1 H); reflexivity|]. intro H. destruct (N2 H) as (tm & ls & -> & Et & F). cbn [bind]. exists tm. split; [reflexivity|]. rewrite Et. split.
    - intros x Hx. destruct (md_row d 5 _ _ mb ms M Hu x Hx) as (r & Hr & G). fold md in Hr.
      rewrite (parts_traded d 5 _ _ mb ms M Hu (tm_trans tm0) ls Ref F r x Hr Hx G).
      assert (Ef : find (fun r => Bool.eqb (buying r) (buying x) && qeqb (price r) (np_round 5 (price x))) md = Some r).
      { destruct (find _ md) as [r'|] eqn:Ff.
        - apply find_some in Ff. destruct Ff as [I J]. apply andb_true_iff in J. destruct J as [J1 J2]. apply eqb_prop in J1. apply qeqb_eq in J2. f_equal.
          apply (md_unique d 5 _ _ mb ms M r' r x Hx I Hr); [|exact G]. apply in_group_iff. auto.
        - exfalso. apply (find_none _ _ Ff) in Hr. apply (proj1 (in_group_iff _ _ _)) in G. destruct G as [G1 G2]. rewrite G1, G2, eqb_reflx in Hr. cbn [andb] in Hr.
          assert (Q : qeqb (price r) (price r) = true) by (apply qeqb_eq; reflexivity). congruence. }
      unfold per_unit. rewrite Ef. unfold Qcdiv. ring.
    - intros t x Ht Hx El. destruct (parts_in d 5 _ _ mb ms _ ls M Hu Ref F t Ht) as (t0 & r & y & Ht0 & Hr & El0 & Hy & ->). cbn [t_bid t_price] in *.
      destruct (group_in d r y Hy) as (Y1 & Y2 & _). assert (x = y) by (apply (NoDup_map_in lbl d); auto). subst y. rewrite Y2.
      unfold mech_run0 in T. destruct (_ || _); [injection T as <- _; destruct Ht0|].
      exact (huang_prices S md tm0 ex (merged_labels _ _ _ _ _ _ M) T t0 r Ht0 Hr El0).
  Qed.
End Run.

Theorem book_run S S' smp smp' cnt cnt' d d' : map lbl d = seq 0 (length d) -> map lbl d' = seq 0 (length d') -> same_book d d' ->
  let run := mechanism (Some (smp, cnt)) (huang_auction S) d in let run' := mechanism (Some (smp', cnt')) (huang_auction S') d' in
  (exists e, run = Err e /\ run' = Err e) \/
  exists tm tm' ex unit, run = Ok (tm, ex) /\ run' = Ok (tm', ex) /\
    (forall x, In x d -> traded_by (lbl x) (tm_trans tm) = unit (buying x) (np_round 5 (price x)) * qty x) /\
    (forall x, In x d' -> traded_by (lbl x) (tm_trans tm') = unit (buying x) (np_round 5 (price x)) * qty x) /\
    (forall t x, In t (tm_trans tm) -> In x d -> lbl x = t_bid t -> exists ps pb q, ex = XHuang ps pb q /\ t_price t = if buying x then pb else ps) /\
    (forall t x, In t (tm_trans tm') -> In x d' -> lbl x = t_bid t -> exists ps pb q, ex = XHuang ps pb q /\ t_price t = if buying x then pb else ps).
Proof.
  intros Hl Hl' Bk. cbv zeta.
  replace (mechanism (Some (smp, cnt)) (huang_auction S) d) with (mechanism (Some (smp, cnt)) (huang_auction stable_sorter) d) by exact (algo_sort stable_sorter S smp cnt d).
  replace (mechanism (Some (smp', cnt')) (huang_auction S') d') with (mechanism (Some (smp', cnt')) (huang_auction stable_sorter) d') by exact (algo_sort stable_sorter S' smp' cnt' d').
  destruct (run_by_merge stable_sorter smp cnt d Hl) as (mb & ms & c2 & M & R). destruct (run_by_merge stable_sorter smp' cnt' d' Hl') as (mb' & ms' & c2' & M' & R').
  cbv zeta in R, R'. pose proof (book_rows d d' Bk _ _ _ _ _ _ _ _ M M') as F.
  set (md := map fst (mb ++ ms)) in *. set (md' := map fst (mb' ++ ms')) in *. assert (one : 0 < 1) by reflexivity.
  rewrite (merged_run_units stable_sorter 1 1 (same_bid 1 1) (huang_auction stable_sorter) (huang_auction stable_sorter) md md' (fun r r' H => H) F
    (huang_units 1 1 one one (same_bid 1 1) (fun r r' H => H) stable_sorter stable_compares md md' F)), result_one in R'.
  destruct (merged_run (huang_auction stable_sorter) md) as [[tm0 ex]|e]; [|left; eauto].
  assert (Nz : (exists t r, In t (tm_trans tm0) /\ In r md /\ lbl r = t_bid t /\ qty r = 0) \/ (forall t r, In t (tm_trans tm0) -> In r md -> lbl r = t_bid t -> qty r <> 0)).
  { clear. destruct (existsb (fun t => existsb (fun r => Nat.eqb (lbl r) (t_bid t) && qeqb (qty r) 0) md) (tm_trans tm0)) eqn:X.
    - left. apply existsb_exists in X. destruct X as (t & Ht & X). apply existsb_exists in X. destruct X as (r & Hr & X). apply andb_true_iff in X. destruct X as [X1 X2].
      apply Nat.eqb_eq in X1. apply qeqb_eq in X2. exists t, r. auto.
    - right. intros t r Ht Hr El Z. assert (Y : existsb (fun t => existsb (fun r => Nat.eqb (lbl r) (t_bid t) && qeqb (qty r) 0) md) (tm_trans tm0) = true); [|congruence].
      apply existsb_exists. exists t. split; [exact Ht|]. apply existsb_exists. exists r. split; [exact Hr|]. rewrite El, Nat.eqb_refl. apply qeqb_eq, Z. }
  assert (Tr : forall P : nat -> Qc -> Prop, (exists r, In r md /\ P (lbl r) (qty r)) <-> (exists r, In r md' /\ P (lbl r) (qty r))).
  { intro P. clear - F. induction F as [|r r' l l' (A1 & A2 & _) F IH]; [split; intros (? & [] & _)|]. assert (Eq : qty r' = qty r) by (rewrite A2; ring).
    split; intros (x & [<-|Hx] & Hp).
    - exists r'. split; [left; reflexivity | rewrite A1, Eq; exact Hp].
    - destruct (proj1 IH) as (y & Hy & Py); [eauto|]. exists y. split; [right; exact Hy | exact Py].
    - exists r. split; [left; reflexivity | rewrite <- A1, <- Eq; exact Hp].
    - destruct (proj2 IH) as (y & Hy & Py); [eauto|]. exists y. split; [right; exact Hy | exact Py]. }
  destruct R as [R1 R2], R' as [R1' R2']. destruct Nz as [Nz|Nz].
  - left. exists NaNProduced. split; [apply R1, Nz|]. apply R1'. destruct Nz as (t & r & Ht & Hr & El & Z).
    destruct (proj1 (Tr (fun l q => l = t_bid t /\ q = 0))) as (r' & Hr' & El' & Z'); [exists r; auto|]. exists t, r'. auto.
  - right. destruct (R2 Nz) as (tm & -> & T1 & T2).
    destruct R2' as (tm' & -> & T1' & T2').
    { intros t r' Ht Hr' El' Z'. destruct (proj2 (Tr (fun l q => l = t_bid t /\ q = 0))) as (r & Hr & El & Z); [exists r'; auto|]. exact (Nz t r Ht Hr El Z). }
    exists tm, tm', ex, (per_unit md (tm_trans tm0)). split; [reflexivity|]. split; [reflexivity|]. split; [exact T1|].
    split; [intros x Hx; rewrite (T1' x Hx), (per_unit_same md md' _ _ _ F); reflexivity|]. auto.
Qed.
