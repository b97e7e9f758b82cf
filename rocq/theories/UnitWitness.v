(** Concrete runs for C61 - C63. *)
From Verif Require Import QcTac Num ModelBase ModelCurves ModelHuang ModelMuda ModelP2P ModelMerge ModelMarket SpecUnits Sorter UnitFacts UnitMech UnitMarket Conform PlotWitness.

Lemma result_one x : result_units 1 1 x = x.
Proof.
  assert (H1 : forall q, 1 * q = q) by (intros; ring).
  assert (M : forall l, map (Qcmult (1 * 1)) l = l) by (induction l as [|q l IH]; [reflexivity|]; cbn [map]; rewrite IH; f_equal; ring).
  assert (N : forall n, in_units 1 n = n) by (intros n; destruct n; cbn [in_units]; rewrite ?H1; reflexivity).
  destruct x as [[tm e]|]; [|reflexivity]. cbn [result_units]. f_equal. f_equal.
  - destruct tm as [n l]. cbn [n_trans tm_trans]. f_equal. induction l as [|t l IH]; [reflexivity|]. cbn [map]. rewrite IH. f_equal.
    destruct t as [i q p s v]. unfold trans_units. cbn [t_bid t_qty t_price t_source t_active]. rewrite !H1. reflexivity.
  - destruct e; cbn [extra_units]; rewrite ?H1, ?M, ?N; reflexivity.
Qed.
Lemma terms_offer d d' : Forall2 same_terms d d' -> Forall2 (same_offer 1 1) d d'.
Proof. apply F2_impl. intros x y (H1 & H2 & H3 & H4 & H5). repeat split; try assumption; [rewrite H2|rewrite H3]; ring. Qed.
Lemma terms_bid d d' : Forall2 same_terms_anon d d' -> Forall2 (same_bid 1 1) d d'.
Proof. apply F2_impl. intros x y (H1 & H2 & H3 & H4). repeat split; try assumption; [rewrite H2|rewrite H3]; ring. Qed.
Lemma terms_anon d d' : Forall2 same_terms d d' -> Forall2 same_terms_anon d d'.
Proof. apply F2_impl. intros x y (H1 & H2 & H3 & H4 & H5). repeat split; assumption. Qed.

Section Top.
  Variable S : sorter.
  Hypothesis HS : compares_prices S.
  Variables m m' : market.
  Let one : 0 < 1. Proof. reflexivity. Qed.
  Lemma huang_names : Forall2 same_terms_anon (get_df (mk_bm m)) (get_df (mk_bm m')) -> forall smp smp' cnt cnt',
    snd (market_run S m' (AHuang smp' cnt')) = snd (market_run S m (AHuang smp cnt)).
  Proof. intros F smp smp' cnt cnt'. rewrite (run_huang_qty S HS m m' 1 smp smp' cnt cnt' one (terms_bid _ _ F)). apply result_one. Qed.
  Lemma p2p_names : Forall2 same_terms_anon (get_df (mk_bm m)) (get_df (mk_bm m')) -> forall c r,
    snd (market_run S m' (AP2P c r)) = snd (market_run S m (AP2P c r)).
  Proof. intros F c r. rewrite (run_p2p_units S m m' 1 1 c r one one (terms_bid _ _ F)). apply result_one. Qed.
  Lemma muda_names : Forall2 same_terms_anon (get_df (mk_bm m)) (get_df (mk_bm m')) -> forall fl tm ex tm' ex',
    snd (market_run S m (AMuda fl)) = Ok (tm, ex) -> snd (market_run S m' (AMuda fl)) = Ok (tm', ex') -> tm' = tm.
  Proof.
    intros F fl tm ex tm' ex' E E'. rewrite (run_muda_names S HS m m' 1 1 fl tm ex tm' ex' one one (terms_bid _ _ F) E E').
    assert (K := result_one (Ok (tm, XEmpty))). cbn [result_units] in K. injection K as K1. exact K1.
  Qed.
  Lemma attributes_ignored : Forall2 same_terms (get_df (mk_bm m)) (get_df (mk_bm m')) -> forall alg,
    snd (market_run S m' alg) = snd (market_run S m alg).
  Proof.
    intros F [smp cnt|fl|c r|].
    - apply huang_names, terms_anon, F.
    - rewrite (run_muda_units S HS m m' 1 1 fl one one (terms_offer _ _ F)). apply result_one.
    - apply p2p_names, terms_anon, F.
    - reflexivity.
  Qed.
End Top.
Lemma huang_sampling (S : sorter) m smp smp' cnt cnt' : compares_prices S ->
  snd (market_run S m (AHuang smp' cnt')) = snd (market_run S m (AHuang smp cnt)).
Proof.
  intros HS. apply huang_names; [exact HS|]. induction (get_df (mk_bm m)) as [|r d IH]; constructor; [|exact IH]. repeat split.
Qed.

Definition whole (b : bid) : bid := mkBid (b_qty b) (b_price b) (b_user b) (b_buying b) (b_time b) false.
Definition whole_market : market := market_of (map whole [B (qz 3) (qz 10) 0; B (qz 3) (qz 6) 1; A (qz 2) (qz 1) 2; A (qz 2) (qz 5) 3]).
Lemma buyer_split (x : res (transmgr * extra)) d : In (mkRow 0 (qz 3) (qz 10) 0 true 0 false) d ->
  match x with Ok (tm, _) => match filter (fun t => Nat.eqb (t_bid t) 0) (tm_trans tm) with [t] => qeqb (t_qty t) (qz 2) | _ => false end | Err _ => false end = true ->
  exists tm ex, x = Ok (tm, ex) /\ splits_indivisible d (tm_trans tm).
Proof.
  intros I K. destruct x as [[tm ex]|]; [|discriminate]. exists tm, ex. split; [reflexivity|].
  destruct (filter (fun t => Nat.eqb (t_bid t) 0) (tm_trans tm)) as [|t [|? ?]] eqn:E; try discriminate. apply qeqb_eq in K.
  assert (It : In t (filter (fun t => Nat.eqb (t_bid t) 0) (tm_trans tm))) by (rewrite E; left; reflexivity). apply filter_In in It. destruct It as [It Bt]. apply Nat.eqb_eq in Bt.
  eexists. exists t. split; [exact I|]. rewrite K. repeat split; try assumption; try reflexivity.
  intros t' It' B'. assert (It2 : In t' (filter (fun t => Nat.eqb (t_bid t) 0) (tm_trans tm))) by (apply filter_In; split; [exact It'|apply Nat.eqb_eq; exact B']).
  rewrite E in It2. destruct It2 as [<-|[]]. reflexivity.
Qed.
Lemma indivisible_split : exists (S : sorter) (m : market), compares_prices S /\ let d := get_df (mk_bm m) in
  (forall r, In r d -> 0 < qty r /\ 0 < price r /\ divisible r = false) /\
  (forall smp cnt, exists tm ex, snd (market_run S m (AHuang smp cnt)) = Ok (tm, ex) /\ splits_indivisible d (tm_trans tm)) /\
  (exists c r tm ex, snd (market_run S m (AP2P c r)) = Ok (tm, ex) /\ splits_indivisible d (tm_trans tm)) /\
  (exists fl tm ex, snd (market_run S m (AMuda fl)) = Ok (tm, ex) /\ splits_indivisible d (tm_trans tm)).
Proof.
  exists SS, whole_market. cbv zeta. split; [apply stable_compares|].
  assert (I : In (mkRow 0 (qz 3) (qz 10) 0 true 0 false) (get_df (mk_bm whole_market))) by (left; reflexivity).
  split. { intros r H. cbn in H. repeat (destruct H as [<-|H]; [repeat split|]); contradiction. }
  split. { intros smp cnt. rewrite (huang_sampling SS whole_market (fun _ => O) smp 0 cnt stable_compares). apply buyer_split; [exact I|]. vm_compute. reflexivity. }
  split. { exists (qf 1 2), (fun _ => O). apply buyer_split; [exact I|]. vm_compute. reflexivity. }
  exists [true; false; true; false]. apply buyer_split; [exact I|]. vm_compute. reflexivity.
Qed.

Lemma some_trades (x : res (transmgr * extra)) : match x with Ok (tm, _) => negb (Nat.eqb (length (tm_trans tm)) 0) | _ => false end = true ->
  exists tm ex, x = Ok (tm, ex) /\ tm_trans tm <> [].
Proof. destruct x as [[tm ex]|]; [|discriminate]. intros H. exists tm, ex. split; [reflexivity|]. destruct (tm_trans tm); discriminate. Qed.
Lemma no_trades (x : res (transmgr * extra)) : match x with Ok (tm, _) => Nat.eqb (length (tm_trans tm)) 0 | _ => false end = true ->
  exists tm ex, x = Ok (tm, ex) /\ tm_trans tm = [].
Proof. destruct x as [[tm ex]|]; [|discriminate]. intros H. exists tm, ex. split; [reflexivity|]. destruct (tm_trans tm); [reflexivity|discriminate]. Qed.
Lemma index_error {A} (x : res A) : match x with Err IndexError => true | _ => false end = true -> x = Err IndexError.
Proof. destruct x as [|[]]; try discriminate. reflexivity. Qed.
Definition priced (k : Qc) : market := market_of [B (qz 3) (qz 10 * k) 0; B (qz 3) (qz 6 * k) 1; A (qz 2) (qz 1 * k) 2; A (qz 2) (qz 5 * k) 3].
Lemma price_units_lost : exists (S : sorter) (m m' : market) (b : Qc), compares_prices S /\ 0 < b /\
  (forall r, In r (get_df (mk_bm m)) -> 0 < qty r /\ 0 < price r) /\ Forall2 (same_bid 1 b) (get_df (mk_bm m)) (get_df (mk_bm m')) /\
  forall smp cnt smp' cnt', exists tm ex tm' ex', snd (market_run S m (AHuang smp cnt)) = Ok (tm, ex) /\ tm_trans tm <> [] /\
    snd (market_run S m' (AHuang smp' cnt')) = Ok (tm', ex') /\ tm_trans tm' = [].
Proof.
  exists SS, (priced 1), (priced (qf 1 10000000)), (qf 1 10000000). split; [apply stable_compares|]. split; [reflexivity|].
  split. { intros r H. cbn in H. repeat (destruct H as [<-|H]; [split; reflexivity|]); contradiction. }
  split. { cbn. repeat constructor; cbn [qty price lbl buying row_of]; ring. }
  intros smp cnt smp' cnt'. rewrite (huang_sampling SS (priced 1) (fun _ => O) smp 0 cnt stable_compares), (huang_sampling SS (priced (qf 1 10000000)) (fun _ => O) smp' 0 cnt' stable_compares).
  destruct (some_trades (snd (market_run SS (priced 1) (AHuang (fun _ => O) 0)))) as (tm & ex & H1 & H2); [vm_compute; reflexivity|].
  destruct (no_trades (snd (market_run SS (priced (qf 1 10000000)) (AHuang (fun _ => O) 0)))) as (tm' & ex' & H3 & H4); [vm_compute; reflexivity|].
  exists tm, ex, tm', ex'. exact (conj H1 (conj H2 (conj H3 H4))).
Qed.

Definition named (n : Z) : market := market_of [B (qz 3) (qz 10) (n + 0); A (qz 2) (qz 1) (n + 1); B (qz 2) (qz 9) (n + 2); A (qz 2) (qz 2) (n + 3)].
Lemma names_matter : exists (S : sorter) (m m' : market) fl, compares_prices S /\
  Forall2 same_terms_anon (get_df (mk_bm m)) (get_df (mk_bm m')) /\ (forall r, In r (get_df (mk_bm m')) -> (0 <= user r)%Z) /\
  (exists tm ex, snd (market_run S m (AMuda fl)) = Ok (tm, ex) /\ tm_trans tm <> []) /\ snd (market_run S m' (AMuda fl)) = Err IndexError.
Proof.
  exists SS, (named 0), (named 10), [true; true; false; false]. split; [apply stable_compares|].
  split. { cbn. repeat constructor. }
  split. { intros r H. cbn in H. repeat (destruct H as [<-|H]; [cbn; lia|]); contradiction. }
  split; [apply some_trades; vm_compute; reflexivity|]. apply index_error. vm_compute. reflexivity.
Qed.
