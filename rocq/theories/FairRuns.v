(** The outcome of every mechanism is fair in the sense of FairFacts. *)
From Verif Require Import QcTac Num ModelBase ModelHuang ModelMuda ModelP2P ModelMerge ModelMarket ModelStats ListFacts Spec SpecTrade SpecMuda SpecAlloc SpecStats
  TradeFacts P2PFacts P2PTrades StatsFacts FairFacts MudaFacts MudaTop HuangMarketFacts.

Lemma fair_nil d : qty_nonneg d -> Fair d [].
Proof.
  intro Hq. split; [intros t []| |intros t r []|].
  - split; [intros t []|]. intros r Hr. apply Hq, Hr.
  - intros f _. apply Qcle_refl.
Qed.

Lemma on_side_ex s d t : on_side s d t = true <-> exists r, In r d /\ lbl r = t_bid t /\ buying r = s.
Proof.
  unfold on_side. rewrite existsb_exists. split.
  - intros (r & Hr & E). apply andb_true_iff in E. destruct E as [E1 E2]. apply Nat.eqb_eq in E1. apply eqb_prop in E2. eauto.
  - intros (r & Hr & E1 & E2). exists r. split; [exact Hr|]. rewrite E1, E2, Nat.eqb_refl. destruct s; reflexivity.
Qed.

(** ** MUDA *)
Definition at_price (f : Qc -> Qc) (p : num) : Qc := match p with Fin q => f q | _ => 0 end.
Lemma weighted_const f s h p tl : (forall t, In t tl -> on_side s h t = true -> p = Fin (t_price t)) ->
  weighted f s h tl = at_price f p * qsumf t_qty (filter (on_side s h) tl).
Proof.
  intro H. unfold weighted. rewrite <- qsumf_scale. apply qsumf_ext. intros t Ht. apply filter_In in Ht. destruct Ht as [Ht E].
  rewrite (H t Ht E). reflexivity.
Qed.
Lemma muda_fair S d fl tm ex : qty_nonneg d -> labels_unique d -> muda S d fl = Ok (tm, ex) -> Fair d (tm_trans tm).
Proof.
  intros Hq Hu E. destruct (top_safe S d fl tm ex Hq Hu E) as (R & _ & F & Ra & _ & Hh).
  split; [exact R | exact F | intros t r Ht _; apply Ra, Ht|]. intros f _.
  destruct (top_split S d fl tm ex Hq Hu E) as (l & r & pl & pr & fees & -> & _ & Dis & _ & _ & _ & Sp).
  set (tl := tm_trans tm) in *. set (hl := rows_in l d). set (hr := rows_in r d).
  assert (Split : forall s, weighted f s d tl = weighted f s hl tl + weighted f s hr tl).
  { intro s. unfold weighted. rewrite !qsumf_filter, <- qsumf_plus. apply qsumf_ext. intros t Ht.
    assert (OL : on_side s hl t = true <-> on_side s d t = true /\ In (t_bid t) l).
    { rewrite !on_side_ex. split.
      - intros (x & Hx & E1 & E2). apply rows_in_In in Hx. rewrite <- E1. split; [exists x|]; tauto.
      - intros [(x & Hx & E1 & E2) I]. exists x. split; [apply rows_in_In; rewrite E1; auto | auto]. }
    assert (OR : on_side s hr t = true <-> on_side s d t = true /\ In (t_bid t) r).
    { rewrite !on_side_ex. split.
      - intros (x & Hx & E1 & E2). apply rows_in_In in Hx. rewrite <- E1. split; [exists x|]; tauto.
      - intros [(x & Hx & E1 & E2) I]. exists x. split; [apply rows_in_In; rewrite E1; auto | auto]. }
    destruct (on_side s d t) eqn:Ed.
    - destruct (Sp t Ht) as [[I _]|[I _]].
      + rewrite (proj2 OL) by auto. destruct (on_side s hr t) eqn:Er; [|ring]. exfalso. apply (Dis (t_bid t) I). apply OR. reflexivity.
      + rewrite (proj2 OR) by auto. destruct (on_side s hl t) eqn:Er; [|ring]. exfalso. apply (Dis (t_bid t)); [apply OL; reflexivity | exact I].
    - destruct (on_side s hl t); [destruct (proj1 OL eq_refl); discriminate|]. destruct (on_side s hr t); [destruct (proj1 OR eq_refl); discriminate|]. ring. }
  assert (Same : forall h p, half_of (XMuda l r pl pr fees) d h p -> weighted f true h tl = weighted f false h tl).
  { intros h p H. destruct (Hh h p H) as [B C].
    assert (K : forall s t, In t tl -> on_side s h t = true -> p = Fin (t_price t)).
    { intros s t Ht O. apply on_side_ex in O. destruct O as (x & Hx & E1 & _). eapply C; eauto. }
    rewrite !(weighted_const f _ h p) by (apply K). f_equal. exact B. }
  rewrite !Split. rewrite (Same hl pr), (Same hr pl) by (simpl; auto). apply Qcle_refl.
Qed.

(** ** P2P *)
Lemma meetings_weighted f d L tl : labels_unique d -> Meetings L tl ->
  (forall b s, In (b, s) L -> exists x y, In x d /\ In y d /\ buying x = true /\ buying y = false /\ lbl x = b /\ lbl y = s) ->
  weighted f true d tl = weighted f false d tl.
Proof.
  intros Hu M. induction M as [|b s L tb ts tl E1 E2 _ _ E3 E4 M IH]; intro H; [reflexivity|].
  destruct (H b s (or_introl eq_refl)) as (x & y & Hx & Hy & Bx & By & Lx & Ly).
  specialize (IH (fun b s Hbs => H b s (or_intror Hbs))). unfold weighted in *. cbn [filter].
  rewrite (on_side_in true d tb x), (on_side_in true d ts y), (on_side_in false d tb x), (on_side_in false d ts y) by congruence.
  rewrite Bx, By. cbn [Bool.eqb]. rewrite !qsumf_cons, IH, E3, E4. reflexivity.
Qed.
Lemma p2p_fair d c r tm ex : map lbl d = seq 0 (length d) -> qty_nonneg d -> 0 <= c -> c <= 1 ->
  p2p_random d c r = Ok (tm, ex) -> Fair d (tm_trans tm) /\ money true d (tm_trans tm) = money false d (tm_trans tm).
Proof.
  intros Hl Hq C0 C1 E. destruct (p2p_matching d c r Hl Hq tm ex E) as (gtl & _ & M & _ & _ & P).
  assert (W : forall f, weighted f true d (tm_trans tm) = weighted f false d (tm_trans tm)).
  { intro f. eapply meetings_weighted; eauto. apply labels_ok, Hl. }
  split; [|exact (W (fun x => x))]. split.
  - exact (p2p_refer d c r Hl Hq tm ex E).
  - exact (p2p_feasible d c r Hl Hq tm ex E).
  - intros t x Ht Q. exact (p2p_rational d c r Hl Hq tm ex E C0 C1 t x Ht Q).
  - intros f _. rewrite W. apply Qcle_refl.
Qed.

(** ** Huang, as run by the market *)
Lemma huang_fair S smp cnt d tm ex : map lbl d = seq 0 (length d) -> qty_pos d -> price_nonneg d ->
  mechanism (Some (smp, cnt)) (huang_auction S) d = Ok (tm, ex) -> Fair d (tm_trans tm).
Proof.
  intros Hl Hq Hp E. destruct (huang_market S smp cnt d Hl Hq Hp (ok_not_lone _ _ _ _ _ Hl E)) as (tm' & ex' & E' & B & _ & R & F & P).
  rewrite E in E'. injection E' as <- <-. assert (Hn : qty_nonneg d) by (intros r Hr; apply Qclt_le_weak, Hq, Hr).
  destruct P as [->|(ps & pb & q & _ & _ & Lt & P)]; [apply fair_nil, Hn|]. split; auto.
  - intros t r Ht _ Hr El. specialize (P t r Ht Hr El). destruct (buying r); destruct P as [-> P]; apply Qclt_le_weak, P.
  - intros f Hf.
    rewrite (weighted_const f true d (Fin pb)), (weighted_const f false d (Fin ps)).
    + fold (bought d (tm_trans tm)). fold (sold d (tm_trans tm)). rewrite <- B. cbn [at_price]. apply qmult_le_r.
      * apply qsumf_nonneg. intros t Ht. apply filter_In in Ht. apply F. tauto.
      * apply Hf, Qclt_le_weak, Lt.
    + intros t Ht O. apply on_side_ex in O. destruct O as (x & Hx & E1 & E2). specialize (P t x Ht Hx E1). rewrite E2 in P. destruct P as [-> _]. reflexivity.
    + intros t Ht O. apply on_side_ex in O. destruct O as (x & Hx & E1 & E2). specialize (P t x Ht Hx E1). rewrite E2 in P. destruct P as [-> _]. reflexivity.
Qed.

(** ** Any run *)
Definition input_ok (a : algo) (d : df) : Prop :=
  match a with
  | AHuang _ _ => qty_pos d /\ price_nonneg d
  | AMuda _ => qty_nonneg d
  | AP2P c _ => qty_nonneg d /\ 0 <= c /\ c <= 1
  | AUnknown => True
  end.
Lemma mech0_inv f d tm ex : mech_run0 f d = Ok (tm, ex) -> (tm = tm_init /\ ex = XEmpty) \/ f d = Ok (tm, ex).
Proof. unfold mech_run0. destruct (_ || _); [intros [= <- <-]; auto | auto]. Qed.
Theorem run_fair S a d tm ex : map lbl d = seq 0 (length d) -> input_ok a d -> run_algo S a d = Ok (tm, ex) -> Fair d (tm_trans tm).
Proof.
  intros Hl Hi E. destruct a as [smp cnt|fl|c r|]; cbn [run_algo mechanism input_ok] in *.
  - destruct Hi. eapply huang_fair; eauto.
  - apply mech0_inv in E. destruct E as [[-> _]|E]; [apply fair_nil, Hi|]. eapply muda_fair; eauto. apply labels_ok, Hl.
  - destruct Hi as (H1 & H2 & H3). apply mech0_inv in E. destruct E as [[-> _]|E]; [apply fair_nil, H1|]. eapply p2p_fair; eauto.
  - discriminate.
Qed.

(** the fees reported *)
Lemma nth_nonneg l : (forall n, 0 <= nth n l 0) -> 0 <= qsum l.
Proof.
  intro H. induction l as [|x l IH]; [apply Qcle_refl|]. simpl. pose proof (H 0%nat) as H0. simpl in H0.
  assert (0 <= qsum l) by (apply IH; intro n; exact (H (Datatypes.S n))). qlra.
Qed.
Lemma run_fees S a d tm ex : map lbl d = seq 0 (length d) -> input_ok a d -> (forall r, In r d -> (0 <= user r)%Z) ->
  run_algo S a d = Ok (tm, ex) -> 0 <= match extra_fees ex with Some f => qsum f | None => 0 end.
Proof.
  intros Hl Hi Hus E. destruct a as [smp cnt|fl|c r|]; cbn [run_algo mechanism input_ok] in *.
  - unfold bind in E. destruct (merge_same_price 5 smp d cnt) as [[[nb mp] c]|]; [|discriminate].
    destruct (merged_run (huang_auction S) nb) as [[t x]|] eqn:E1; [|discriminate]. apply merged_run_ok in E1.
    destruct (split_transactions_merged_players t d mp None) as [[t' o]|]; [|discriminate]. injection E as <- <-.
    destruct x; try apply Qcle_refl. exfalso. apply mech0_inv in E1. destruct E1 as [[_ ?]|E1]; [discriminate|].
    revert E1. clear. intro E1. unfold huang_auction in E1. cbn [bind] in E1.
    repeat (unfold bind in E1; match type of E1 with context [match ?x with _ => _ end] => destruct x; try discriminate end).
  - apply mech0_inv in E. destruct E as [[_ ->]|E]; [apply Qcle_refl|].
    destruct (top_fees S d fl tm ex Hi (labels_ok d Hl) E Hus) as (l & r & pl & pr & fees & -> & Hf). cbn [extra_fees].
    apply nth_nonneg. intro n. destruct (Hf (Z.of_nat n) ltac:(lia)) as [H _]. unfold fee_of in H. rewrite Nat2Z.id in H. exact H.
  - apply mech0_inv in E. destruct E as [[_ ->]|E]; [apply Qcle_refl|]. destruct Hi as (H1 & _).
    destruct (p2p_matching d c r Hl H1 tm ex E) as (gtl & -> & _). apply Qcle_refl.
  - discriminate.
Qed.
