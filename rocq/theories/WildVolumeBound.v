(** With infinite and NaN prices no more is traded than can be. *)
From Verif Require Import QcTac Num NumFacts ListFacts ModelBase ModelHuang ModelP2P ModelMuda ModelMarket ModelStats ModelAny ModelWild ModelWildMuda ModelWildMarket ModelWildP2P ModelWildUniform ModelWildVolume
  Spec SpecAlloc SpecWild SpecWildMuda SpecWildMarket SpecWildP2P SpecWildUniform SpecWildVolume SpecWildVolumeBound LPFacts AllocFacts HuangFacts WildSort WildCap WildTop WildMudaHalf WildMudaTop WildStats WildStatsMaker WildUniform WildUniformTop WildUniformStats WildMarketOnce WildP2P WildVolume.

(** the amounts [a] give every bid what it gets in the transactions *)
Definition share (d : wdf) (T : list (atrans Qc num)) (a : alloc) : Prop :=
  (forall b s, In b (w_buyers d) -> In s (w_sellers d) -> 0 <= a (w_lbl b) (w_lbl s)) /\
  (forall b s, In b (w_buyers d) -> In s (w_sellers d) -> nleb (w_price s) (w_price b) = false -> a (w_lbl b) (w_lbl s) = 0) /\
  (forall b, In b (w_buyers d) -> qsumf (fun s => a (w_lbl b) (w_lbl s)) (w_sellers d) = w_gets T (w_lbl b)) /\
  (forall s, In s (w_sellers d) -> qsumf (fun b => a (w_lbl b) (w_lbl s)) (w_buyers d) = w_gets T (w_lbl s)).
Definition got (d : wdf) (T : list (atrans Qc num)) : Qc := qsumf (fun x => w_gets T (w_lbl x)) d.

Lemma share_app d T T' a a' : share d T a -> share d T' a' -> share d (T ++ T') (fun i j => a i j + a' i j).
Proof.
  intros (A1 & A2 & A3 & A4) (B1 & B2 & B3 & B4). split; [|split; [|split]].
  - intros b s Hb Hs. specialize (A1 b s Hb Hs). specialize (B1 b s Hb Hs). qlra.
  - intros b s Hb Hs L. rewrite (A2 b s), (B2 b s) by auto. ring.
  - intros b Hb. rewrite qsumf_plus, gets_app, A3, B3 by auto. reflexivity.
  - intros s Hs. rewrite qsumf_plus, gets_app, A4, B4 by auto. reflexivity.
Qed.
Lemma share_nil d : share d [] (fun _ _ => 0).
Proof. split; [|split; [|split]]; intros; try apply Qcle_refl; try reflexivity; apply qsumf_zero; auto. Qed.
Lemma gets_nonneg T i : (forall t, In t T -> 0 <= x_qty t) -> 0 <= w_gets T i.
Proof. intro H. apply qsumf_nonneg. intros t Ht. apply filter_In in Ht. apply H, Ht. Qed.
Lemma gets_some T i : 0 < w_gets T i -> exists t, In t T /\ x_bid t = i.
Proof.
  intro H. unfold w_gets in H. destruct (filter (fun t => Nat.eqb (x_bid t) i) T) as [|t l] eqn:E; [rewrite qsumf_nil in H; exfalso; qlra|].
  assert (K : In t (filter (fun t => Nat.eqb (x_bid t) i) T)) by (rewrite E; left; reflexivity). apply filter_In in K. exists t. split; [apply K | apply Nat.eqb_eq, K].
Qed.
(** if everybody who buys can buy from everybody who sells: in proportion *)
Lemma share_one d T : (forall t, In t T -> 0 <= x_qty t) -> got (w_buyers d) T = got (w_sellers d) T ->
  (forall b s, In b (w_buyers d) -> In s (w_sellers d) -> 0 < w_gets T (w_lbl b) -> 0 < w_gets T (w_lbl s) -> nleb (w_price s) (w_price b) = true) -> exists a, share d T a.
Proof.
  intros Hq Eq Hc. set (c := got (w_buyers d) T) in *.
  assert (G : forall i, 0 <= w_gets T i) by (intro i; apply gets_nonneg, Hq).
  assert (C0 : 0 <= c) by (apply qsumf_nonneg; intros; apply G).
  destruct (qlt_spec 0 c) as [Cp|Cn].
  - exists (fun i j => w_gets T i * w_gets T j / c). split; [|split; [|split]].
    + intros b s _ _. apply qmult_nonneg; [apply qmult_nonneg; apply G|]. apply Qclt_le_weak, qinv_pos, Cp.
    + intros b s Hb Hs L. destruct (qlt_spec 0 (w_gets T (w_lbl b))) as [P1|P1].
      * destruct (qlt_spec 0 (w_gets T (w_lbl s))) as [P2|P2]; [rewrite (Hc b s) in L by auto; discriminate|].
        replace (w_gets T (w_lbl s)) with 0 by (apply Qcle_antisym; [apply G | qlra]). unfold Qcdiv. ring.
      * replace (w_gets T (w_lbl b)) with 0 by (apply Qcle_antisym; [apply G | qlra]). unfold Qcdiv. ring.
    + intros b Hb. rewrite (qsumf_ext _ (fun s => (w_gets T (w_lbl b) / c) * w_gets T (w_lbl s))) by (intros; unfold Qcdiv; ring). rewrite qsumf_scale. fold (got (w_sellers d) T). rewrite <- Eq. field. intros K. rewrite K in Cp. qlra.
    + intros s Hs. rewrite (qsumf_ext _ (fun b => (w_gets T (w_lbl s) / c) * w_gets T (w_lbl b))) by (intros; unfold Qcdiv; ring). rewrite qsumf_scale. fold (got (w_buyers d) T). fold c. field. intros K. rewrite K in Cp. qlra.
  - assert (Cz : c = 0) by (apply Qcle_antisym; qlra). exists (fun _ _ => 0).
    assert (Z : forall l x, got l T = 0 -> In x l -> w_gets T (w_lbl x) = 0).
    { intros l x K Hx. apply Qcle_antisym; [|apply G]. rewrite <- K. apply (qsumf_in_le (fun y => w_gets T (w_lbl y))); [intros; apply G | exact Hx]. }
    split; [|split; [|split]]; intros; try apply Qcle_refl; try reflexivity.
    + rewrite (Z (w_buyers d)); auto. apply qsumf_zero. auto.
    + rewrite (Z (w_sellers d)); auto; [|congruence]. apply qsumf_zero. auto.
Qed.

Section Table.
  Variable d : wdf.
  Hypothesis N : NoDup (map w_lbl d).

  Lemma one_hit l i q : NoDup (map w_lbl l) -> qsumf (fun x => if Nat.eqb i (w_lbl x) then q else 0) l = if existsb (fun x => Nat.eqb (w_lbl x) i) l then q else 0.
  Proof.
    induction l as [|x l IH]; intro M; [reflexivity|]. inversion M as [|? ? M1 M2]; subst. rewrite qsumf_cons. cbn [existsb]. rewrite Nat.eqb_sym. destruct (Nat.eqb_spec (w_lbl x) i) as [E|E]; cbn [orb].
    - rewrite IH by exact M2. destruct (existsb _ l) eqn:K; [|ring]. exfalso. apply M1. apply existsb_exists in K. destruct K as (y & Hy & K). apply Nat.eqb_eq in K. rewrite E, <- K. apply in_map, Hy.
    - rewrite IH by exact M2. ring.
  Qed.
  Lemma filter_nodup f : NoDup (map w_lbl (filter f d)).
  Proof.
    clear - N. induction d as [|x l IH]; [constructor|]. inversion N as [|? ? N1 N2]; subst. cbn [filter]. destruct (f x); [|auto]. cbn [map]. constructor; [|auto].
    intro K. apply N1. apply in_map_iff in K. destruct K as (y & E & Hy). apply filter_In in Hy. rewrite <- E. apply in_map, Hy.
  Qed.
  Lemma existsb_filter {A} (f g : A -> bool) l : existsb g (filter f l) = existsb (fun x => g x && f x) l.
  Proof. induction l as [|x l IH]; [reflexivity|]. cbn [filter existsb]. destruct (f x); cbn [existsb]; rewrite IH; [rewrite andb_true_r | rewrite andb_false_r]; reflexivity. Qed.
  Lemma got_filter f T : got (filter f d) T = qsumf x_qty (filter (fun t => existsb (fun x => Nat.eqb (w_lbl x) (x_bid t) && f x) d) T).
  Proof.
    unfold got. induction T as [|t T IH]; [cbn [filter]; rewrite qsumf_nil; apply qsumf_zero; intros; reflexivity|].
    rewrite (qsumf_ext _ (fun x => (if Nat.eqb (x_bid t) (w_lbl x) then x_qty t else 0) + w_gets T (w_lbl x))) by (intros; apply gets_cons).
    rewrite qsumf_plus, IH. rewrite (one_hit (filter f d) (x_bid t) (x_qty t)) by apply filter_nodup. rewrite existsb_filter. cbn [filter]. destruct (existsb _ d); [rewrite qsumf_cons; reflexivity | ring].
  Qed.
  Lemma existsb_ext' {A} (f g : A -> bool) l : (forall x, f x = g x) -> existsb f l = existsb g l.
  Proof. intro H. induction l as [|x l IH]; [reflexivity|]. cbn [existsb]. rewrite H, IH. reflexivity. Qed.
  Lemma got_buyers T : got (w_buyers d) T = w_moved true d T.
  Proof. unfold w_buyers. rewrite got_filter. unfold w_moved. f_equal. apply filter_ext. intro t. apply existsb_ext'. intro x. destruct (w_buying x); reflexivity. Qed.
  Lemma got_sellers T : got (w_sellers d) T = w_moved false d T.
  Proof. unfold w_sellers. rewrite got_filter. reflexivity. Qed.
  Lemma got_all T : (forall t, In t T -> exists x, In x d /\ w_lbl x = x_bid t) -> qsumf x_qty T = got (w_buyers d) T + got (w_sellers d) T.
  Proof.
    intro H. unfold got at 1 2. unfold w_buyers, w_sellers. rewrite <- (qsumf_filter_split (fun x => w_gets T (w_lbl x)) w_buying d).
    rewrite <- (filter_all (fun _ => true) d) by auto. change (qsumf (fun x => w_gets T (w_lbl x)) (filter (fun _ => true) d)) with (got (filter (fun _ => true) d) T). rewrite got_filter. rewrite filter_all; [reflexivity|].
    intros t Ht. destruct (H t Ht) as (x & Hx & L). apply existsb_exists. exists x. rewrite L, Nat.eqb_refl. auto.
  Qed.
  Lemma share_alloc T a : share d T a -> (forall x, In x d -> w_gets T (w_lbl x) <= w_qty x) ->
    w_alloc d a /\ w_volume d a = got (w_buyers d) T /\ w_volume d a = got (w_sellers d) T.
  Proof.
    intros (A1 & A2 & A3 & A4) H. split; [|split].
    - split; [exact A1|]. split; [|split; [|exact A2]].
      + intros b Hb. rewrite A3 by exact Hb. apply H. apply filter_In in Hb. apply Hb.
      + intros s Hs. rewrite A4 by exact Hs. apply H. apply filter_In in Hs. apply Hs.
    - apply qsumf_ext. exact A3.
    - unfold w_volume. rewrite qsumf_swap. apply qsumf_ext. exact A4.
  Qed.
End Table.
Theorem share_ratio sv d T a x : w_positions d -> w_qty_nonneg d -> solver_ok sv -> share d T a -> (forall t, In t T -> 0 <= x_qty t /\ exists x, In x d /\ w_lbl x = x_bid t) ->
  (forall x, In x d -> w_gets T (w_lbl x) <= w_qty x) -> w_percentage sv d T = Ok (Some x) -> 0 <= x /\ x <= 1.
Proof.
  intros HP Hq Hs Ha Ht Hg Ex. pose proof (positions_nodup d HP) as N. destruct (volume_meaning sv d T HP Hq Hs) as (b & vmax & _ & _ & M & E). rewrite E in Ex.
  destruct (qlt_spec 0 vmax) as [V|V]; [|discriminate]. injection Ex as <-.
  destruct (share_alloc d T a Ha Hg) as (A & V1 & V2). specialize (M a A). rewrite (got_all d N T) by (intros t I; apply Ht, I). rewrite <- V1, <- V2.
  assert (V0 : 0 <= w_volume d a) by (rewrite V1; apply qsumf_nonneg; intros; apply gets_nonneg; intros t I; apply Ht, I).
  replace ((w_volume d a + w_volume d a) / qz 2) with (w_volume d a) by (replace (qz 2) with (1 + 1) by (apply Qc_is_canon; reflexivity); field; discriminate).
  split; [apply qmult_nonneg; [exact V0 | apply Qclt_le_weak, qinv_pos, V]|].
  apply (Qcmult_lt_0_le_reg_r _ _ vmax V). replace (w_volume d a / vmax * vmax) with (w_volume d a) by (field; intro K; rewrite K in V; discriminate V). rewrite Qcmult_1_l. exact M.
Qed.


(** ** Peer to peer *)
Lemma meetings_share c d L T : NoDup (map w_lbl d) -> meetings c d L T -> exists a, share d T a.
Proof.
  intros N. induction 1 as [|x y t u L T Hx Hy Bx By M _ (a & IH)]; [exists (fun _ _ => 0); apply share_nil|].
  destruct M as (Lt & Lu & _ & _ & Qu & _ & Q0 & K).
  assert (G : forall z, In z d -> w_gets [t; u] (w_lbl z) = if w_buying z then (if Nat.eqb (w_lbl x) (w_lbl z) then x_qty t else 0) else (if Nat.eqb (w_lbl y) (w_lbl z) then x_qty t else 0)).
  { intros z Hz. rewrite !gets_cons, Lt, Lu, Qu. change (w_gets [] (w_lbl z)) with (qsumf (@x_qty Qc num) []). rewrite qsumf_nil.
    destruct (Nat.eqb_spec (w_lbl x) (w_lbl z)) as [E1|E1], (Nat.eqb_spec (w_lbl y) (w_lbl z)) as [E2|E2];
      [assert (x = y) by (apply (unique_row d); auto; congruence); congruence | assert (x = z) by (apply (unique_row d); auto); subst z; rewrite Bx; ring | assert (y = z) by (apply (unique_row d); auto); subst z; rewrite By; ring | destruct (w_buying z); ring]. }
  assert (I : forall z, In z [t; u] -> 0 <= x_qty z) by (intros z [<-|[<-|[]]]; [exact Q0 | rewrite Qu; exact Q0]).
  destruct (share_one d [t; u] I) as (a' & Ha').
  - rewrite (got_buyers d N), (got_sellers d N). unfold w_moved. cbn [filter]. rewrite Lt, Lu, !(side_of d d x _ N (fun z H => H) Hx), !(side_of d d y _ N (fun z H => H) Hy), Bx, By. cbn [Bool.eqb]. rewrite !qsumf_cons, !qsumf_nil, Qu. reflexivity.
  - intros b s Hb Hs Pb Ps. apply filter_In in Hb. apply filter_In in Hs. destruct Hb as [Hb Bb], Hs as [Hs Bs]. apply negb_true_iff in Bs. rewrite G, Bb in Pb by exact Hb. rewrite G, Bs in Ps by exact Hs.
    destruct (Nat.eqb_spec (w_lbl x) (w_lbl b)) as [E1|]; [|exfalso; qlra]. destruct (Nat.eqb_spec (w_lbl y) (w_lbl s)) as [E2|]; [|exfalso; qlra].
    apply (unique_row d) in E1; auto. apply (unique_row d) in E2; auto. subst b s. destruct (nleb (w_price y) (w_price x)); [reflexivity|]. destruct K as [K _]. rewrite K in Pb. exfalso. qlra.
  - exists (fun i j => a' i j + a i j). exact (share_app d [t; u] T a' a Ha' IH).
Qed.
Theorem p2p_within sv c d r T g : w_positions d -> w_qty_nonneg d -> solver_ok sv -> w_p2p c d r = Ok (T, g) -> within d sv T.
Proof.
  intros HP Hq Hs E x Ex. destruct (p2p_meetings c d HP Hq r) as (T' & g' & E' & M & G). rewrite E in E'. injection E' as <- <-.
  destruct (meetings_share c d _ T (positions_nodup d HP) M) as (a & Ha). apply (share_ratio sv d T a x HP Hq Hs Ha); [|intros z Hz; apply G, Hz | exact Ex].
  intros t Ht. destruct (meetings_in c d _ T t M Ht) as (b & s & t1 & t2 & Hb & Hs' & _ & _ & (L1 & L2 & _ & _ & Q & _ & Q0 & _) & [-> | ->]).
  - split; [exact Q0 | exists b; auto].
  - split; [rewrite Q; exact Q0 | exists s; auto].
Qed.

(** ** Mechanisms with one price *)
Lemma gets_traded T i : w_gets T i = w_traded_by i T.
Proof. reflexivity. Qed.
Lemma gets_once T x : NoDup (map x_bid T) -> (forall t, In t T -> x_bid t = w_lbl x -> x_qty t <= w_qty x) -> 0 <= w_qty x -> w_gets T (w_lbl x) <= w_qty x.
Proof.
  intros N H Q0. revert N H. induction T as [|t T IH]; intros N H; [exact Q0|]. inversion N as [|? ? N1 N2]; subst. rewrite gets_cons. destruct (Nat.eqb_spec (x_bid t) (w_lbl x)) as [E|E].
  - replace (w_gets T (w_lbl x)) with 0; [specialize (H t (or_introl eq_refl) E); qlra|]. unfold w_gets. rewrite filter_none; [rewrite qsumf_nil; reflexivity|].
    intros u Hu. apply Nat.eqb_neq. intro C. apply N1. rewrite E, <- C. apply in_map, Hu.
  - specialize (IH N2 (fun u Hu => H u (or_intror Hu))). qlra.
Qed.
Theorem uniform_within sv S d ts q p : w_positions d -> w_qty_nonneg d -> asks_not_negative d -> solver_ok sv -> w_uniform_run S d = Ok (ts, Some (q, p)) -> within d sv ts.
Proof.
  intros HP Hq Hn Hs E x Ex. pose proof (positions_nodup d HP) as N. destruct (run_fair S d ts q p Hq Hn E) as (_ & c & ss & bs & _ & _ & PP & Ss & Sb & Fs & Fb & ND). specialize (ND N).
  assert (F : forall t, In t ts -> exists b, fair_trans d b p t).
  { intros t Ht. apply (Permutation_in _ PP) in Ht. apply in_app_or in Ht. destruct Ht as [Ht|Ht]; eauto. }
  assert (P0 : forall t, In t ts -> 0 <= x_qty t) by (intros t Ht; destruct (F t Ht) as (b & y & H); apply H).
  assert (Mt : w_moved true d ts = w_moved false d ts).
  { rewrite !(moved_perm d _ _ _ PP), !moved_app. destruct (moved_fair d N p _ _ Fs) as [A1 A2], (moved_fair d N p _ _ Fb) as [B1 B2]. cbn [negb] in *. rewrite A1, A2, B1, B2. rewrite Ss, Sb. ring. }
  assert (R : forall z, In z d -> 0 < w_gets ts (w_lbl z) -> nleb (if w_buying z then p else w_price z) (if w_buying z then w_price z else p) = true).
  { intros z Hz Gz. destruct (gets_some ts _ Gz) as (t & Ht & Lt). destruct (F t Ht) as (b & y & Hy & By & Ly & _ & _ & Py & _ & _ & Ry). assert (y = z) by (apply (unique_row d); auto; congruence). subst y. unfold respects in Ry. rewrite Py in Ry. exact Ry. }
  destruct (share_one d ts P0) as (a & Ha).
  - rewrite (got_buyers d N), (got_sellers d N). exact Mt.
  - intros b s Hb Hs' Pb Ps. apply filter_In in Hb. apply filter_In in Hs'. destruct Hb as [Hb Bb], Hs' as [Hs' Bs]. apply negb_true_iff in Bs. pose proof (R b Hb Pb) as Rb. pose proof (R s Hs' Ps) as Rs. rewrite Bb in Rb. rewrite Bs in Rs. exact (nle_trans _ _ _ Rs Rb).
  - apply (share_ratio sv d ts a x HP Hq Hs Ha); [| |exact Ex].
    + intros t Ht. split; [apply P0, Ht|]. destruct (F t Ht) as (b & y & Hy & _ & Ly & _). eauto.
    + intros z Hz. apply (gets_once ts z ND); [|apply Hq, Hz].
      intros t Ht Lt. destruct (F t Ht) as (b & y & Hy & _ & Ly & _ & Qy & _). assert (y = z) by (apply (unique_row d); auto; congruence). subst y. exact Qy.
Qed.

(** ** MUDA *)
Lemma moved_part d h b T : NoDup (map w_lbl d) -> (forall y, In y h -> In y d) -> (forall t, In t T -> exists x, In x h /\ w_lbl x = x_bid t) -> w_moved b d T = w_moved b h T.
Proof.
  intros N H K. unfold w_moved. f_equal. apply filter_ext_in. intros t Ht. destruct (K t Ht) as (x & Hx & <-). rewrite (side_of d d x b N (fun y Hy => Hy) (H x Hx)), (side_of d h x b N H Hx). reflexivity.
Qed.
Lemma half_share d h p T : NoDup (map w_lbl d) -> (forall y, In y h -> In y d) -> HalfFair h p T -> exists a, share d T a.
Proof.
  intros N H F. assert (K : forall t, In t T -> exists x, In x h /\ w_lbl x = x_bid t) by (intros t Ht; destruct (hf_trans _ _ _ F t Ht) as (_ & _ & _ & _ & x & Hx & Lx & _); eauto).
  apply share_one.
  - intros t Ht. apply (hf_trans _ _ _ F t Ht).
  - rewrite (got_buyers d N), (got_sellers d N), !(moved_part d h _ T N H K), !(hf_volume _ _ _ F). reflexivity.
  - assert (R : forall z, In z d -> 0 < w_gets T (w_lbl z) -> accepts p z = true).
    { intros z Hz Gz. destruct (gets_some T _ Gz) as (t & Ht & Lt). destruct (hf_trans _ _ _ F t Ht) as (_ & _ & _ & _ & y & Hy & Ly & Ay). assert (y = z) by (apply (unique_row d); auto; congruence). subst y. exact Ay. }
    intros b s Hb Hs' Pb Ps. apply filter_In in Hb. apply filter_In in Hs'. destruct Hb as [Hb Bb], Hs' as [Hs' Bs]. apply negb_true_iff in Bs. pose proof (R b Hb Pb) as Rb. pose proof (R s Hs' Ps) as Rs. unfold accepts in Rb, Rs. rewrite Bb in Rb. rewrite Bs in Rs. exact (nle_trans _ _ _ Rs Rb).
Qed.
Theorem muda_within sv S d fl ts e : w_positions d -> w_qty_nonneg d -> solver_ok sv -> w_muda S d fl = Ok (ts, e) -> within d sv ts.
Proof.
  intros HP Hq Hs E x Ex. pose proof (positions_nodup d HP) as N. destruct (w_muda_fair S d fl ts e Hq N E) as (PP & _ & _ & (tl & tr & -> & Hl & Hr) & _ & _).
  assert (R : forall s y, In y (w_rows_in s d) -> In y d) by (intros s y Hy; apply filter_In in Hy; apply Hy).
  destruct (half_share d _ _ tl N (R _) Hl) as (a & Ha). destruct (half_share d _ _ tr N (R _) Hr) as (a' & Ha').
  assert (D : forall i, In i (e_left e) -> In i (e_right e) -> False).
  { intros i I1 I2. apply (Permutation_NoDup (Permutation_sym PP)) in N. clear - N I1 I2. induction (e_left e) as [|j l IH]; [destruct I1|]. cbn [app] in N. inversion N as [|? ? N1 N2]; subst. destruct I1 as [->|I1]; [apply N1, in_or_app; auto | auto]. }
  assert (Z : forall l p T z, HalfFair (w_rows_in l d) p T -> ~ In (w_lbl z) l -> w_gets T (w_lbl z) = 0).
  { intros l p T z F C. unfold w_gets. rewrite filter_none; [rewrite qsumf_nil; reflexivity|]. intros t Ht. apply Nat.eqb_neq. intro Lt. apply C. destruct (hf_trans _ _ _ F t Ht) as (_ & _ & _ & _ & y & Hy & Ly & _).
    apply filter_In in Hy. destruct Hy as [_ Hy]. apply existsb_exists in Hy. destruct Hy as (j & Hj & Ej). apply Nat.eqb_eq in Ej. congruence. }
  apply (share_ratio sv d (tl ++ tr) _ x HP Hq Hs (share_app d tl tr a a' Ha Ha')); [| |exact Ex].
  - intros t Ht. apply in_app_or in Ht. destruct Ht as [Ht|Ht]; [destruct (hf_trans _ _ _ Hl t Ht) as (_ & _ & _ & Q0 & y & Hy & Ly & _) | destruct (hf_trans _ _ _ Hr t Ht) as (_ & _ & _ & Q0 & y & Hy & Ly & _)]; (split; [exact Q0 | exists y; split; [eapply R, Hy | exact Ly]]).
  - intros z Hz. rewrite gets_app. assert (I : In (w_lbl z) (e_left e ++ e_right e)) by (apply (Permutation_in _ (Permutation_sym PP)), in_map, Hz).
    assert (J : forall l, In (w_lbl z) l -> In z (w_rows_in l d)) by (intros l Il; apply filter_In; split; [exact Hz|]; apply existsb_exists; exists (w_lbl z); rewrite Nat.eqb_refl; auto).
    apply in_app_or in I. destruct I as [I|I].
    + rewrite (Z _ _ tr z Hr) by (intro; eapply D; eauto). pose proof (hf_feasible _ _ _ Hl z (J _ I)) as K. rewrite <- gets_traded in K. qlra.
    + rewrite (Z _ _ tl z Hl) by (intro; eapply D; eauto). pose proof (hf_feasible _ _ _ Hr z (J _ I)) as K. rewrite <- gets_traded in K. qlra.
Qed.

(** ** Huang *)
Section Huang.
  Variable S : wsorter.
  Variable d : wdf.
  Hypothesis Hq : w_qty_nonneg d.
  Hypothesis N : NoDup (map w_lbl d).
  Lemma huang_once ts e : w_huang S d = Ok (ts, e) -> NoDup (map x_bid ts).
  Proof.
    intros E. destruct (w_cases S d Hq) as [C|(B1 & B2 & L1 & rs & L2 & pb & q & ts' & EB & EL & Nx & Lt & C & D)]; rewrite C in E; clear C; injection E as <- <-; [constructor|].
    destruct D as [(_ & -> & _)|(qs & qb & Rs & Rb & S1 & S2 & _ & ->)]; [constructor|].
    assert (QB : forall x, In x B1 -> In x d /\ w_buying x = true) by (intros x Hx; apply (in_B S d); rewrite EB; apply in_or_app; auto).
    assert (QL : forall x, In x L1 -> In x d /\ w_buying x = false) by (intros x Hx; apply (in_L S d); rewrite EL; apply in_or_app; auto).
    rewrite map_app, !emit_bids by (rewrite (rationed_length _ _ Rs) || rewrite (rationed_length _ _ Rb); apply map_length). apply NoDup_app_i.
    - apply (NoDup_app_l _ (map w_lbl (rs :: L2))). rewrite <- map_app, <- EL. apply (Permutation_NoDup (l := map w_lbl (w_sellers d))); [apply Permutation_sym, Permutation_map, w_asc_perm|]. apply map_filter_NoDup, N.
    - apply (NoDup_app_l _ (map w_lbl B2)). rewrite <- map_app, <- EB. apply (Permutation_NoDup (l := map w_lbl (w_buyers d))); [apply Permutation_sym, Permutation_map, w_desc_perm|]. apply map_filter_NoDup, N.
    - intros i I1 I2. apply in_map_iff in I1, I2. destruct I1 as (x & Ex & Hx), I2 as (y & Ey & Hy). destruct (QL x Hx) as [X1 X2], (QB y Hy) as [Y1 Y2]. assert (x = y) by (apply (unique_row d); auto; congruence). congruence.
  Qed.
  (** the price of the sellers is below that of the buyers *)
  Lemma huang_two ts e : w_huang S d = Ok (ts, e) -> (forall x, In x d -> w_buying x = false -> nltb (w_price x) (Fin 0) = false) ->
    exists ss bs ps pb, ts = ss ++ bs /\ qsumf x_qty ss = qsumf x_qty bs /\ (ts <> [] -> nle ps pb) /\
      (forall t, In t ss -> x_price t = ps) /\ (forall t, In t bs -> x_price t = pb) /\
      (forall t, In t ss -> exists x, In x d /\ w_buying x = false /\ x_bid t = w_lbl x /\ 0 <= x_qty t /\ x_qty t <= w_qty x /\ respects x t) /\
      (forall t, In t bs -> exists x, In x d /\ w_buying x = true /\ x_bid t = w_lbl x /\ 0 <= x_qty t /\ x_qty t <= w_qty x /\ respects x t).
  Proof.
    intros E Hs. pose proof (w_fair S d Hq ts e E Hs) as F. destruct (w_cases S d Hq) as [C|(B1 & B2 & L1 & rs & L2 & pb & q & ts' & EB & EL & Nx & Lt & C & D)]; rewrite C in E; clear C; injection E as <- <-.
    { exists [], [], NaN, NaN. repeat split; try (intros t []). intro K. congruence. }
    destruct D as [(_ & -> & _)|(qs & qb & Rs & Rb & S1 & S2 & _ & ->)]; [exists [], [], NaN, NaN; repeat split; try (intros t []); intro K; congruence|].
    assert (QB : forall x, In x B1 -> In x d /\ w_buying x = true) by (intros x Hx; apply (in_B S d); rewrite EB; apply in_or_app; auto).
    assert (QL : forall x, In x L1 -> In x d /\ w_buying x = false) by (intros x Hx; apply (in_L S d); rewrite EL; apply in_or_app; auto).
    exists (w_emit L1 qs (w_price rs)), (w_emit B1 qb pb), (w_price rs), pb. split; [reflexivity|].
    split; [rewrite !w_emit_sum by (rewrite (rationed_length _ _ Rs) || rewrite (rationed_length _ _ Rb); apply map_length); congruence|].
    split; [intros _; apply nlt_le, Lt|].
    assert (P1 : forall t, In t (w_emit L1 qs (w_price rs)) -> exists x, In x L1 /\ x_bid t = w_lbl x /\ x_price t = w_price rs).
    { intros t Ht. destruct (w_emit_in _ _ _ _ Rs Ht) as (x & Hx & I1 & _ & _ & I4); [intros x Hx; apply Hq, QL, Hx | eauto]. }
    assert (P2 : forall t, In t (w_emit B1 qb pb) -> exists x, In x B1 /\ x_bid t = w_lbl x /\ x_price t = pb).
    { intros t Ht. destruct (w_emit_in _ _ _ _ Rb Ht) as (x & Hx & I1 & _ & _ & I4); [intros x Hx; apply Hq, QB, Hx | eauto]. }
    split; [intros t Ht; destruct (P1 t Ht) as (x & _ & _ & K); exact K|]. split; [intros t Ht; destruct (P2 t Ht) as (x & _ & _ & K); exact K|].
    destruct F as (ss & bs & Es & _ & Fs & Fb).
    split; intros t Ht; [destruct (P1 t Ht) as (x & Hx & Lx & _); destruct (QL x Hx) as [X1 X2] | destruct (P2 t Ht) as (x & Hx & Lx & _); destruct (QB x Hx) as [X1 X2]].
    - assert (I : In t (ss ++ bs)) by (rewrite <- Es; apply in_or_app; auto). apply in_app_or in I. destruct I as [I|I]; [apply Fs, I|]. destruct (Fb t I) as (y & Y1 & Y2 & Y3 & _). assert (x = y) by (apply (unique_row d); auto; congruence). congruence.
    - assert (I : In t (ss ++ bs)) by (rewrite <- Es; apply in_or_app; auto). apply in_app_or in I. destruct I as [I|I]; [|apply Fb, I]. destruct (Fs t I) as (y & Y1 & Y2 & Y3 & _). assert (x = y) by (apply (unique_row d); auto; congruence). congruence.
  Qed.
End Huang.
Theorem huang_within sv S d ts e : w_positions d -> w_qty_nonneg d -> asks_not_negative d -> solver_ok sv -> w_huang S d = Ok (ts, e) -> within d sv ts.
Proof.
  intros HP Hq Hn Hs E x Ex. pose proof (positions_nodup d HP) as N. pose proof (huang_once S d Hq N ts e E) as ND. destruct (huang_two S d Hq N ts e E Hn) as (ss & bs & ps & pb & Et & Sq & Lp & Ps & Pb & Fs & Fb).
  assert (F : forall t, In t ts -> exists y, In y d /\ x_bid t = w_lbl y /\ 0 <= x_qty t /\ x_qty t <= w_qty y /\ respects y t /\ x_price t = if w_buying y then pb else ps).
  { intros t Ht. rewrite Et in Ht. apply in_app_or in Ht. destruct Ht as [Ht|Ht]; [destruct (Fs t Ht) as (y & Y1 & Y2 & Y3 & Y4 & Y5 & Y6) | destruct (Fb t Ht) as (y & Y1 & Y2 & Y3 & Y4 & Y5 & Y6)]; exists y; rewrite Y2; auto 10. }
  assert (P0 : forall t, In t ts -> 0 <= x_qty t) by (intros t Ht; destruct (F t Ht) as (y & H); apply H).
  assert (Mv : forall b l, (forall t, In t l -> exists y, In y d /\ w_buying y = b /\ x_bid t = w_lbl y) -> w_moved b d l = qsumf x_qty l /\ w_moved (negb b) d l = 0).
  { intros b l H. unfold w_moved. assert (K : forall c t, In t l -> existsb (fun z => Nat.eqb (w_lbl z) (x_bid t) && Bool.eqb (w_buying z) c) d = Bool.eqb b c) by (intros c t Ht; destruct (H t Ht) as (z & Hz & Bz & Lz); rewrite Lz, (side_of d d z c N (fun y Hy => Hy) Hz), Bz; reflexivity).
    split; [rewrite filter_all; [reflexivity|]; intros t Ht; rewrite (K b t Ht); apply Bool.eqb_reflx|]. rewrite filter_none; [reflexivity|]. intros t Ht. rewrite (K (negb b) t Ht). destruct b; reflexivity. }
  destruct (share_one d ts P0) as (a & Ha).
  - rewrite (got_buyers d N), (got_sellers d N), Et, !moved_app. destruct (Mv false ss) as [A1 A2]; [intros t Ht; destruct (Fs t Ht) as (y & ? & ? & ? & _); eauto|]. destruct (Mv true bs) as [B1 B2]; [intros t Ht; destruct (Fb t Ht) as (y & ? & ? & ? & _); eauto|].
    cbn [negb] in *. rewrite A1, A2, B1, B2, Sq. ring.
  - assert (R : forall z, In z d -> 0 < w_gets ts (w_lbl z) -> ts <> [] /\ nleb (if w_buying z then pb else w_price z) (if w_buying z then w_price z else ps) = true).
    { intros z Hz Gz. destruct (gets_some ts _ Gz) as (t & Ht & Lt). split; [intros ->; destruct Ht|]. destruct (F t Ht) as (y & Hy & Ly & _ & _ & Ry & Py). assert (y = z) by (apply (unique_row d); auto; congruence). subst y. unfold respects in Ry. rewrite Py in Ry. destruct (w_buying z); exact Ry. }
    intros b s Hb Hs' Gb Gs. apply filter_In in Hb. apply filter_In in Hs'. destruct Hb as [Hb Bb], Hs' as [Hs' Bs]. apply negb_true_iff in Bs. destruct (R b Hb Gb) as [Ne Rb]. destruct (R s Hs' Gs) as [_ Rs]. rewrite Bb in Rb. rewrite Bs in Rs. exact (nle_trans _ _ _ Rs (nle_trans _ _ _ (Lp Ne) Rb)).
  - apply (share_ratio sv d ts a x HP Hq Hs Ha); [| |exact Ex].
    + intros t Ht. split; [apply P0, Ht|]. destruct (F t Ht) as (y & Hy & Ly & _). eauto.
    + intros z Hz. apply (gets_once ts z ND); [|apply Hq, Hz].
      intros t Ht Lt. destruct (F t Ht) as (y & Hy & Ly & _ & Qy & _). assert (y = z) by (apply (unique_row d); auto; congruence). subst y. exact Qy.
Qed.
