(** Facts about [p2p_random], part 2: the transactions. *)
From Verif Require Import QcTac Num ModelBase ModelHuang ModelP2P ListFacts StoreFacts Spec SpecTrade SpecAlloc TradeFacts P2PFacts.

(** the quantity and the price of the meeting of [b] and [s] when the untraded quantities are [q] *)
Definition meet_q (prices q : list Qc) (b s : nat) : Qc :=
  if qleb (get prices s) (get prices b) then qmin (get q b) (get q s) else 0.
Definition meet_p (c : Qc) (prices : list Qc) (b s : nat) : Qc :=
  if qleb (get prices s) (get prices b) then get prices b * c + (1 - c) * get prices s else 0.
Definition left_over (prices q : list Qc) (b s i : nat) : bool :=
  if qleb (get prices s) (get prices b) then qltb 0 (get q i - qmin (get q b) (get q s)) else true.
Definition tr_b c prices q b s := mkTrans b (meet_q prices q b s) (meet_p c prices b s) (Z.of_nat s) (left_over prices q b s b).
Definition tr_s c prices q b s := mkTrans s (meet_q prices q b s) (meet_p c prices b s) (Z.of_nat b) (left_over prices q b s s).

Lemma trade_pair_trans c prices q tm b s :
  tm_trans (snd (trade_pair c prices (q, tm) (b, s))) = tm_trans tm ++ [tr_b c prices q b s; tr_s c prices q b s].
Proof.
  unfold trade_pair, tr_b, tr_s, meet_q, meet_p, left_over, get.
  destruct (qleb (nth s prices 0) (nth b prices 0)); cbn [snd]; rewrite add_all_trans; reflexivity.
Qed.
Fixpoint trades (c : Qc) (prices q : list Qc) (L : list (nat * nat)) : list trans :=
  match L with
  | [] => []
  | (b, s) :: L' => tr_b c prices q b s :: tr_s c prices q b s :: trades c prices (step_q prices q (b, s)) L'
  end.
Lemma fold_trade_trans c prices L : forall q tm,
  tm_trans (snd (fold_left (trade_pair c prices) L (q, tm))) = tm_trans tm ++ trades c prices q L.
Proof.
  induction L as [|[b s] L IH]; intros q tm; [simpl; rewrite app_nil_r; reflexivity|]. cbn [fold_left].
  destruct (trade_pair c prices (q, tm) (b, s)) as [q' tm'] eqn:E. rewrite IH.
  pose proof (trade_pair_trans c prices q tm b s) as H. rewrite E in H. cbn [snd] in H. rewrite H.
  pose proof (trade_pair_fst c prices q tm (b, s)) as H2. rewrite E in H2. cbn [fst] in H2. rewrite H2, <- app_assoc. reflexivity.
Qed.
Lemma trades_app c prices L1 L2 : forall q, trades c prices q (L1 ++ L2) = trades c prices q L1 ++ trades c prices (after prices q L1) L2.
Proof. induction L1 as [|[b s] L1 IH]; intro q; [reflexivity|]. simpl. rewrite IH. reflexivity. Qed.
Lemma trades_meet c prices L : forall q, Meetings L (trades c prices q L).
Proof. induction L as [|[b s] L IH]; intro q; simpl; constructor; auto. Qed.

Lemma step_q_meet prices q b s i : b <> s -> (b < length q)%nat -> (s < length q)%nat ->
  get (step_q prices q (b, s)) i =
    get q i - (if Nat.eqb b i then meet_q prices q b s else 0) - (if Nat.eqb s i then meet_q prices q b s else 0).
Proof.
  intros N Lb Ls. rewrite step_q_get by assumption. unfold meet_q. destruct (qleb _ _).
  - destruct (Nat.eqb b i) eqn:Eb, (Nat.eqb s i) eqn:Es; simpl; try ring.
    apply Nat.eqb_eq in Eb, Es. congruence.
  - destruct (Nat.eqb b i), (Nat.eqb s i); ring.
Qed.

Lemma trades_by c prices i L : forall q, (forall p, In p L -> good_pair (length q) p) ->
  traded_by i (trades c prices q L) = get q i - get (after prices q L) i.
Proof.
  induction L as [|[b s] L IH]; intros q Hg; [simpl; unfold after; simpl; unfold traded_by; simpl; rewrite qsumf_nil; ring|].
  cbn [trades]. rewrite !traded_by_cons, IH by (intros p Hp; rewrite step_q_len; apply Hg; right; exact Hp).
  destruct (Hg (b, s) (or_introl eq_refl)) as (N & Lb & Ls). simpl in N, Lb, Ls.
  unfold after. cbn [fold_left]. change (fold_left (step_q prices) L ?x) with (after prices x L).
  rewrite step_q_meet by assumption. simpl t_bid. simpl t_qty.
  destruct (Nat.eqb b i), (Nat.eqb s i); ring.
Qed.
Lemma trades_in c prices L t : forall q, In t (trades c prices q L) ->
  exists L1 b s L2, L = L1 ++ (b, s) :: L2 /\ (t = tr_b c prices (after prices q L1) b s \/ t = tr_s c prices (after prices q L1) b s).
Proof.
  induction L as [|[b s] L IH]; intros q; [contradiction|]. cbn [trades]. intros [<-|[<-|H]].
  - exists [], b, s, L. auto.
  - exists [], b, s, L. auto.
  - destruct (IH _ H) as (L1 & b' & s' & L2 & -> & Ht). exists ((b, s) :: L1), b', s', L2. split; [reflexivity|]. exact Ht.
Qed.
Lemma trades_split c prices L t : forall q l1 l2, trades c prices q L = l1 ++ t :: l2 ->
  exists L1 b s L2, L = L1 ++ (b, s) :: L2 /\
    (l1 = trades c prices q L1 /\ t = tr_b c prices (after prices q L1) b s \/
     l1 = trades c prices q L1 ++ [tr_b c prices (after prices q L1) b s] /\ t = tr_s c prices (after prices q L1) b s).
Proof.
  induction L as [|[b s] L IH]; intros q l1 l2; cbn [trades]; intro E.
  - destruct l1; discriminate.
  - destruct l1 as [|x1 l1].
    + simpl in E. assert (E1 : tr_b c prices q b s = t) by congruence. exists [], b, s, L. split; [reflexivity|]. left. auto.
    + destruct l1 as [|x2 l1].
      * simpl in E. assert (E1 : x1 = tr_b c prices q b s) by congruence. assert (E2 : t = tr_s c prices q b s) by congruence.
        exists [], b, s, L. split; [reflexivity|]. right. subst. auto.
      * simpl in E. assert (E1 : x1 = tr_b c prices q b s) by congruence. assert (E2 : x2 = tr_s c prices q b s) by congruence.
        assert (E3 : trades c prices (step_q prices q (b, s)) L = l1 ++ t :: l2) by congruence.
        destruct (IH _ _ _ E3) as (L1 & b' & s' & L2 & -> & D). exists ((b, s) :: L1), b', s', L2. split; [reflexivity|].
        subst x1 x2. unfold after. cbn [trades fold_left]. change (fold_left (step_q prices) L1 ?x) with (after prices x L1).
        destruct D as [[-> ->]|[-> ->]]; [left | right]; auto.
Qed.

Section Run.
  Variables (d : df) (c : Qc) (r : nat -> nat).
  Hypothesis Hl : map lbl d = seq 0 (length d).
  Hypothesis Hq : qty_nonneg d.
  Let prices := map price d.
  Let q0 := map qty d.
  Variables (tm : transmgr) (ex : extra).
  Hypothesis E : p2p_random d c r = Ok (tm, ex).

  Lemma run_shape : exists gtl, ex = XP2P gtl /\ tm_trans tm = trades c prices q0 (concat gtl) /\ rounds_ok d gtl /\ final_ok d gtl.
  Proof.
    destruct (p2p_run d c r Hl Hq) as (gtl & E' & R & F). rewrite E in E'. injection E' as -> ->.
    exists gtl. rewrite fold_trade_trans. auto.
  Qed.
  Lemma rounds_good gtl : rounds_ok d gtl -> forall p, In p (concat gtl) -> good_pair (length q0) p.
  Proof. intros R p Hp. unfold q0. rewrite map_length. apply pair_good; [exact Hl|]. apply R, Hp. Qed.
  Lemma untraded gtl x : rounds_ok d gtl -> In x d ->
    traded_by (lbl x) (trades c prices q0 (concat gtl)) = qty x - get (after prices q0 (concat gtl)) (lbl x).
  Proof.
    intros R Hx. rewrite trades_by by (apply rounds_good, R). unfold q0 at 1. rewrite (get_qty d Hl x Hx). reflexivity.
  Qed.

  Theorem p2p_refer : refer d (tm_trans tm).
  Proof.
    destruct run_shape as (gtl & _ & -> & R & _). intros t Ht.
    apply trades_in in Ht. destruct Ht as (L1 & b & s & L2 & EL & Ht).
    assert (I : In (b, s) (all_pairs d)) by (apply R; rewrite EL; apply in_or_app; right; left; reflexivity).
    apply pair_iff in I. destruct I as (x & y & H1 & H2 & _ & _ & <- & <-).
    destruct Ht as [->| ->]; [exists x | exists y]; auto.
  Qed.
  Lemma meet_nonneg q b s : (forall i, 0 <= get q i) -> 0 <= meet_q prices q b s.
  Proof. intro H. unfold meet_q. destruct (qleb _ _); [apply qmin_glb; apply H | qlra]. Qed.
  Theorem p2p_feasible : feasible d (tm_trans tm).
  Proof.
    destruct run_shape as (gtl & _ & -> & R & _). split.
    - intros t Ht. apply trades_in in Ht. destruct Ht as (L1 & b & s & L2 & EL & Ht).
      assert (N : forall i, 0 <= get (after prices q0 L1) i).
      { intro i. apply after_nonneg; [|apply q0_nonneg; assumption]. intros p Hp. apply (rounds_good gtl R). rewrite EL. apply in_or_app; left; exact Hp. }
      destruct Ht as [->| ->]; apply meet_nonneg, N.
    - intros x Hx. rewrite untraded by assumption.
      destruct (after_nonneg prices (concat gtl) q0 (rounds_good gtl R) (q0_nonneg d Hq) (lbl x)) as [H _]. qlra.
  Qed.
  Theorem p2p_prices t : In t (tm_trans tm) ->
    exists x y, In x d /\ In y d /\ buying x = true /\ buying y = false /\
      (t_bid t = lbl x /\ t_source t = Z.of_nat (lbl y) \/ t_bid t = lbl y /\ t_source t = Z.of_nat (lbl x)) /\
      (price y <= price x -> t_price t = price x * c + (1 - c) * price y) /\
      (price x < price y -> t_qty t = 0 /\ t_price t = 0).
  Proof.
    destruct run_shape as (gtl & _ & -> & R & _). intro Ht. apply trades_in in Ht. destruct Ht as (L1 & b & s & L2 & EL & Ht).
    assert (I : In (b, s) (all_pairs d)) by (apply R; rewrite EL; apply in_or_app; right; left; reflexivity).
    apply pair_iff in I. destruct I as (x & y & H1 & H2 & H3 & H4 & <- & <-). exists x, y.
    do 4 (split; [assumption|]). split; [destruct Ht as [->| ->]; [left | right]; auto|].
    assert (Ep : t_price t = meet_p c prices (lbl x) (lbl y) /\ t_qty t = meet_q prices (after prices q0 L1) (lbl x) (lbl y))
      by (destruct Ht as [->| ->]; auto). destruct Ep as [Ep Eq]. rewrite Ep, Eq. unfold meet_p, meet_q.
    pose proof (get_price d Hl x H1) as Px. pose proof (get_price d Hl y H2) as Py. fold prices in Px, Py. rewrite Px, Py.
    split; intro Hc.
    - rewrite (proj2 (qleb_le _ _) Hc). reflexivity.
    - rewrite (proj2 (qleb_gt _ _) Hc). auto.
  Qed.
  Theorem p2p_rational : 0 <= c -> c <= 1 -> forall t x, In t (tm_trans tm) -> 0 < t_qty t -> In x d -> lbl x = t_bid t ->
    if buying x then t_price t <= price x else price x <= t_price t.
  Proof.
    intros C0 C1 t z Ht Hpos Hz El. destruct (p2p_prices t Ht) as (x & y & H1 & H2 & H3 & H4 & Hb & Hp & Hn).
    destruct (Qclt_le_dec (price x) (price y)) as [L|L]; [destruct (Hn L) as [Z _]; rewrite Z in Hpos; exfalso; qlra|].
    rewrite (Hp L). destruct Hb as [[Hb _]|[Hb _]].
    - assert (z = x) by (apply (NoDup_map_in lbl d); auto; [apply labels_ok, Hl | congruence]). subst z. rewrite H3. qnra.
    - assert (z = y) by (apply (NoDup_map_in lbl d); auto; [apply labels_ok, Hl | congruence]). subst z. rewrite H4. qnra.
  Qed.
  Lemma stay_zero L1 L2 i : (forall p, In p (L1 ++ L2) -> good_pair (length q0) p) ->
    get (after prices q0 L1) i = 0 -> get (after prices q0 (L1 ++ L2)) i = 0.
  Proof.
    intros G Z. rewrite after_app.
    destruct (after_nonneg prices L2 (after prices q0 L1)) with (i := i) as [A B].
    - intros p Hp. rewrite after_len. apply G, in_or_app. right; exact Hp.
    - apply after_nonneg; [|apply q0_nonneg; assumption]. intros p Hp. apply G, in_or_app. left; exact Hp.
    - rewrite Z in B. qlra.
  Qed.
  Theorem p2p_exhausts x y : In x d -> In y d -> buying x = true -> buying y = false -> price y <= price x ->
    traded_by (lbl x) (tm_trans tm) = qty x \/ traded_by (lbl y) (tm_trans tm) = qty y.
  Proof.
    destruct run_shape as (gtl & _ & -> & R & F). intros Hx Hy Bx By Hc.
    rewrite !untraded by assumption.
    cut (get (after prices q0 (concat gtl)) (lbl x) = 0 \/ get (after prices q0 (concat gtl)) (lbl y) = 0).
    { intros [Z|Z]; [left | right]; rewrite Z; ring. }
    destruct (F (lbl x) (lbl y)) as [I|[Z|Z]]; auto.
    { apply pair_iff. exists x, y. auto 10. }
    apply in_split in I. destruct I as (L1 & L2 & EL).
    assert (Z : get (after prices q0 (L1 ++ [(lbl x, lbl y)])) (lbl x) = 0 \/ get (after prices q0 (L1 ++ [(lbl x, lbl y)])) (lbl y) = 0).
    { rewrite after_app. assert (G : good_pair (length q0) (lbl x, lbl y)) by (apply (rounds_good gtl R); rewrite EL; apply in_or_app; right; left; reflexivity).
      destruct G as (N & Lb & Ls). simpl in N, Lb, Ls. unfold after at 1 3. cbn [fold_left].
      rewrite !step_q_meet by (rewrite ?after_len; assumption).
      rewrite !Nat.eqb_refl. replace (Nat.eqb (lbl x) (lbl y)) with false by (symmetry; apply Nat.eqb_neq; exact N).
      rewrite (proj2 (Nat.eqb_neq (lbl y) (lbl x))) by auto.
      unfold meet_q. pose proof (get_price d Hl x Hx) as Px. pose proof (get_price d Hl y Hy) as Py. fold prices in Px, Py. rewrite Px, Py, (proj2 (qleb_le _ _) Hc).
      destruct (qmin_case (get (after prices q0 L1) (lbl x)) (get (after prices q0 L1) (lbl y))) as [[Em _]|[Em _]]; rewrite Em; [left | right]; ring. }
    assert (EL' : concat gtl = (L1 ++ [(lbl x, lbl y)]) ++ L2) by (rewrite EL, <- app_assoc; reflexivity).
    rewrite EL'. destruct Z as [Z|Z]; [left | right]; (apply stay_zero; [rewrite <- EL'; apply rounds_good, R | exact Z]).
  Qed.
  Theorem p2p_active : qty_pos d -> forall l1 t l2 x, tm_trans tm = l1 ++ t :: l2 -> In x d -> lbl x = t_bid t ->
    (t_active t = true <-> traded_by (lbl x) (l1 ++ [t]) < qty x).
  Proof.
    intro Hpos. destruct run_shape as (gtl & _ & -> & R & _). intros l1 t l2 z ES Hz El.
    destruct (trades_split _ _ _ _ _ _ _ ES) as (L1 & b & s & L2 & EL & D).
    assert (G1 : forall p, In p L1 -> good_pair (length q0) p) by (intros p Hp; apply (rounds_good gtl R); rewrite EL; apply in_or_app; left; exact Hp).
    assert (G : good_pair (length q0) (b, s)) by (apply (rounds_good gtl R); rewrite EL; apply in_or_app; right; left; reflexivity).
    destruct G as (N & Lb & Ls). simpl in N, Lb, Ls.
    destruct (ro_pos d gtl R Hpos L1 b s L2 EL) as [Pb Ps]. fold prices q0 in Pb, Ps.
    assert (Q : forall i, traded_by i (trades c prices q0 L1) = get q0 i - get (after prices q0 L1) i) by (intro i; apply trades_by, G1).
    assert (W : forall i, get (after prices q0 L1) i > 0 -> i = b \/ i = s ->
      (left_over prices (after prices q0 L1) b s i = true <-> 0 < get (after prices q0 L1) i - meet_q prices (after prices q0 L1) b s)).
    { intros i Hi _. unfold left_over, meet_q. destruct (qleb _ _); [apply qltb_lt|]. split; [intros _; qlra | auto]. }
    destruct D as [[-> ->]|[-> ->]]; simpl in El; subst; simpl t_active.
    - rewrite W by (auto; exact Pb). rewrite traded_by_app, Q, traded_by_cons. simpl. rewrite Nat.eqb_refl.
      unfold q0 at 3. rewrite (get_qty d Hl z Hz). unfold traded_by. simpl. rewrite qsumf_nil. split; intro; qlra.
    - rewrite W by (auto; exact Ps). rewrite !traded_by_app, Q, !traded_by_cons. simpl. rewrite Nat.eqb_refl.
      rewrite (proj2 (Nat.eqb_neq b (lbl z))) by exact N.
      unfold q0 at 3. rewrite (get_qty d Hl z Hz). unfold traded_by. simpl. rewrite qsumf_nil. split; intro; qlra.
  Qed.
  Theorem p2p_balanced : bought d (tm_trans tm) = sold d (tm_trans tm).
  Proof.
    destruct run_shape as (gtl & _ & -> & R & _).
    assert (Hu : labels_unique d) by (apply labels_ok, Hl).
    assert (P : forall p, In p (concat gtl) -> In p (all_pairs d)) by apply R. clear R.
    revert P. generalize q0. induction (concat gtl) as [|[b s] L IH]; intros q P; [reflexivity|]. cbn [trades].
    change (?a :: ?b :: ?l) with ([a] ++ [b] ++ l). rewrite !bought_app, !sold_app, (IH _) by (intros p Hp; apply P; right; exact Hp).
    assert (I : In (b, s) (all_pairs d)) by (apply P; left; reflexivity).
    apply pair_iff in I. destruct I as (x & y & H1 & H2 & H3 & H4 & <- & <-).
    destruct (side_sums true d [tr_b c prices q (lbl x) (lbl y)] Hu) as [-> ->]; [intros t [<-|[]]; exists x; auto|].
    destruct (side_sums false d [tr_s c prices q (lbl x) (lbl y)] Hu) as [-> ->]; [intros t [<-|[]]; exists y; auto|].
    rewrite !qsumf_cons, !qsumf_nil. simpl. ring.
  Qed.
  Theorem p2p_matching : exists gtl, ex = XP2P gtl /\ Meetings (concat gtl) (tm_trans tm) /\ NoDup (concat gtl) /\
    (forall T, In T gtl -> T <> [] /\ NoDup (flat_map (fun p => [fst p; snd p]) T)) /\
    (forall b s, In (b, s) (concat gtl) ->
       exists x y, In x d /\ In y d /\ buying x = true /\ buying y = false /\ lbl x = b /\ lbl y = s).
  Proof.
    destruct run_shape as (gtl & -> & -> & R & _). exists gtl. split; [reflexivity|]. split; [apply trades_meet|].
    split; [apply R|]. split; [apply R|]. intros b s H. apply pair_iff. apply R, H.
  Qed.
End Run.

(** ** Traded volume by bid *)
Lemma side_by sd d tl : labels_unique d -> refer d tl ->
  qsumf t_qty (filter (on_side sd d) tl) = qsumf (fun x => traded_by (lbl x) tl) (filter (fun x => Bool.eqb (buying x) sd) d).
Proof.
  intros Hu Hr. induction tl as [|t tl IH].
  - symmetry. apply qsumf_zero. reflexivity.
  - assert (IHr : refer d tl) by (intros t' H'; apply Hr; right; exact H'). specialize (IH IHr).
    destruct (Hr t (or_introl eq_refl)) as (x & Hx & Ex).
    transitivity ((if on_side sd d t then t_qty t else 0) + qsumf t_qty (filter (on_side sd d) tl)).
    { simpl. destruct (on_side sd d t); [reflexivity | ring]. }
    rewrite IH, (on_side_in sd d t x Hu Hx Ex).
    rewrite (qsumf_ext (fun x => traded_by (lbl x) (t :: tl)) (fun x => (if Nat.eqb (t_bid t) (lbl x) then t_qty t else 0) + traded_by (lbl x) tl))
      by (intros; apply traded_by_cons).
    rewrite qsumf_plus. f_equal. rewrite qsumf_filter.
    rewrite (qsumf_ext _ (fun z => if Nat.eqb (t_bid t) (lbl z) then (if Bool.eqb (buying x) sd then t_qty t else 0) else 0)).
    2:{ intros z Hz. destruct (Nat.eqb (t_bid t) (lbl z)) eqn:E1; [|destruct (Bool.eqb (buying z) sd); reflexivity].
        apply Nat.eqb_eq in E1. assert (z = x) by (apply (NoDup_map_in lbl d); auto; congruence). subst z. reflexivity. }
    symmetry. rewrite <- Ex. clear - Hu Hx. unfold labels_unique in Hu. generalize (if Bool.eqb (buying x) sd then t_qty t else 0). intro v.
    induction d as [|a d IHd]; [contradiction|]. simpl in Hu. inversion_clear Hu as [|? ? N1 N2].
    rewrite qsumf_cons. destruct Hx as [->|Hx].
    + rewrite Nat.eqb_refl. rewrite qsumf_zero; [ring|]. intros z Hz. destruct (Nat.eqb (lbl x) (lbl z)) eqn:E1; [|reflexivity].
      apply Nat.eqb_eq in E1. exfalso. apply N1. rewrite E1. apply in_map, Hz.
    + destruct (Nat.eqb (lbl x) (lbl a)) eqn:E1; [apply Nat.eqb_eq in E1; exfalso; apply N1; rewrite <- E1; apply in_map, Hx|].
      rewrite IHd by assumption. ring.
Qed.
Lemma bought_by d tl : labels_unique d -> refer d tl -> bought d tl = qsumf (fun x => traded_by (lbl x) tl) (all_b d).
Proof.
  intros Hu Hr. unfold bought. rewrite side_by by assumption. unfold all_b. f_equal. apply filter_ext. intro a. destruct (buying a); reflexivity.
Qed.
Lemma sold_by d tl : labels_unique d -> refer d tl -> sold d tl = qsumf (fun x => traded_by (lbl x) tl) (all_s d).
Proof.
  intros Hu Hr. unfold sold. rewrite side_by by assumption. unfold all_s. reflexivity.
Qed.

(** If every compatible pair has an exhausted member, half the best volume was traded. *)
Lemma maximal_half d tl x : labels_unique d -> refer d tl -> feasible d tl ->
  (forall b s, In b (all_b d) -> In s (all_s d) -> price s <= price b ->
     traded_by (lbl b) tl = qty b \/ traded_by (lbl s) tl = qty s) ->
  alloc_ok d x -> alloc_compat d x -> volume d x <= bought d tl + sold d tl.
Proof.
  intros Hu Hr [Hf1 Hf2] Hm (X0 & Xb & Xs) Xc. rewrite bought_by, sold_by by assumption. unfold volume.
  assert (T0 : forall i, 0 <= traded_by i tl).
  { intro i. apply qsumf_nonneg. intros t Ht. apply filter_In in Ht. apply Hf1, Ht. }
  set (fb := fun b : row => qeqb (traded_by (lbl b) tl) (qty b)).
  (* a pair is counted on its exhausted side *)
  apply Qcle_trans with (qsumf (fun b => qsumf (fun s => (if fb b then x (lbl b) (lbl s) else 0) + (if fb s then x (lbl b) (lbl s) else 0)) (all_s d)) (all_b d)).
  { apply qsumf_le. intros b Hb. apply qsumf_le. intros s Hs. pose proof (X0 b s Hb Hs).
    destruct (Qclt_le_dec (price b) (price s)) as [L|L].
    - rewrite (Xc b s Hb Hs L). destruct (fb b), (fb s); qlra.
    - destruct (Hm b s Hb Hs L) as [Z|Z]; apply (proj2 (qeqb_eq _ _)) in Z; unfold fb; rewrite Z;
      [destruct (qeqb (traded_by (lbl s) tl) _) | destruct (qeqb (traded_by (lbl b) tl) _)]; qlra. }
  rewrite (qsumf_ext _ (fun b => qsumf (fun s => if fb b then x (lbl b) (lbl s) else 0) (all_s d) + qsumf (fun s => if fb s then x (lbl b) (lbl s) else 0) (all_s d)))
    by (intros; apply qsumf_plus).
  rewrite qsumf_plus. rewrite (qsumf_swap (fun b s => if fb s then x (lbl b) (lbl s) else 0)).
  assert (A : forall a b c e, a <= c -> b <= e -> a + b <= c + e) by (intros; qlra). apply A; apply qsumf_le; intros z Hz.
  - destruct (fb z) eqn:F; [apply (proj1 (qeqb_eq _ _)) in F; rewrite F; apply Xb, Hz|].
    rewrite qsumf_zero by reflexivity. apply T0.
  - destruct (fb z) eqn:F; [apply (proj1 (qeqb_eq _ _)) in F; rewrite F; apply Xs, Hz|].
    rewrite qsumf_zero by reflexivity. apply T0.
Qed.
Lemma two_times a : qz 2 * a = a + a.
Proof. replace (qz 2) with (1 + 1) by (apply Qc_is_canon; reflexivity). ring. Qed.
Theorem p2p_half d c r tm ex x : map lbl d = seq 0 (length d) -> qty_nonneg d -> p2p_random d c r = Ok (tm, ex) ->
  alloc_ok d x -> alloc_compat d x -> volume d x <= qz 2 * bought d (tm_trans tm).
Proof.
  intros Hl Hq E Hx Hc. pose proof (p2p_balanced d c r Hl Hq tm ex E) as Hb.
  assert (H : volume d x <= bought d (tm_trans tm) + sold d (tm_trans tm)).
  2:{ rewrite two_times. qlra. }
  apply maximal_half; auto.
  - apply labels_ok, Hl.
  - eapply p2p_refer; eauto.
  - eapply p2p_feasible; eauto.
  - intros b s H1 H2 H3. apply filter_In in H1, H2. destruct H1 as [? ?]. destruct H2 as [? Hn]. apply negb_true_iff in Hn.
    eapply p2p_exhausts; eauto.
Qed.
Lemma p2p_labels d c r x y : In x d -> In y d -> buying x = true -> buying y = false -> (length d <= lbl x \/ length d <= lbl y)%nat ->
  p2p_random d c r = Err IndexError.
Proof.
  intros Hx Hy Bx By L. unfold p2p_random. replace (forallb _ (all_pairs d)) with false; [reflexivity|]. symmetry. apply Bool.not_true_iff_false. intro F. rewrite forallb_forall in F.
  assert (I : In (lbl x, lbl y) (all_pairs d)).
  { unfold all_pairs. apply in_flat_map. exists x. split; [apply filter_In; auto|]. apply in_map_iff. exists y. split; [reflexivity|]. apply filter_In. rewrite By. auto. }
  specialize (F _ I). apply andb_true_iff in F. cbn [fst snd] in F. destruct F as [F1 F2]. apply Nat.ltb_lt in F1, F2. lia.
Qed.
