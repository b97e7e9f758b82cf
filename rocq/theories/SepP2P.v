(** Rounding in peer to peer trading on separated bids. *)
From Coq Require Import Permutation Sorted.
From Verif Require Import QcTac Num NumFacts ListFacts ModelBase ModelHuang ModelP2P ModelMarket ModelRound Spec SpecRound SpecSep P2PFacts StoreFacts RoundFacts RoundP2P RoundError SepFacts SepHuang.

Definition sg (x : row) : Qc := if buying x then qty x else - qty x.
Lemma sg_split l : qsumf sg l = qsumf qty (filter buying l) - qsumf qty (filter (fun r => negb (buying r)) l).
Proof.
  induction l as [|x l IH]; [reflexivity|]. rewrite qsumf_cons, IH. cbn [filter]. unfold sg. destruct (buying x); cbn [negb]; rewrite qsumf_cons; ring.
Qed.
Lemma qsumf_filter_or (f g : row -> bool) (h : row -> Qc) l : (forall x, In x l -> f x && g x = false) -> qsumf h (filter (fun x => f x || g x) l) = qsumf h (filter f l) + qsumf h (filter g l).
Proof.
  induction l as [|x l IH]; intro H; [cbn; ring|]. cbn [filter]. pose proof (H x (or_introl eq_refl)) as Hx. pose proof (IH (fun y Hy => H y (or_intror Hy))) as E.
  destruct (f x), (g x); cbn [orb andb] in *; try discriminate; rewrite ?qsumf_cons, E; ring.
Qed.
Lemma len_filter_or (f g : row -> bool) l : (forall x, In x l -> f x && g x = false) -> length (filter (fun x => f x || g x) l) = (length (filter f l) + length (filter g l))%nat.
Proof.
  induction l as [|x l IH]; intro H; [reflexivity|]. cbn [filter]. pose proof (H x (or_introl eq_refl)) as Hx. pose proof (IH (fun y Hy => H y (or_intror Hy))) as E.
  destruct (f x), (g x); cbn [orb andb] in *; try discriminate; cbn [length]; lia.
Qed.
Lemma filter_length_le (f : row -> bool) l : (length (filter f l) <= length l)%nat.
Proof. induction l as [|x l IH]; [cbn; lia|]. cbn [filter]. destruct (f x); cbn [length]; lia. Qed.
Lemma qnat_le a b : (a <= b)%nat -> qnat a <= qnat b.
Proof. intro H. unfold qnat. apply (proj1 (MergeFacts.qz_le _ _)). lia. Qed.
Lemma qnat_add a b : qnat (a + b) = qnat a + qnat b.
Proof. unfold qnat. rewrite Nat2Z.inj_add, MergeFacts.qz_plus. reflexivity. Qed.

Section Price.
  Variables (R : rounding) (u : Qc).
  Hypothesis Hrel : rel_error R u.
  Lemma round_rel x y a : 0 <= y -> qabs (x - y) <= a * y -> qabs (R x - y) <= (u + a + u * a) * y.
  Proof.
    intros Y0 H. pose proof (u_nonneg R u Hrel) as U. destruct Hrel as [_ Hr]. specialize (Hr x).
    assert (Ab : qabs x <= y + a * y) by (revert H; unfold qabs; destruct (qle_spec 0 (x - y)), (qle_spec 0 x); intros; qlra).
    pose proof (qmult_le_l u _ _ U Ab) as M. replace (u * (y + a * y)) with (u * y + u * a * y) in M by ring.
    replace ((u + a + u * a) * y) with (u * y + u * a * y + a * y) by ring. revert H Hr M. generalize (u * y) (u * a * y) (a * y) (u * qabs x) (R x). intros. 
    unfold qabs in *. destruct (qle_spec 0 (x - y)), (qle_spec 0 (q3 - x)), (qle_spec 0 (q3 - y)); qlra.
  Qed.
  Lemma price_close pb ps c : 0 <= pb -> 0 <= ps -> 0 <= c -> c <= 1 ->
    qabs (pb * c + (1 - c) * ps - R (R (pb * c) + R (R (1 - c) * ps))) <= ((1 + u) ^ 3 - 1) * (pb * c + (1 - c) * ps).
  Proof.
    intros B0 P0 C0 C1. pose proof (u_nonneg R u Hrel) as U. assert (D0 : 0 <= 1 - c) by qlra.
    pose proof (qmult_nonneg _ _ B0 C0) as X0. pose proof (qmult_nonneg _ _ D0 P0) as Y0.
    assert (Z : forall y, qabs (y - y) <= 0 * y) by (intro y; replace (y - y) with 0 by ring; rewrite Qcmult_0_l; apply Qcle_refl).
    pose proof (round_rel _ _ 0 X0 (Z _)) as H1. pose proof (round_rel _ _ 0 D0 (Z _)) as H2.
    replace (u + 0 + u * 0) with u in * by ring.
    assert (H3 : qabs (R (1 - c) * ps - (1 - c) * ps) <= u * ((1 - c) * ps)).
    { replace (R (1 - c) * ps - (1 - c) * ps) with ((R (1 - c) - (1 - c)) * ps) by ring. pose proof (qmult_le_r ps _ _ P0 H2) as K. replace (u * (1 - c) * ps) with (u * ((1 - c) * ps)) in K by ring.
      revert K. generalize (R (1 - c) - (1 - c)). intros z K. unfold qabs in *. destruct (qle_spec 0 z) as [Hz|Hz].
      - pose proof (qmult_nonneg _ _ Hz P0). destruct (qle_spec 0 (z * ps)); qlra.
      - assert (Hz' : 0 <= - z) by qlra. pose proof (qmult_nonneg _ _ Hz' P0) as N. replace (- z * ps) with (- (z * ps)) in * by ring. destruct (qle_spec 0 (z * ps)); qlra. }
    pose proof (round_rel _ _ u Y0 H3) as H4.
    set (X := pb * c) in *. set (Y := (1 - c) * ps) in *.
    assert (H5 : qabs (R X + R (R (1 - c) * ps) - (X + Y)) <= (u + u + u * u) * (X + Y)).
    { assert (U2 : u <= u + u + u * u) by (pose proof (qmult_nonneg _ _ U U); qlra). pose proof (qmult_le_r X _ _ X0 U2) as K. replace ((u + u + u * u) * (X + Y)) with ((u + u + u * u) * X + (u + u + u * u) * Y) by ring.
      revert H1 H4 K. generalize (u * X) ((u + u + u * u) * X) ((u + u + u * u) * Y) (R X) (R (R (1 - c) * ps)). intros.
      unfold qabs in *. destruct (qle_spec 0 (q2 - X)), (qle_spec 0 (q3 - Y)), (qle_spec 0 (q2 + q3 - (X + Y))); qlra. }
    assert (S0 : 0 <= X + Y) by qlra. pose proof (round_rel _ _ _ S0 H5) as H6.
    replace ((1 + u) ^ 3 - 1) with (u + (u + u + u * u) + u * (u + u + u * u)) by (cbn [Qcpower]; ring).
    revert H6. generalize (R (R X + R (R (1 - c) * ps))). intros z H6. unfold qabs in *. destruct (qle_spec 0 (z - (X + Y))), (qle_spec 0 (X + Y - z)); qlra.
  Qed.
End Price.

Lemma qsum_ge_in z l : In z l -> (forall x, In x l -> 0 <= x) -> z <= qsum l.
Proof.
  induction l as [|x l IH]; intros I N; [destruct I|]. change (qsum (x :: l)) with (x + qsum l). pose proof (qsum_nonneg' l (fun y Hy => N y (or_intror Hy))) as S0. pose proof (N x (or_introl eq_refl)) as X0.
  destruct I as [->|I]; [qlra|]. specialize (IH I (fun y Hy => N y (or_intror Hy))). qlra.
Qed.
Lemma qsum_all_zero l : (forall x, In x l -> x = 0) -> qsum l = 0.
Proof. induction l as [|x l IH]; intro H; [reflexivity|]. change (qsum (x :: l)) with (x + qsum l). rewrite (H x (or_introl eq_refl)), IH by (intros y Hy; apply H; right; exact Hy). ring. Qed.
Lemma deal_ok e k i q q' p p' o a a' : a = a' -> qabs (q - q') <= e -> qabs (p - p') <= k * p -> alike_deal e k (mkTrans i q p o a) (mkTrans i q' p' o a').
Proof. intros E H1 H2. unfold alike_deal. cbn [t_bid t_source t_active t_qty t_price]. auto. Qed.
Lemma pick_in ps r : forall fuel k active tmp tr t a k', pick_round fuel ps r k active tmp tr = Ok (t, a, k') -> (forall p, In p tr -> In p ps) -> forall p, In p t -> In p ps.
Proof.
  induction fuel as [|fuel IH]; intros k active tmp tr t a k' E H; cbn [pick_round] in E; destruct (where_true tmp) as [|w0 w]; try discriminate; try (injection E as <- <- <-; exact H).
  destruct (nth_error ps (choose r k (w0 :: w))) as [tr0|] eqn:En; [|discriminate]. apply (IH _ _ _ _ _ _ _ E). intros p Hp. apply in_app_or in Hp. destruct Hp as [Hp|[<-|[]]]; [apply H, Hp | apply nth_error_In with (1 := En)].
Qed.

Section P2P.
  Variables (R : rounding) (u : Qc).
  Hypothesis Hrel : rel_error R u.
  Variables (A : adder R) (d : df) (c : Qc) (r : nat -> nat).
  Hypothesis Hl : map lbl d = seq 0 (length d).
  Hypothesis Hq : qty_nonneg d.
  Hypothesis Hm : machine_qty R d.
  Let n := length d.
  Let W := qsumf qty d.
  Let e := qnat n * (u * W).
  Hypothesis Hs : all_separated e d.
  Let prices := map price d.
  Let ps := all_pairs d.
  Definition held (own : nat -> nat) (i : nat) : df := filter (fun x => Nat.eqb (own (lbl x)) i) d.
  Definition live (own : nat -> nat) (x : row) (q q' : Qc) : Prop :=
    own (lbl x) = lbl x /\ q = (if buying x then qsumf sg (held own (lbl x)) else - qsumf sg (held own (lbl x))) /\ e < q /\
    qabs (q - q') <= qnat (length (held own (lbl x)) - 1) * (u * W).
  Definition inv (q q' : list Qc) : Prop :=
    length q = n /\ length q' = n /\
    exists own, (forall x, In x d -> 0 <= get q' (lbl x) /\ machine R (get q' (lbl x)) /\ get q' (lbl x) <= qty x /\
      (get q (lbl x) = 0 /\ get q' (lbl x) = 0 \/ live own x (get q (lbl x)) (get q' (lbl x)))).

  Lemma uW : 0 <= u * W.
  Proof. apply qmult_nonneg; [apply (u_nonneg R u Hrel) | apply qsumf_nonneg; exact Hq]. Qed.
  Lemma e_nn : 0 <= e.
  Proof. apply qmult_nonneg; [apply qnat_nn | exact uW]. Qed.
  Lemma row_W x : In x d -> qty x <= W.
  Proof. intro Hx. apply in_split in Hx. destruct Hx as (l1 & l2 & E). unfold W. rewrite E, qsumf_app, qsumf_cons.
    assert (0 <= qsumf qty l1) by (apply qsumf_nonneg; intros y Hy; apply Hq; rewrite E; apply in_or_app; left; exact Hy).
    assert (0 <= qsumf qty l2) by (apply qsumf_nonneg; intros y Hy; apply Hq; rewrite E; apply in_or_app; right; right; exact Hy). qlra. Qed.
  (** a live bid has something left in both arithmetics *)
  Lemma live_pos own x q q' : live own x q q' -> 0 < q /\ 0 < q' /\ qabs (q - q') <= e.
  Proof.
    intros (_ & _ & E & N). pose proof e_nn. assert (L : qnat (length (held own (lbl x)) - 1) * (u * W) <= e).
    { unfold e. apply qmult_le_r; [exact uW|]. apply qnat_le. unfold held, n. pose proof (filter_length_le (fun y => Nat.eqb (own (lbl y)) (lbl x)) d). lia. }
    assert (K : qabs (q - q') <= e) by qlra. split; [qlra|]. split; [|exact K]. revert K. unfold qabs. destruct (qle_spec 0 (q - q')); qlra.
  Qed.
  Lemma inv_zero q q' x : inv q q' -> In x d -> qeqb (get q (lbl x)) 0 = qeqb (get q' (lbl x)) 0.
  Proof.
    intros (_ & _ & own & H) Hx. destruct (H x Hx) as (_ & _ & _ & [[-> ->]|L]); [reflexivity|]. destruct (live_pos _ _ _ _ L) as (P1 & P2 & _).
    rewrite (proj2 (qeqb_neq (get q (lbl x)) 0)), (proj2 (qeqb_neq (get q' (lbl x)) 0)) by (intro E; rewrite E in *; qlra). reflexivity.
  Qed.
  Lemma inv_start : inv (map qty d) (map qty d).
  Proof.
    split; [apply map_length|]. split; [apply map_length|]. exists (fun i => i). intros x Hx. rewrite (get_qty d Hl x Hx). split; [apply Hq, Hx|]. split; [apply Hm, Hx|]. split; [apply Qcle_refl|]. right.
    split; [reflexivity|]. assert (Hh : held (fun i => i) (lbl x) = [x]).
    { unfold held. pose proof (labels_ok d Hl) as Hu. apply in_split in Hx. destruct Hx as (l1 & l2 & E). unfold labels_unique in Hu. rewrite E in *. rewrite filter_app. cbn [filter]. rewrite Nat.eqb_refl.
      rewrite map_app in Hu. cbn [map] in Hu. apply NoDup_remove_2 in Hu.
      assert (F : forall l, (forall y, In y l -> lbl y <> lbl x) -> filter (fun y => Nat.eqb (lbl y) (lbl x)) l = []).
      { induction l as [|z l IH]; intro H; [reflexivity|]. cbn [filter]. rewrite (proj2 (Nat.eqb_neq _ _) (H z (or_introl eq_refl))). apply IH. intros y Hy. apply H. right. exact Hy. }
      rewrite !F; [reflexivity| |]; intros y Hy Ey; apply Hu, in_or_app; [right|left]; rewrite <- Ey; apply in_map, Hy. }
    rewrite Hh. unfold sg. rewrite qsumf_cons, qsumf_nil. split; [destruct (buying x); ring|]. split; [apply Hs, Hx|]. replace (qty x - qty x) with 0 by ring. cbn [length Nat.sub]. change (qabs 0) with 0.
    apply qmult_nonneg; [apply qnat_nn | exact uW].
  Qed.
  Lemma held_in own i x : In x (held own i) <-> In x d /\ own (lbl x) = i.
  Proof. unfold held. rewrite filter_In, Nat.eqb_eq. reflexivity. Qed.
  (** a buyer and a seller that still have something left *)
  Lemma far own x y qx qx' qy qy' : In x d -> In y d -> buying x = true -> buying y = false -> lbl x <> lbl y -> live own x qx qx' -> live own y qy qy' ->
    e < qabs (qx - qy) /\ qabs ((qx - qy) - (qx' - qy')) <= qnat (length (held own (lbl x)) + length (held own (lbl y)) - 2) * (u * W) /\
    (length (held own (lbl x)) + length (held own (lbl y)) <= n)%nat /\ (1 <= length (held own (lbl x)))%nat /\ (1 <= length (held own (lbl y)))%nat.
  Proof.
    intros Hx Hy Bx By Ne (O1 & E1 & _ & N1) (O2 & E2 & _ & N2). rewrite Bx in E1. rewrite By in E2.
    assert (I1 : In x (held own (lbl x))) by (apply held_in; auto). assert (I2 : In y (held own (lbl y))) by (apply held_in; auto).
    set (l := filter (fun z => Nat.eqb (own (lbl z)) (lbl x) || Nat.eqb (own (lbl z)) (lbl y)) d).
    assert (Dj : forall z, In z d -> Nat.eqb (own (lbl z)) (lbl x) && Nat.eqb (own (lbl z)) (lbl y) = false).
    { intros z _. destruct (Nat.eqb_spec (own (lbl z)) (lbl x)) as [->|]; [|reflexivity]. cbn [andb]. apply Nat.eqb_neq, Ne. }
    assert (Sl : qsumf sg l = qsumf sg (held own (lbl x)) + qsumf sg (held own (lbl y))) by (apply qsumf_filter_or, Dj).
    assert (Ll : length l = (length (held own (lbl x)) + length (held own (lbl y)))%nat) by (apply len_filter_or, Dj).
    assert (P1 : (1 <= length (held own (lbl x)))%nat) by (destruct (held own (lbl x)); [destruct I1 | cbn; lia]).
    assert (P2 : (1 <= length (held own (lbl y)))%nat) by (destruct (held own (lbl y)); [destruct I2 | cbn; lia]).
    assert (Il : forall z, In z d -> own (lbl z) = lbl x \/ own (lbl z) = lbl y -> In z l).
    { intros z Hz Oz. apply filter_In. split; [exact Hz|]. apply orb_true_iff. destruct Oz; [left|right]; apply Nat.eqb_eq; assumption. }
    split; [|split; [|split; [|auto]]].
    - replace (qx - qy) with (qsumf sg l) by (rewrite Sl, E1, E2; ring). rewrite sg_split. apply (proj2 Hs).
      + intro E. assert (In x (filter buying l)) by (apply filter_In; auto). rewrite E in H. destruct H.
      + intro E. assert (In y (filter (fun r0 => negb (buying r0)) l)) by (apply filter_In; split; [auto | rewrite By; reflexivity]). rewrite E in H. destruct H.
      + unfold l, part_of. exists (filter buying (filter (fun z => negb (Nat.eqb (own (lbl z)) (lbl x) || Nat.eqb (own (lbl z)) (lbl y))) d)). rewrite <- filter_app. apply filter_perm, filter_negb_perm.
      + unfold l, part_of. exists (filter (fun r0 => negb (buying r0)) (filter (fun z => negb (Nat.eqb (own (lbl z)) (lbl x) || Nat.eqb (own (lbl z)) (lbl y))) d)). rewrite <- filter_app. apply filter_perm, filter_negb_perm.
    - replace (length (held own (lbl x)) + length (held own (lbl y)) - 2)%nat with ((length (held own (lbl x)) - 1) + (length (held own (lbl y)) - 1))%nat by lia. rewrite qnat_add, Qcmult_plus_distr_l.
      revert N1 N2. generalize (qnat (length (held own (lbl x)) - 1) * (u * W)) (qnat (length (held own (lbl y)) - 1) * (u * W)). intros a b N1 N2. unfold qabs in *. destruct (qle_spec 0 (qx - qx')), (qle_spec 0 (qy - qy')), (qle_spec 0 (qx - qy - (qx' - qy'))); qlra.
    - rewrite <- Ll. unfold l, n. apply filter_length_le.
  Qed.
  (** the keeper [k] takes over what [t] held *)
  Definition pass (own : nat -> nat) (t k : nat) : nat -> nat := fun l => if Nat.eqb (own l) t then k else own l.
  Lemma held_keep own t k : t <> k -> held (pass own t k) k = filter (fun z => Nat.eqb (own (lbl z)) k || Nat.eqb (own (lbl z)) t) d.
  Proof.
    intro N. unfold held. apply filter_ext. intro z. unfold pass. destruct (Nat.eqb_spec (own (lbl z)) t) as [E|E]; [rewrite Nat.eqb_refl, orb_true_r; reflexivity | rewrite orb_false_r; reflexivity].
  Qed.
  Lemma held_other own t k z : z <> t -> z <> k -> held (pass own t k) z = held own z.
  Proof.
    intros N1 N2. unfold held. apply filter_ext. intro w. unfold pass. destruct (Nat.eqb_spec (own (lbl w)) t) as [E|E]; [|reflexivity].
    rewrite (proj2 (Nat.eqb_neq k z)) by congruence. symmetry. apply Nat.eqb_neq. congruence.
  Qed.
  Lemma pass_other own t k x q q' : lbl x <> t -> lbl x <> k -> live own x q q' -> live (pass own t k) x q q'.
  Proof.
    intros N1 N2 (O & E & L & B). unfold live. rewrite held_other by assumption. split; [|auto]. unfold pass. rewrite O, (proj2 (Nat.eqb_neq _ _) N1). reflexivity.
  Qed.
  Lemma pass_keep own x y qx qx' qy qy' : In x d -> In y d -> buying x = negb (buying y) -> lbl x <> lbl y -> live own x qx qx' -> live own y qy qy' -> 0 < qx - qy -> 0 <= qy' -> qx' <= qty x ->
    e < qabs (qx - qy) -> qabs ((qx - qy) - (qx' - qy')) <= qnat (length (held own (lbl x)) + length (held own (lbl y)) - 2) * (u * W) ->
    (2 <= length (held own (lbl x)) + length (held own (lbl y)))%nat -> 0 <= qx' - qy' ->
    live (pass own (lbl y) (lbl x)) x (qx - qy) (R (qx' - qy')).
  Proof.
    intros Hx Hy B Ne (O1 & E1 & _ & _) (O2 & E2 & _ & _) P Y0 X0 F N L2 D0. unfold live. rewrite held_keep by auto.
    assert (Dj : forall z, In z d -> Nat.eqb (own (lbl z)) (lbl x) && Nat.eqb (own (lbl z)) (lbl y) = false).
    { intros z _. destruct (Nat.eqb_spec (own (lbl z)) (lbl x)) as [->|]; [|reflexivity]. cbn [andb]. apply Nat.eqb_neq, Ne. }
    rewrite (qsumf_filter_or _ _ sg d Dj), (len_filter_or _ _ d Dj). fold (held own (lbl x)) (held own (lbl y)).
    split; [unfold pass; rewrite O1, (proj2 (Nat.eqb_neq _ _) Ne); reflexivity|].
    split; [rewrite E1, E2, B; destruct (buying y); cbn [negb]; ring|].
    split; [unfold qabs in F; destruct (qle_spec 0 (qx - qy)); qlra|].
    replace (length (held own (lbl x)) + length (held own (lbl y)) - 1)%nat with ((length (held own (lbl x)) + length (held own (lbl y)) - 2) + 1)%nat by lia. rewrite qnat_add, Qcmult_plus_distr_l.
    change (qnat 1) with 1. rewrite Qcmult_1_l. pose proof (row_W x Hx) as WX. pose proof (u_nonneg R u Hrel) as U.
    assert (Le : u * (qx' - qy') <= u * W) by (apply qmult_le_l; [exact U | qlra]).
    destruct Hrel as [_ Hr]. specialize (Hr (qx' - qy')). unfold qabs in Hr at 2. destruct (qle_spec 0 (qx' - qy')); [|qlra].
    revert Hr N Le. generalize (u * (qx' - qy')) (u * W) (qnat (length (held own (lbl x)) + length (held own (lbl y)) - 2) * (u * W)) (R (qx' - qy')). intros a1 a2 a3 z Hr N Le.
    unfold qabs in *. destruct (qle_spec 0 (z - (qx' - qy'))), (qle_spec 0 (qx - qy - (qx' - qy'))), (qle_spec 0 (qx - qy - z)); qlra.
  Qed.

  Lemma pair_step q q' b s : inv q q' -> In (b, s) ps ->
    inv (step_q prices q (b, s)) (step_r R prices q' (b, s)) /\
    (qleb (get prices s) (get prices b) = true -> qabs (qmin (get q b) (get q s) - qmin (get q' b) (get q' s)) <= e).
  Proof.
    intros I Hp. pose proof (pair_good d Hl _ Hp) as (Ne & Lb & Ls). cbn [fst snd] in *. destruct I as (Lq & Lq' & own & H).
    apply (pair_iff d) in Hp. destruct Hp as (x & y & Hx & Hy & Bx & By & <- & <-).
    pose proof (H x Hx) as (X0 & Xm & Xq & Xc). pose proof (H y Hy) as (Y0 & Ym & Yq & Yc). pose proof e_nn as E0.
    assert (Row : forall z w, In z d -> In w d -> lbl z = lbl w -> z = w) by (apply (row_eq d (labels_ok d Hl))).
    assert (G : forall i, get (step_q prices q (lbl x, lbl y)) i = get q i - (if qleb (get prices (lbl y)) (get prices (lbl x)) then if Nat.eqb (lbl x) i || Nat.eqb (lbl y) i then qmin (get q (lbl x)) (get q (lbl y)) else 0 else 0)) by (intro i; apply step_q_get; [exact Ne | rewrite Lq; exact Lb | rewrite Lq; exact Ls]).
    assert (G' : forall i, get (step_r R prices q' (lbl x, lbl y)) i = if qleb (get prices (lbl y)) (get prices (lbl x)) && (Nat.eqb (lbl x) i || Nat.eqb (lbl y) i) then R (get q' i - qmin (get q' (lbl x)) (get q' (lbl y))) else get q' i) by (intro i; apply step_r_get; [exact Ne | rewrite Lq'; exact Lb | rewrite Lq'; exact Ls]).
    assert (Len : length (step_q prices q (lbl x, lbl y)) = n /\ length (step_r R prices q' (lbl x, lbl y)) = n) by (rewrite step_q_len, step_r_len; auto).
    destruct (qleb (get prices (lbl y)) (get prices (lbl x))).
    2:{ split; [|discriminate]. split; [apply Len|]. split; [apply Len|]. exists own. intros z Hz. rewrite G, G'. cbn [andb]. replace (get q (lbl z) - 0) with (get q (lbl z)) by ring. apply H, Hz. }
    cbn [andb] in G'.
    (* nothing is traded *)
    assert (Idle : qmin (get q (lbl x)) (get q (lbl y)) = 0 -> qmin (get q' (lbl x)) (get q' (lbl y)) = 0 -> inv (step_q prices q (lbl x, lbl y)) (step_r R prices q' (lbl x, lbl y)) /\ (true = true -> qabs (qmin (get q (lbl x)) (get q (lbl y)) - qmin (get q' (lbl x)) (get q' (lbl y))) <= e)).
    { intros M M'. rewrite M, M' in *. split; [|intros _; replace (0 - 0) with 0 by ring; exact E0]. split; [apply Len|]. split; [apply Len|]. exists own. intros z Hz. rewrite G, G'.
      assert (Z1 : get q (lbl z) - (if Nat.eqb (lbl x) (lbl z) || Nat.eqb (lbl y) (lbl z) then 0 else 0) = get q (lbl z)) by (destruct (_ || _); ring).
      assert (Z2 : (if Nat.eqb (lbl x) (lbl z) || Nat.eqb (lbl y) (lbl z) then R (get q' (lbl z) - 0) else get q' (lbl z)) = get q' (lbl z)).
      { destruct (_ || _); [|reflexivity]. replace (get q' (lbl z) - 0) with (get q' (lbl z)) by ring. apply (H z Hz). }
      rewrite Z1, Z2. apply H, Hz. }
    destruct Xc as [[Zx Zx']|Lx].
    { apply Idle; rewrite ?Zx, ?Zx'; destruct Yc as [[Zy Zy']|Ly]; rewrite ?Zy, ?Zy'; try (destruct (live_pos _ _ _ _ Ly) as (P1 & P2 & _)); unfold qmin; match goal with |- context [qleb ?a ?b] => destruct (qle_spec a b) end; reflexivity || qlra. }
    destruct Yc as [[Zy Zy']|Ly].
    { apply Idle; rewrite ?Zy, ?Zy'; destruct (live_pos _ _ _ _ Lx) as (P1 & P2 & _); unfold qmin; match goal with |- context [qleb ?a ?b] => destruct (qle_spec a b) end; reflexivity || qlra. }
    destruct (far own x y _ _ _ _ Hx Hy Bx By Ne Lx Ly) as (F & N & Ln & L1 & L2).
    destruct (live_pos _ _ _ _ Lx) as (Px & Px' & Dx). destruct (live_pos _ _ _ _ Ly) as (Py & Py' & Dy).
    assert (Ne2 : qabs (get q (lbl x) - get q (lbl y) - (get q' (lbl x) - get q' (lbl y))) <= e).
    { eapply Qcle_trans; [exact N|]. unfold e. apply qmult_le_r; [exact uW | apply qnat_le; lia]. }
    set (X := get q (lbl x)) in *. set (X' := get q' (lbl x)) in *. set (Y := get q (lbl y)) in *. set (Y' := get q' (lbl y)) in *.
    assert (Sd : 0 < X - Y /\ 0 < X' - Y' \/ 0 < Y - X /\ 0 < Y' - X').
    { revert F Ne2. unfold qabs. destruct (qle_spec 0 (X - Y)), (qle_spec 0 (X - Y - (X' - Y'))); intros; [left|left|right|right]; split; qlra. }
    destruct Sd as [[S1 S2]|[S1 S2]].
    - (* the seller is done *)
      assert (M : qmin X Y = Y) by (unfold qmin; destruct (qle_spec X Y); [qlra | reflexivity]). assert (M' : qmin X' Y' = Y') by (unfold qmin; destruct (qle_spec X' Y'); [qlra | reflexivity]).
      rewrite M, M' in *. split; [|intros _; exact Dy]. split; [apply Len|]. split; [apply Len|]. exists (pass own (lbl y) (lbl x)). intros z Hz. rewrite G, G'.
      destruct (Nat.eqb_spec (lbl x) (lbl z)) as [Ez|Nx]; [|destruct (Nat.eqb_spec (lbl y) (lbl z)) as [Ez|Ny]]; cbn [orb].
      + apply Row in Ez; [subst z|assumption..]. fold X X'. split; [apply rnd_nonneg; qlra|]. split; [apply rnd_idem|]. split; [apply (rnd_le R); [apply Hm, Hx | qlra]|]. right.
        apply (pass_keep own x y X X' Y Y'); try assumption; try lia; try qlra. rewrite Bx, By; reflexivity.
      + apply Row in Ez; [subst z|assumption..]. fold Y Y'. replace (Y - Y) with 0 by ring. replace (Y' - Y') with 0 by ring. rewrite rnd_zero. split; [apply Qcle_refl|]. split; [apply machine_0|]. split; [apply Hq, Hy|]. left. auto.
      + replace (get q (lbl z) - 0) with (get q (lbl z)) by ring. destruct (H z Hz) as (Z0 & Zm & Zq & [Zc|Zc]); (split; [exact Z0|]; split; [exact Zm|]; split; [exact Zq|]); [left; exact Zc | right; apply pass_other; auto].
    - (* the buyer is done *)
      assert (M : qmin X Y = X) by (unfold qmin; destruct (qle_spec X Y); [reflexivity | qlra]). assert (M' : qmin X' Y' = X') by (unfold qmin; destruct (qle_spec X' Y'); [reflexivity | qlra]).
      rewrite M, M' in *. split; [|intros _; exact Dx]. split; [apply Len|]. split; [apply Len|]. exists (pass own (lbl x) (lbl y)). intros z Hz. rewrite G, G'.
      destruct (Nat.eqb_spec (lbl x) (lbl z)) as [Ez|Nx]; [|destruct (Nat.eqb_spec (lbl y) (lbl z)) as [Ez|Ny]]; cbn [orb].
      + apply Row in Ez; [subst z|assumption..]. fold X X'. replace (X - X) with 0 by ring. replace (X' - X') with 0 by ring. rewrite rnd_zero. split; [apply Qcle_refl|]. split; [apply machine_0|]. split; [apply Hq, Hx|]. left. auto.
      + apply Row in Ez; [subst z|assumption..]. fold Y Y'. split; [apply rnd_nonneg; qlra|]. split; [apply rnd_idem|]. split; [apply (rnd_le R); [apply Hm, Hy | qlra]|]. right.
        apply (pass_keep own y x Y Y' X X'); try assumption; try lia; try qlra; [rewrite Bx, By; reflexivity | |].
        * revert F. unfold qabs. destruct (qle_spec 0 (X - Y)), (qle_spec 0 (Y - X)); qlra.
        * rewrite (Nat.add_comm (length (held own (lbl y)))). revert N. generalize (qnat (length (held own (lbl x)) + length (held own (lbl y)) - 2) * (u * W)). intros a. unfold qabs. destruct (qle_spec 0 (X - Y - (X' - Y'))), (qle_spec 0 (Y - X - (Y' - X'))); qlra.
      + replace (get q (lbl z) - 0) with (get q (lbl z)) by ring. destruct (H z Hz) as (Z0 & Zm & Zq & [Zc|Zc]); (split; [exact Z0|]; split; [exact Zm|]; split; [exact Zq|]); [left; exact Zc | right; apply pass_other; auto].
  Qed.

  Lemma inv_next q q' active : inv q q' -> next_tmp d ps q active = next_tmp d ps q' active.
  Proof.
    intro I. unfold next_tmp. f_equal. assert (K : forall l, (forall x, In x l -> In x d) -> filter (fun b => qeqb (nth b q 0) 0) (map lbl l) = filter (fun b => qeqb (nth b q' 0) 0) (map lbl l)).
    { intros l Hin. apply filter_ext_in. intros b Hb. apply in_map_iff in Hb. destruct Hb as (x & <- & Hx). apply (inv_zero q q' x I (Hin x Hx)). }
    rewrite !K; [reflexivity| |]; intros x Hx; apply filter_In in Hx; apply Hx.
  Qed.
  Lemma inv_row i : (i < n)%nat -> exists x, In x d /\ lbl x = i.
  Proof.
    intros L. assert (In i (map lbl d)) by (rewrite Hl; apply in_seq; unfold n in L; lia). apply in_map_iff in H. destruct H as (x & E & Hx). exists x. auto.
  Qed.
  Lemma inv_sum q q' : inv q q' -> qltb 0 (A q') = qltb 0 (qsum q).
  Proof.
    intro I. pose proof I as (Lq & Lq' & own & H).
    assert (Q' : forall z, In z q' -> exists x, In x d /\ z = get q' (lbl x)).
    { intros z Hz. apply In_nth with (d := 0) in Hz. destruct Hz as (i & Li & <-). destruct (inv_row i) as (x & Hx & <-); [rewrite <- Lq'; exact Li | exists x; auto]. }
    assert (Q : forall z, In z q -> exists x, In x d /\ z = get q (lbl x)).
    { intros z Hz. apply In_nth with (d := 0) in Hz. destruct Hz as (i & Li & <-). destruct (inv_row i) as (x & Hx & <-); [rewrite <- Lq; exact Li | exists x; auto]. }
    assert (N : forall z, In z q -> 0 <= z) by (intros z Hz; destruct (Q z Hz) as (x & Hx & ->); destruct (H x Hx) as (_ & _ & _ & [[-> _]|L]); [apply Qcle_refl | destruct (live_pos _ _ _ _ L); qlra]).
    assert (N' : forall z, In z q' -> 0 <= z /\ machine R z) by (intros z Hz; destruct (Q' z Hz) as (x & Hx & ->); destruct (H x Hx) as (Z1 & Z2 & _); auto).
    destruct (existsb (fun x => qltb 0 (get q (lbl x))) d) eqn:Ex.
    - apply existsb_exists in Ex. destruct Ex as (x & Hx & Px). apply qltb_lt in Px. destruct (H x Hx) as (_ & _ & _ & [[E _]|L]); [rewrite E in Px; qlra|]. destruct (live_pos _ _ _ _ L) as (P1 & P2 & _).
      assert (Lx : (lbl x < n)%nat) by (apply nth_error_Some; rewrite (row_pos d Hl x Hx); discriminate).
      assert (I1 : In (get q' (lbl x)) q') by (apply nth_In; rewrite Lq'; exact Lx). assert (I2 : In (get q (lbl x)) q) by (apply nth_In; rewrite Lq; exact Lx).
      pose proof (sums_ge R q' (A q') (asum_ok R A q') N' _ I1).
      pose proof (qsum_ge_in _ _ I2 N).
      rewrite (proj2 (qltb_lt _ _)), (proj2 (qltb_lt _ _)) by qlra. reflexivity.
    - assert (Z : forall x, In x d -> get q (lbl x) = 0 /\ get q' (lbl x) = 0).
      { intros x Hx. destruct (H x Hx) as (_ & _ & _ & [E|L]); [exact E|]. destruct (live_pos _ _ _ _ L) as (P1 & P2 & _). exfalso. apply not_true_iff_false in Ex. apply Ex, existsb_exists. exists x. split; [exact Hx | apply qltb_lt, P1]. }
      assert (A0 : A q' = 0) by (apply (sums_zero R q' _ (asum_ok R A q')); intros z Hz; destruct (Q' z Hz) as (x & Hx & ->); apply Z, Hx).
      assert (S0 : qsum q = 0) by (apply qsum_all_zero; intros z Hz; destruct (Q z Hz) as (x & Hx & ->); apply Z, Hx).
      rewrite A0, S0. reflexivity.
  Qed.
  Hypothesis Hp : price_nonneg d.
  Hypothesis C0 : 0 <= c.
  Hypothesis C1 : c <= 1.
  Let k := (1 + u) ^ 3 - 1.
  Lemma trade_alike q q' tm tm' p : inv q q' -> In p ps -> Forall2 (alike_deal e k) (tm_trans tm) (tm_trans tm') ->
    exists q1 q1' tm1 tm1', trade_pair c prices (q, tm) p = (q1, tm1) /\ trade_pair_r R c prices (q', tm') p = (q1', tm1') /\ inv q1 q1' /\ Forall2 (alike_deal e k) (tm_trans tm1) (tm_trans tm1').
  Proof.
    intros I Hin T. destruct p as [b s]. destruct (pair_step q q' b s I Hin) as [I1 Q1]. pose proof Hin as Hin'. apply (pair_iff d) in Hin'. destruct Hin' as (x & y & Hx & Hy & Bx & By & Eb & Es).
    assert (Eq1 : fst (trade_pair c prices (q, tm) (b, s)) = step_q prices q (b, s)) by apply trade_pair_fst.
    assert (Eq2 : fst (trade_pair_r R c prices (q', tm') (b, s)) = step_r R prices q' (b, s)) by apply trade_pair_r_fst.
    exists (fst (trade_pair c prices (q, tm) (b, s))), (fst (trade_pair_r R c prices (q', tm') (b, s))), (snd (trade_pair c prices (q, tm) (b, s))), (snd (trade_pair_r R c prices (q', tm') (b, s))).
    split; [apply surjective_pairing|]. split; [apply surjective_pairing|]. split; [rewrite Eq1, Eq2; exact I1|]. clear Eq1 Eq2.
    pose proof e_nn as E0. assert (Pb : get prices b = price x) by (rewrite <- Eb; apply (get_price d Hl x Hx)). assert (Ps : get prices s = price y) by (rewrite <- Es; apply (get_price d Hl y Hy)).
    unfold trade_pair, trade_pair_r. fold (get prices b) (get prices s) (get q b) (get q s) (get q' b) (get q' s). rewrite Pb, Ps in *.
    destruct (qleb (price y) (price x)) eqn:El.
    2:{ cbn [snd]. rewrite !add_all_trans. apply Forall2_app; [exact T|].
      assert (Z1 : qabs (0 - 0) <= e) by exact E0. assert (Z2 : qabs (0 - 0) <= k * 0) by (rewrite Qcmult_0_r; apply Qcle_refl).
      constructor; [apply deal_ok; auto|]. constructor; [apply deal_ok; auto | constructor]. }
    specialize (Q1 eq_refl). cbn [snd]. rewrite !add_all_trans. apply Forall2_app; [exact T|].
    pose proof (price_close R u Hrel (price x) (price y) c (Hp x Hx) (Hp y Hy) C0 C1) as Pc. fold k in Pc.
    pose proof (pair_good d Hl _ Hin) as (Ne & Lb & Ls). cbn [fst snd] in Ne, Lb, Ls. destruct I as (Lq & Lq' & _).
    assert (Act : forall w, In w d -> lbl w = b \/ lbl w = s -> qltb 0 (get q (lbl w) - qmin (get q b) (get q s)) = qltb 0 (R (get q' (lbl w) - qmin (get q' b) (get q' s)))).
    { intros w Hw Ew. destruct I1 as (_ & _ & own & H1). destruct (H1 w Hw) as (_ & _ & _ & H2).
      rewrite step_q_get in H2 by (exact Ne || (rewrite Lq; assumption)). rewrite step_r_get in H2 by (exact Ne || (rewrite Lq'; assumption)). rewrite Pb, Ps, El in H2.
      assert (Eo : Nat.eqb b (lbl w) || Nat.eqb s (lbl w) = true) by (apply orb_true_iff; destruct Ew as [-> | ->]; [left|right]; apply Nat.eqb_refl). rewrite Eo in H2. cbn [andb] in H2.
      destruct H2 as [[-> ->]|L]; [reflexivity|]. destruct (live_pos _ _ _ _ L) as (P1 & P2 & _). rewrite (proj2 (qltb_lt _ _) P1), (proj2 (qltb_lt _ _) P2). reflexivity. }
    pose proof (Act x Hx (or_introl Eb)) as A1. pose proof (Act y Hy (or_intror Es)) as A2. rewrite Eb in A1. rewrite Es in A2.
    constructor; [apply deal_ok; assumption|]. constructor; [apply deal_ok; assumption | constructor].
  Qed.
  Lemma round_alike L : forall q q' tm tm', inv q q' -> (forall p, In p L -> In p ps) -> Forall2 (alike_deal e k) (tm_trans tm) (tm_trans tm') ->
    exists q1 q1' tm1 tm1', fold_left (trade_pair c prices) L (q, tm) = (q1, tm1) /\ fold_left (trade_pair_r R c prices) L (q', tm') = (q1', tm1') /\ inv q1 q1' /\ Forall2 (alike_deal e k) (tm_trans tm1) (tm_trans tm1').
  Proof.
    induction L as [|p L IH]; intros q q' tm tm' I Hin T; [exists q, q', tm, tm'; auto|]. cbn [fold_left].
    destruct (trade_alike q q' tm tm' p I (Hin p (or_introl eq_refl)) T) as (q1 & q1' & tm1 & tm1' & -> & -> & I1 & T1). apply IH; auto. intros; apply Hin; right; assumption.
  Qed.
  Lemma loop_alike fuel : forall i active tmp q q' tm tm' gtl, inv q q' -> Forall2 (alike_deal e k) (tm_trans tm) (tm_trans tm') ->
    match p2p_loop fuel d ps c prices r i active tmp q tm gtl, p2p_loop_r R A fuel d ps c prices r i active tmp q' tm' gtl with
    | Ok (tm1, g), Ok (tm1', g') => Forall2 (alike_deal e k) (tm_trans tm1) (tm_trans tm1') /\ g = g'
    | Err a, Err a' => a = a'
    | _, _ => False
    end.
  Proof.
    induction fuel as [|fuel IH]; intros i active tmp q q' tm tm' gtl I T; cbn [p2p_loop p2p_loop_r]; rewrite (inv_sum q q' I); (destruct (qltb 0 (qsum q) && existsb (fun b => b) tmp); [|auto]); [reflexivity|].
    destruct (pick_round (length ps) ps r i active tmp []) as [[[L a] i']|] eqn:Ep; [|reflexivity]. cbn [bind].
    destruct (round_alike L q q' tm tm' I (pick_in ps r _ _ _ _ _ _ _ _ Ep (fun p F => match F with end)) T) as (q1 & q1' & tm1 & tm1' & -> & -> & I1 & T1).
    rewrite (inv_next _ _ a I1). apply IH; assumption.
  Qed.
  Theorem p2p_alike : alike_p2p e k (p2p_random d c r) (p2p_random_r R A d c r).
  Proof.
    unfold p2p_random, p2p_random_r. fold ps prices. destruct (forallb _ ps); [|reflexivity].
    pose proof (loop_alike (length ps) 0 (repeat true (length ps)) (repeat true (length ps)) (map qty d) (map qty d) tm_init tm_init [] inv_start (Forall2_nil _)) as H.
    destruct (p2p_loop _ _ _ _ _ _ _ _ _ _ _ _) as [[tm g]|]; destruct (p2p_loop_r _ _ _ _ _ _ _ _ _ _ _ _ _ _) as [[tm' g']|]; try contradiction; exact H.
  Qed.
End P2P.
