(** Facts about bids/processing.py and transactions/processing.py. *)
From Coq Require Import QArith.Qround.
From Verif Require Import QcTac Num ModelBase ModelHuang ModelMerge ListFacts StoreFacts Spec SpecTrade SpecMerge TradeFacts UpdateFacts.

(** ** Rounding *)
Lemma qz_plus a b : qz (a + b) = qz a + qz b.
Proof. apply Qc_is_canon. rewrite this_plus, !this_qz. rewrite inject_Z_plus. reflexivity. Qed.
Lemma qz_mult a b : qz (a * b) = qz a * qz b.
Proof. apply Qc_is_canon. rewrite this_mult, !this_qz. rewrite inject_Z_mult. reflexivity. Qed.
Lemma qz_le a b : (a <= b)%Z <-> qz a <= qz b.
Proof. unfold Qcle. rewrite !this_qz. rewrite <- Zle_Qle. reflexivity. Qed.
Lemma qz_lt a b : (a < b)%Z <-> qz a < qz b.
Proof. unfold Qclt. rewrite !this_qz. rewrite <- Zlt_Qlt. reflexivity. Qed.
Lemma qz_inj a b : qz a = qz b -> a = b.
Proof.
  intro H. apply Z.le_antisymm; apply (proj2 (qz_le _ _)); rewrite H; qlra.
Qed.
Lemma qz_1 : qz 1 = 1.
Proof. apply Qc_is_canon. reflexivity. Qed.
Lemma qz_0 : qz 0 = 0.
Proof. apply Qc_is_canon. reflexivity. Qed.

Lemma pow10_pos prec : 0 < pow10 prec.
Proof.
  assert (P : forall n, (0 <= n)%Z -> 0 < qz (10 ^ n)) by (intros n Hn; rewrite <- qz_0; apply (proj1 (qz_lt 0 _)), Z.pow_pos_nonneg; lia).
  unfold pow10. destruct (Z.leb_spec 0 prec); [apply P; assumption|]. unfold Qcdiv. rewrite Qcmult_1_l. specialize (P (- prec)%Z ltac:(lia)).
  destruct (Qclt_le_dec 0 (/ qz (10 ^ (- prec)))) as [|L]; [assumption|]. exfalso.
  assert (E : qz (10 ^ (- prec)) * / qz (10 ^ (- prec)) = 1) by (apply Qcmult_inv_r; intro Z; rewrite Z in P; revert P; apply Qcle_not_lt, Qcle_refl). qnra.
Qed.

Lemma floor_bounds x : qz (Qfloor (this x)) <= x /\ x < qz (Qfloor (this x)) + 1.
Proof.
  split.
  - unfold Qcle. rewrite this_qz. apply Qfloor_le.
  - rewrite <- qz_1, <- qz_plus. unfold Qclt. rewrite this_qz. apply Qlt_floor.
Qed.

Lemma rint_near x : - qf 1 2 <= qz (rint x) - x /\ qz (rint x) - x <= qf 1 2.
Proof.
  unfold rint. destruct (floor_bounds x) as [A B]. set (f := Qfloor (this x)) in *.
  pose proof (qz_plus f 1) as E. rewrite qz_1 in E.
  assert (H : qf 1 2 + qf 1 2 = 1) by (apply Qc_is_canon; reflexivity).
  destruct (qlt_spec (x - qz f) (qf 1 2)); [split; qlra|].
  destruct (qlt_spec (qf 1 2) (x - qz f)); [rewrite E; split; qlra|].
  destruct (Z.even f); [|rewrite E]; split; qlra.
Qed.
Lemma rint_tie x n : x = qz n + qf 1 2 -> Z.even (rint x) = true.
Proof.
  intros ->. unfold rint.
  assert (E : Qfloor (this (qz n + qf 1 2)) = n).
  { destruct (floor_bounds (qz n + qf 1 2)) as [A B]. set (f := Qfloor (this (qz n + qf 1 2))) in *.
    assert (Hf : qf 1 2 < 1) by (apply qltb_lt; vm_compute; reflexivity).
    assert (Hf0 : 0 < qf 1 2) by (apply qltb_lt; vm_compute; reflexivity).
    assert (L1 : qz f < qz (n + 1)) by (rewrite qz_plus, qz_1; qlra).
    assert (L2 : qz n < qz (f + 1)) by (rewrite qz_plus, qz_1; qlra).
    apply (proj2 (qz_lt _ _)) in L1, L2. lia. }
  rewrite E. replace (qz n + qf 1 2 - qz n) with (qf 1 2) by ring.
  replace (qltb (qf 1 2) (qf 1 2)) with false by (symmetry; apply qltb_ge; qlra).
  destruct (Z.even n) eqn:Ev; [exact Ev|].
  rewrite Z.even_add, Ev. reflexivity.
Qed.
Lemma rint_int n : rint (qz n) = n.
Proof.
  destruct (rint_near (qz n)) as [A B].
  assert (H : qf 1 2 < 1) by (apply qltb_lt; vm_compute; reflexivity).
  assert (L1 : qz (n + -1) < qz (rint (qz n))).
  { rewrite qz_plus. replace (qz (-1)) with (- (1)) by (apply Qc_is_canon; reflexivity). qlra. }
  assert (L2 : qz (rint (qz n)) < qz (n + 1)) by (rewrite qz_plus, qz_1; qlra).
  apply (proj2 (qz_lt _ _)) in L1, L2. lia.
Qed.

Lemma np_round_grid prec x : np_round prec x * pow10 prec = qz (rint (x * pow10 prec)).
Proof. unfold np_round. field. intro Z. pose proof (pow10_pos prec). rewrite Z in H. qlra. Qed.
Lemma np_round_near prec x :
  - qf 1 2 <= (np_round prec x - x) * pow10 prec /\ (np_round prec x - x) * pow10 prec <= qf 1 2.
Proof.
  replace ((np_round prec x - x) * pow10 prec) with (np_round prec x * pow10 prec - x * pow10 prec) by ring.
  rewrite np_round_grid. apply rint_near.
Qed.
Lemma np_round_nonneg prec x : 0 <= x -> 0 <= np_round prec x.
Proof.
  intro H. pose proof (pow10_pos prec) as P. pose proof (np_round_grid prec x) as G.
  assert (L : (0 <= rint (x * pow10 prec))%Z).
  { destruct (rint_near (x * pow10 prec)) as [A _]. pose proof (qmult_nonneg _ _ H (Qclt_le_weak _ _ P)) as X.
    assert (qz (-1) < qz (rint (x * pow10 prec))).
    { replace (qz (-1)) with (- (1)) by (apply Qc_is_canon; reflexivity).
      assert (qf 1 2 < 1) by (apply qltb_lt; vm_compute; reflexivity). qlra. }
    apply (proj2 (qz_lt _ _)) in H0. lia. }
  apply (proj1 (qz_le _ _)) in L. rewrite qz_0, <- G in L.
  destruct (Qclt_le_dec (np_round prec x) 0) as [N|]; [|assumption]. exfalso.
  set (a := np_round prec x) in *. set (b := pow10 prec) in *. clear - L N P. qnra.
Qed.
(** rounded prices that differ strictly separate the unrounded one from the other rounded price *)
Lemma np_round_strict prec x y : np_round prec y < np_round prec x -> np_round prec y < x.
Proof.
  intro H. pose proof (pow10_pos prec) as P. destruct (np_round_near prec x) as [A B].
  pose proof (np_round_grid prec x) as Gx. pose proof (np_round_grid prec y) as Gy.
  set (b := pow10 prec) in *. set (u := np_round prec x) in *. set (v := np_round prec y) in *.
  assert (L : v * b < u * b) by (clear - H P; qnra).
  rewrite Gx, Gy in L. apply (proj2 (qz_lt _ _)) in L.
  assert (L' : (rint (y * b) + 1 <= rint (x * b))%Z) by lia. apply (proj1 (qz_le _ _)) in L'.
  rewrite qz_plus, qz_1, <- Gx, <- Gy in L'.
  assert (Hf : qf 1 2 < 1) by (apply qltb_lt; vm_compute; reflexivity).
  destruct (Qclt_le_dec v x) as [|C]; [assumption|]. exfalso.
  clear - L' A B C P Hf. qnra.
Qed.
Lemma np_round_strict' prec x y : np_round prec x < np_round prec y -> x < np_round prec y.
Proof.
  intro H. pose proof (pow10_pos prec) as P. destruct (np_round_near prec x) as [A B].
  pose proof (np_round_grid prec x) as Gx. pose proof (np_round_grid prec y) as Gy.
  set (b := pow10 prec) in *. set (u := np_round prec x) in *. set (v := np_round prec y) in *.
  assert (L : u * b < v * b) by (clear - H P; qnra).
  rewrite Gx, Gy in L. apply (proj2 (qz_lt _ _)) in L.
  assert (L' : (rint (x * b) + 1 <= rint (y * b))%Z) by lia. apply (proj1 (qz_le _ _)) in L'.
  rewrite qz_plus, qz_1, <- Gx, <- Gy in L'.
  assert (Hf : qf 1 2 < 1) by (apply qltb_lt; vm_compute; reflexivity).
  destruct (Qclt_le_dec x v) as [|C]; [assumption|]. exfalso.
  clear - L' A B C P Hf. qnra.
Qed.

(** ** Group keys *)
Lemma qinsert_In x y l : In y (qinsert x l) <-> y = x \/ In y l.
Proof.
  induction l as [|a l IH]; simpl; [intuition|].
  destruct (qlt_spec x a); simpl; [intuition|].
  destruct (qeq_spec x a) as [->|]; simpl; [intuition|]. rewrite IH. intuition.
Qed.
Lemma qinsert_sorted x l : StronglySorted Qclt l -> StronglySorted Qclt (qinsert x l).
Proof.
  induction 1 as [|a l H IH Ha]; simpl; [repeat constructor|].
  destruct (qlt_spec x a) as [L|L].
  - constructor; [constructor; assumption|]. constructor; [exact L|].
    rewrite Forall_forall in *. intros y Hy. specialize (Ha y Hy). qlra.
  - destruct (qeq_spec x a) as [->|N]; [constructor; assumption|].
    constructor; [exact IH|]. rewrite Forall_forall in *. intros y Hy. apply qinsert_In in Hy.
    destruct Hy as [->|Hy]; [|auto]. destruct (Qclt_le_dec a x) as [|C]; [assumption|]. exfalso. apply N. qlra.
Qed.
Lemma group_keys_In x l : In x (group_keys l) <-> In x l.
Proof. unfold group_keys. induction l as [|a l IH]; simpl; [tauto|]. rewrite qinsert_In, IH. intuition. Qed.
Lemma group_keys_sorted l : StronglySorted Qclt (group_keys l).
Proof. induction l; simpl; [constructor | apply qinsert_sorted; assumption]. Qed.
Lemma sorted_lt_NoDup l : StronglySorted Qclt l -> NoDup l.
Proof.
  induction 1 as [|a l H IH Ha]; constructor; auto. intro I. rewrite Forall_forall in Ha.
  specialize (Ha a I). qlra.
Qed.

(** ** Partition into groups *)
Lemma groups_perm {A} (key : A -> Qc) (side : list A) keys : NoDup keys -> (forall x, In x side -> In (key x) keys) ->
  Permutation (flat_map (fun k => filter (fun x => qeqb (key x) k) side) keys) side.
Proof.
  intro H. revert side. induction H as [|k keys Hk H IH]; intros side Hs; simpl.
  - destruct side as [|x side]; [constructor|]. exfalso. apply (Hs x). left; reflexivity.
  - etransitivity; [|symmetry; apply (filter_negb_perm (fun x => qeqb (key x) k) side)].
    apply Permutation_app_head.
    rewrite <- (IH (filter (fun x => negb (qeqb (key x) k)) side)).
    + apply eq_ind with (P := fun l => Permutation l _) (x := flat_map (fun k0 => filter (fun x => qeqb (key x) k0) (filter (fun x => negb (qeqb (key x) k)) side)) keys); [reflexivity|].
      clear - Hk. induction keys as [|k' keys IHk]; simpl; [reflexivity|].
      rewrite IHk by (intro; apply Hk; right; assumption). f_equal.
      rewrite filter_filter. apply filter_ext. intro x.
      destruct (qeq_spec (key x) k'), (qeq_spec (key x) k); simpl; try reflexivity.
      exfalso. apply Hk. left. congruence.
    + intros x Hx. apply filter_In in Hx. destruct Hx as [Hx Hn]. apply negb_true_iff in Hn.
      apply qeqb_neq in Hn. destruct (Hs x Hx) as [E|]; [congruence | assumption].
Qed.

(** ** [merge_groups] *)
Definition grp prec (side : df) (k : Qc) : df := filter (fun x => qeqb (np_round prec (price x)) k) side.

(** an entry of the merged frame describes the group of key [k] *)
Definition entry_ok prec (side : df) (b : bool) (k : Qc) (rm : row * list nat) : Prop :=
  price (fst rm) = k /\ qty (fst rm) = qsumf qty (grp prec side k) /\ buying (fst rm) = b /\
  snd rm = map lbl (grp prec side k) /\
  In (time (fst rm)) (map time (grp prec side k)) /\ In (divisible (fst rm)) (map divisible (grp prec side k)).

Definition multi (rm : row * list nat) : bool := Nat.ltb 1 (length (snd rm)).

Lemma sample_in {A} smp k (l : list A) x0 : l <> [] -> In (sample smp k l x0) l.
Proof.
  intro H. unfold sample. apply nth_In. apply Nat.mod_upper_bound. destruct l; [congruence | simpl; lia].
Qed.

Lemma merge_groups_spec prec smp side b keys g cnt :
  (forall x, In x side -> buying x = b) -> (forall k, In k keys -> grp prec side k <> []) ->
  exists l cnt', merge_groups prec smp side keys g cnt = Ok (l, (g + length keys)%nat, cnt') /\
    Forall2 (entry_ok prec side b) keys l /\ map lbl (map fst l) = seq g (length keys) /\
    (cnt <= cnt')%Z /\
    (forall rm, In rm l -> multi rm = true -> (cnt <= user (fst rm) < cnt')%Z) /\
    NoDup (map (fun rm => user (fst rm)) (filter multi l)) /\
    (forall rm, In rm l -> multi rm = false ->
       exists x, In x side /\ snd rm = [lbl x] /\ user (fst rm) = user x /\ price (fst rm) = np_round prec (price x)).
Proof.
  intros Hb. revert g cnt. induction keys as [|k keys IH]; intros g cnt Hne.
  - exists [], cnt. simpl. rewrite Nat.add_0_r. repeat split; try constructor; try contradiction. lia.
  - cbn [merge_groups].
    assert (Hk : grp prec side k <> []) by (apply Hne; left; reflexivity).
    change (filter (fun x => qeqb (np_round prec (price x)) k) side) with (grp prec side k).
    assert (Hbk : forall smp i, sample smp i (map buying (grp prec side k)) true = b).
    { intros smp' i. pose proof (sample_in smp' i (map buying (grp prec side k)) true) as S.
      assert (In (sample smp' i (map buying (grp prec side k)) true) (map buying (grp prec side k))).
      { apply S. destruct (grp prec side k); [congruence | discriminate]. }
      apply in_map_iff in H. destruct H as (x & <- & Hx). apply filter_In in Hx. apply Hb; tauto. }
    assert (N : exists u c1, new_id (map user (grp prec side k)) cnt = Ok (u, c1) /\ (cnt <= c1)%Z /\
        (Nat.ltb 1 (length (grp prec side k)) = true -> u = cnt /\ (c1 = cnt + 1)%Z) /\
        (Nat.ltb 1 (length (grp prec side k)) = false -> c1 = cnt /\ exists x, grp prec side k = [x] /\ u = user x)).
    { destruct (grp prec side k) as [|x [|y r]]; [congruence| |].
      - exists (user x), cnt. simpl. split; [reflexivity|]. split; [lia|]. split; [discriminate|]. eauto.
      - exists cnt, (cnt + 1)%Z. simpl. split; [reflexivity|]. split; [lia|]. split; [auto | discriminate]. }
    destruct N as (u & c1 & EN & Lc & Nm & Ns). rewrite EN. cbn [bind].
    destruct (IH (S g) c1) as (l & cnt' & E & F & Lb & Lc2 & Hm & Hd & Hs).
    { intros k' Hk'. apply Hne. right; exact Hk'. }
    rewrite E. cbn [bind]. eexists _, cnt'. split; [f_equal; f_equal; f_equal; simpl; lia|].
    split; [|split; [|split; [|split; [|split]]]].
    + constructor; [|exact F]. repeat split; simpl; try apply Hbk; apply sample_in;
      destruct (grp prec side k); (congruence || discriminate).
    + simpl. rewrite Lb. reflexivity.
    + lia.
    + intros rm [<-|Hrm] Mu.
      * unfold multi in Mu. simpl in Mu. rewrite map_length in Mu. destruct (Nm Mu) as [-> ->]. simpl. lia.
      * specialize (Hm rm Hrm Mu). lia.
    + simpl. unfold multi at 1. simpl snd. rewrite map_length.
      destruct (Nat.ltb 1 (length (grp prec side k))) eqn:Mu; [|exact Hd].
      simpl. constructor; [|exact Hd]. destruct (Nm eq_refl) as [-> ->]. intro I. apply in_map_iff in I.
      destruct I as (rm & Eu & Hrm). apply filter_In in Hrm. destruct Hrm as [H1 H2].
      specialize (Hm rm H1 H2). lia.
    + intros rm [<-|Hrm] Mu; [|apply Hs; assumption].
      unfold multi in Mu. simpl in Mu. rewrite map_length in Mu. destruct (Ns Mu) as (_ & x & Ex & ->).
      assert (Ix : In x (grp prec side k)) by (rewrite Ex; left; reflexivity).
      apply filter_In in Ix. destruct Ix as [I1 I2]. apply qeqb_eq in I2.
      exists x. simpl. rewrite Ex. auto.
Qed.

(** ** [merge_same_price] *)
Lemma user_max_ge d r : In r d -> (user r <= user_max d)%Z.
Proof.
  assert (F : forall l a, (a <= fold_left Z.max l a)%Z /\ forall x, In x l -> (x <= fold_left Z.max l a)%Z).
  { induction l as [|y l IH]; intro a; simpl; [split; [lia | contradiction]|].
    destruct (IH (Z.max a y)) as [A B]. split; [lia|]. intros x [<-|Hx]; [lia | auto]. }
  destruct d as [|a d]; [contradiction|]. simpl. destruct (F (map user d) (user a)) as [A B].
  intros [<-|H]; [exact A|]. apply B, in_map, H.
Qed.

Lemma side_keys_group prec side k : In k (side_keys prec side) -> grp prec side k <> [].
Proof.
  unfold side_keys. rewrite group_keys_In, in_map_iff. intros (x & E & Hx) Z.
  assert (In x (grp prec side k)) by (apply filter_In; split; [exact Hx | apply qeqb_eq; exact E]).
  rewrite Z in H. contradiction.
Qed.

Record merge_ok (prec : Z) (d : df) (c0 : Z) (mb ms : list (row * list nat)) (c2 : Z) : Prop := {
  mo_b : Forall2 (entry_ok prec (buyers d) true) (side_keys prec (buyers d)) mb;
  mo_s : Forall2 (entry_ok prec (sellers d) false) (side_keys prec (sellers d)) ms;
  mo_lbl : map lbl (map fst (mb ++ ms)) = seq 0 (length (mb ++ ms));
  mo_multi : forall rm, In rm (mb ++ ms) -> multi rm = true -> (c0 <= user (fst rm) < c2)%Z;
  mo_nodup : NoDup (map (fun rm => user (fst rm)) (filter multi (mb ++ ms)));
  mo_single : forall rm, In rm (mb ++ ms) -> multi rm = false ->
    exists x, In x d /\ snd rm = [lbl x] /\ user (fst rm) = user x /\ price (fst rm) = np_round prec (price x) }.

Lemma NoDup_app {A} (l1 l2 : list A) : NoDup l1 -> NoDup l2 -> (forall x, In x l1 -> In x l2 -> False) -> NoDup (l1 ++ l2).
Proof.
  induction 1 as [|a l H H1 IH]; simpl; [auto|]. intros N D. constructor.
  - intro I. apply in_app_or in I. destruct I; [contradiction|]. apply (D a); auto.
  - apply IH; auto. intros x ? ?. apply (D x); auto.
Qed.

Lemma merge_same_price_ok prec smp d cnt0 : exists mb ms c2,
  merge_same_price prec smp d cnt0 = Ok (map fst (mb ++ ms), map snd (mb ++ ms), c2) /\
  merge_ok prec d (user_max d + 1)%Z mb ms c2.
Proof.
  unfold merge_same_price, new_player_id. set (c0 := (user_max d + 1)%Z).
  destruct (merge_groups_spec prec smp (buyers d) true (side_keys prec (buyers d)) 0 c0) as
    (mb & c1 & E1 & F1 & L1 & G1 & M1 & D1 & S1).
  { intros x Hx. apply filter_In in Hx. tauto. }
  { intros k Hk. apply side_keys_group, Hk. }
  rewrite E1. cbn [bind].
  destruct (merge_groups_spec prec smp (sellers d) false (side_keys prec (sellers d)) (0 + length (side_keys prec (buyers d))) c1) as
    (ms & c2 & E2 & F2 & L2 & G2 & M2 & D2 & S2).
  { intros x Hx. apply filter_In in Hx. destruct Hx as [_ Hx]. apply negb_true_iff in Hx. exact Hx. }
  { intros k Hk. apply side_keys_group, Hk. }
  rewrite E2. cbn [bind]. exists mb, ms, c2. split; [reflexivity|].
  pose proof (Forall2_len _ _ _ F1) as Lb. pose proof (Forall2_len _ _ _ F2) as Ls.
  constructor; auto.
  - rewrite map_app, map_app, L1, L2, app_length, <- Lb, <- Ls, <- seq_app. reflexivity.
  - intros rm H Mu. apply in_app_or in H. destruct H as [H|H]; [specialize (M1 rm H Mu) | specialize (M2 rm H Mu)]; lia.
  - rewrite filter_app, map_app. apply NoDup_app; auto. intros x H3 H4.
    apply in_map_iff in H3, H4. destruct H3 as (r3 & <- & H3). destruct H4 as (r4 & E4 & H4).
    apply filter_In in H3, H4. destruct H3 as [H3 H3']. destruct H4 as [H4 H4'].
    specialize (M1 _ H3 H3'). specialize (M2 _ H4 H4'). lia.
  - intros rm H Mu. apply in_app_or in H. destruct H as [H|H]; [apply S1 in H | apply S2 in H]; auto;
    destruct H as (x & Hx & H); exists x; apply filter_In in Hx; tauto.
Qed.

Lemma Forall2_nth {A B} (R : A -> B -> Prop) l1 l2 i y :
  Forall2 R l1 l2 -> nth_error l2 i = Some y -> exists x, nth_error l1 i = Some x /\ R x y.
Proof.
  intro H; revert i; induction H as [|a b l1 l2 Hab H IH]; intros [|i] E; simpl in *; try discriminate.
  - injection E as <-. eauto.
  - apply IH, E.
Qed.
Lemma Forall2_in_r {A B} (R : A -> B -> Prop) l1 l2 y :
  Forall2 R l1 l2 -> In y l2 -> exists x, In x l1 /\ R x y.
Proof.
  induction 1 as [|a b l1 l2 Hab H IH]; simpl; [contradiction|]. intros [<-|Hy]; [eauto|].
  destruct (IH Hy) as (x & ? & ?); eauto.
Qed.

Lemma group_of_side prec d r (b : bool) k : buying r = b -> price r = k ->
  group_of prec d r = grp prec (if b then buyers d else sellers d) k.
Proof.
  intros <- <-. unfold group_of, grp, buyers, sellers. destruct (buying r).
  - rewrite filter_filter. apply filter_ext. intro x. destruct (buying x); reflexivity.
  - rewrite filter_filter. apply filter_ext. intro x. destruct (buying x); reflexivity.
Qed.

Lemma entry_group prec d (b : bool) k rm : entry_ok prec (if b then buyers d else sellers d) b k rm ->
  qty (fst rm) = qsumf qty (group_of prec d (fst rm)) /\ snd rm = map lbl (group_of prec d (fst rm)).
Proof. intros (H1 & H2 & H3 & H4 & _). rewrite (group_of_side prec d (fst rm) b k H3 H1). auto. Qed.

Section Merged.
  Variables (prec : Z) (d : df) (c0 c2 : Z) (mb ms : list (row * list nat)).
  Hypothesis M : merge_ok prec d c0 mb ms c2.
  Let md := map fst (mb ++ ms).
  Let mp := map snd (mb ++ ms).

  Lemma mb_in rm : In rm mb -> exists k, In k (side_keys prec (buyers d)) /\ entry_ok prec (buyers d) true k rm.
  Proof. intro H. exact (Forall2_in_r _ _ _ _ (mo_b _ _ _ _ _ _ M) H). Qed.
  Lemma ms_in rm : In rm ms -> exists k, In k (side_keys prec (sellers d)) /\ entry_ok prec (sellers d) false k rm.
  Proof. intro H. exact (Forall2_in_r _ _ _ _ (mo_s _ _ _ _ _ _ M) H). Qed.

  Lemma merged_entry rm : In rm (mb ++ ms) ->
    group_of prec d (fst rm) <> [] /\ qty (fst rm) = qsumf qty (group_of prec d (fst rm)) /\
    snd rm = map lbl (group_of prec d (fst rm)).
  Proof.
    intro H. apply in_app_or in H. destruct H as [H|H].
    - destruct (mb_in _ H) as (k & Hk & E). split; [|exact (entry_group prec d true k rm E)].
      destruct E as (E1 & _ & E3 & _). rewrite (group_of_side _ _ _ _ _ E3 E1). apply side_keys_group, Hk.
    - destruct (ms_in _ H) as (k & Hk & E). split; [|exact (entry_group prec d false k rm E)].
      destruct E as (E1 & _ & E3 & _). rewrite (group_of_side _ _ _ _ _ E3 E1). apply side_keys_group, Hk.
  Qed.
  Lemma merged_nth i r rows : nth_error md i = Some r -> nth_error mp i = Some rows ->
    lbl r = i /\ group_of prec d r <> [] /\ qty r = qsumf qty (group_of prec d r) /\ rows = map lbl (group_of prec d r).
  Proof.
    unfold md, mp. intros H1 H2.
    assert (L : lbl r = i).
    { pose proof (mo_lbl _ _ _ _ _ _ M) as L. apply (map_nth_error lbl) in H1. rewrite L in H1.
      assert (i < length (mb ++ ms))%nat by (rewrite <- (seq_length (length (mb ++ ms)) 0); apply nth_error_Some; congruence).
      rewrite (nth_error_nth' _ 0%nat) in H1 by (rewrite seq_length; exact H). rewrite seq_nth in H1 by exact H.
      injection H1 as <-. reflexivity. }
    split; [exact L|].
    rewrite nth_error_map in H1, H2. destruct (nth_error (mb ++ ms) i) as [rm|] eqn:E; [|discriminate].
    injection H1 as <-. injection H2 as <-. apply merged_entry. eapply nth_error_In; eauto.
  Qed.
  Lemma merged_sampled r : In r md ->
    In (time r) (map time (group_of prec d r)) /\ In (divisible r) (map divisible (group_of prec d r)).
  Proof.
    unfold md. intro H. apply in_map_iff in H. destruct H as (rm & <- & H). apply in_app_or in H. destruct H as [H|H].
    - destruct (mb_in _ H) as (k & Hk & E1 & _ & E3 & _ & E5). rewrite (group_of_side _ _ _ _ _ E3 E1). exact E5.
    - destruct (ms_in _ H) as (k & Hk & E1 & _ & E3 & _ & E5). rewrite (group_of_side _ _ _ _ _ E3 E1). exact E5.
  Qed.
  Lemma merged_prices : map price (filter buying md) = side_keys prec (buyers d) /\
    map price (filter (fun r => negb (buying r)) md) = side_keys prec (sellers d) /\
    filter buying md = map fst mb /\ filter (fun r => negb (buying r)) md = map fst ms.
  Proof.
    assert (A : forall rm, In rm mb -> buying (fst rm) = true) by (intros rm H; destruct (mb_in _ H) as (k & _ & E); apply E).
    assert (B : forall rm, In rm ms -> buying (fst rm) = false) by (intros rm H; destruct (ms_in _ H) as (k & _ & E); apply E).
    assert (Eb : filter buying md = map fst mb).
    { unfold md. rewrite map_app, filter_app, filter_all, filter_none, app_nil_r; [reflexivity| |];
      intros x Hx; apply in_map_iff in Hx; destruct Hx as (rm & <- & Hx); auto. }
    assert (Es : filter (fun r => negb (buying r)) md = map fst ms).
    { unfold md. rewrite map_app, filter_app, filter_none, filter_all; [reflexivity| |];
      intros x Hx; apply in_map_iff in Hx; destruct Hx as (rm & <- & Hx); [rewrite B | rewrite A]; auto. }
    rewrite Eb, Es. rewrite !map_map. repeat split.
    - pose proof (mo_b _ _ _ _ _ _ M) as F. clear - F. induction F as [|k rm ks l E F IH]; simpl; [reflexivity|].
      rewrite IH. f_equal. apply E.
    - pose proof (mo_s _ _ _ _ _ _ M) as F. clear - F. induction F as [|k rm ks l E F IH]; simpl; [reflexivity|].
      rewrite IH. f_equal. apply E.
  Qed.
  Lemma merged_distinct : prices_distinct md.
  Proof.
    destruct merged_prices as (A & B & _). split; [rewrite A | rewrite B]; apply sorted_lt_NoDup, group_keys_sorted.
  Qed.
  Lemma concat_entries side b keys l : Forall2 (entry_ok prec side b) keys l ->
    concat (map snd l) = map lbl (flat_map (fun k => grp prec side k) keys).
  Proof.
    induction 1 as [|k rm ks l E F IH]; simpl; [reflexivity|]. rewrite map_app, <- IH. f_equal. apply E.
  Qed.
  Lemma merged_partition : Permutation (concat mp) (map lbl d).
  Proof.
    unfold mp. rewrite map_app, concat_app.
    rewrite (concat_entries _ _ _ _ (mo_b _ _ _ _ _ _ M)), (concat_entries _ _ _ _ (mo_s _ _ _ _ _ _ M)).
    rewrite <- map_app. apply Permutation_map. etransitivity; [|symmetry; apply (filter_negb_perm buying d)].
    apply Permutation_app; apply (groups_perm (fun x => np_round prec (price x)));
      try (apply sorted_lt_NoDup, group_keys_sorted);
      intros x Hx; unfold side_keys; rewrite group_keys_In; apply (in_map (fun x => np_round prec (price x))), Hx.
  Qed.
  Lemma merged_labels : labels_unique md.
  Proof. unfold labels_unique, md. rewrite (mo_lbl _ _ _ _ _ _ M). apply seq_NoDup. Qed.
  Lemma merged_row r : In r md -> exists rows, nth_error mp (lbl r) = Some rows /\ nth_error md (lbl r) = Some r.
  Proof.
    intro H. apply In_nth_error in H. destruct H as (i & H).
    assert (H2 : exists rows, nth_error mp i = Some rows).
    { destruct (nth_error mp i) eqn:E; [eauto|]. apply nth_error_None in E. unfold mp in E.
      assert (i < length md)%nat by (apply nth_error_Some; congruence). unfold md in H0. rewrite map_length in *. lia. }
    destruct H2 as (rows & H2). destruct (merged_nth i r rows H H2) as (<- & _). eauto.
  Qed.
  Lemma merged_qty_nonneg : qty_nonneg d -> qty_nonneg md.
  Proof.
    intros H r Hr. destruct (merged_row r Hr) as (rows & E1 & E2). destruct (merged_nth _ _ _ E2 E1) as (_ & _ & -> & _).
    apply qsumf_nonneg. intros x Hx. apply filter_In in Hx. apply H; tauto.
  Qed.
  Lemma merged_price_round r : In r md -> exists x, In x d /\ buying x = buying r /\ price r = np_round prec (price x).
  Proof.
    intro Hr. destruct (merged_row r Hr) as (rows & E1 & E2). destruct (merged_nth _ _ _ E2 E1) as (_ & N & _ & _).
    destruct (group_of prec d r) as [|x g] eqn:Eg; [congruence|].
    assert (I : In x (group_of prec d r)) by (rewrite Eg; left; reflexivity).
    apply filter_In in I. destruct I as [I1 I2]. apply andb_true_iff in I2. destruct I2 as [I2 I3].
    apply eqb_prop in I2. apply qeqb_eq in I3. eauto.
  Qed.
  Lemma merged_price_nonneg : price_nonneg d -> price_nonneg md.
  Proof.
    intros H r Hr. destruct (merged_price_round r Hr) as (x & Hx & _ & ->). apply np_round_nonneg, H, Hx.
  Qed.
End Merged.

(** ** Splitting *)
Lemma iloc_rows d : map lbl d = seq 0 (length d) -> forall rows rs,
  map lbl rs = rows -> (forall r, In r rs -> In r d) -> iloc d rows = Ok rs.
Proof.
  intros Hl rows rs. revert rows. induction rs as [|r rs IH]; intros rows <- H; [reflexivity|]. simpl.
  assert (E : nth_error d (lbl r) = Some r).
  { pose proof (H r (or_introl eq_refl)) as I. apply In_nth_error in I. destruct I as (i & I).
    pose proof (map_nth_error lbl _ _ I) as I2. rewrite Hl in I2.
    assert (L : (i < length d)%nat) by (apply nth_error_Some; congruence).
    rewrite (nth_error_nth' _ 0%nat) in I2 by (rewrite seq_length; exact L). rewrite seq_nth in I2 by exact L.
    simpl in I2. injection I2 as <-. exact I. }
  rewrite E. rewrite (IH (map lbl rs) eq_refl) by (intros; apply H; right; assumption). reflexivity.
Qed.

Lemma split_one_spec d mp fees t rows rs : map lbl d = seq 0 (length d) ->
  nth_error mp (t_bid t) = Some rows -> map lbl rs = rows -> (forall r, In r rs -> In r d) ->
  qsumf qty rs <> 0 -> (fees = false \/ (length rows <= 1)%nat) ->
  split_one d mp fees t = Ok (map (fun r => mkTrans (lbl r) (t_qty t * (qty r / qsumf qty rs)) (t_price t) (t_source t) (t_active t)) rs).
Proof.
  intros Hl Hm Er Hin Hz Hf. unfold split_one. rewrite Hm, (iloc_rows d Hl rows rs Er Hin). cbn [bind].
  assert (E : Nat.ltb 1 (length rows) && fees = false).
  { destruct Hf as [->|L]; [apply andb_false_r|]. apply andb_false_intro1. apply Nat.ltb_ge. exact L. }
  rewrite E. change (qsum (map qty rs)) with (qsumf qty rs).
  replace (qeqb (qsumf qty rs) 0) with false by (symmetry; apply qeqb_neq; exact Hz).
  f_equal. rewrite <- Er. clear. induction rs as [|r rs IH]; [reflexivity|].
  set (s := qsumf qty (r :: rs)). clearbody s. simpl. f_equal.
  clear IH. induction rs as [|r' rs IH]; [reflexivity|]. simpl. f_equal. exact IH.
Qed.

Lemma split_list_spec d mp fees ts acc : map lbl d = seq 0 (length d) ->
  (forall t, In t ts -> exists rows rs, nth_error mp (t_bid t) = Some rows /\ map lbl rs = rows /\
     (forall r, In r rs -> In r d) /\ qsumf qty rs <> 0 /\ (fees = false \/ (length rows <= 1)%nat)) ->
  exists ls, split_list d mp fees ts acc = Ok (add_all acc (concat ls)) /\
    Forall2 (fun t l => exists rows, nth_error mp (t_bid t) = Some rows /\ Split d rows t l) ts ls.
Proof.
  intros Hl. revert acc. induction ts as [|t ts IH]; intros acc H.
  - exists []. split; [reflexivity | constructor].
  - destruct (H t (or_introl eq_refl)) as (rows & rs & H1 & H2 & H3 & H4 & H5).
    simpl. rewrite (split_one_spec d mp fees t rows rs Hl H1 H2 H3 H4 H5). cbn [bind].
    destruct (IH (add_all acc (map (fun r => mkTrans (lbl r) (t_qty t * (qty r / qsumf qty rs)) (t_price t) (t_source t) (t_active t)) rs))) as (ls & E & F).
    { intros t' Ht'. apply H. right; exact Ht'. }
    eexists (_ :: ls). rewrite E. split.
    + simpl. unfold add_all. rewrite fold_left_app. reflexivity.
    + constructor; [|exact F]. exists rows. split; [exact H1|]. exists rs. split; [exact H2|]. split; [exact H3|]. split; [reflexivity|].
      rewrite qsumf_map. simpl. rewrite qsumf_scale. unfold Qcdiv. rewrite qsumf_scale_r. field. exact H4.
Qed.


(** ** Statements used by the property files *)
Lemma merge_statement prec smp d cnt : exists md mp c,
  merge_same_price prec smp d cnt = Ok (md, mp, c) /\
  length mp = length md /\ map lbl md = seq 0 (length md) /\ Permutation (concat mp) (map lbl d) /\
  (forall i r rows, nth_error md i = Some r -> nth_error mp i = Some rows ->
     group_of prec d r <> [] /\ rows = map lbl (group_of prec d r) /\ qty r = qsumf qty (group_of prec d r) /\
     In (time r) (map time (group_of prec d r)) /\ In (divisible r) (map divisible (group_of prec d r))) /\
  (exists mb ms, md = mb ++ ms /\ (forall r, In r mb -> buying r = true) /\ (forall r, In r ms -> buying r = false) /\
     StronglySorted Qclt (map price mb) /\ StronglySorted Qclt (map price ms)).
Proof.
  destruct (merge_same_price_ok prec smp d cnt) as (mb & ms & c2 & E & M).
  eexists _, _, c2. split; [exact E|]. split; [rewrite !map_length; reflexivity|].
  split; [rewrite (mo_lbl _ _ _ _ _ _ M), map_length; reflexivity|].
  split; [exact (merged_partition _ _ _ _ _ _ M)|]. split.
  - intros i r rows H1 H2. destruct (merged_nth _ _ _ _ _ _ M i r rows H1 H2) as (_ & A & B & C).
    destruct (merged_sampled _ _ _ _ _ _ M r (nth_error_In _ _ H1)). auto.
  - exists (map fst mb), (map fst ms). split; [apply map_app|].
    destruct (merged_prices _ _ _ _ _ _ M) as (P1 & P2 & P3 & P4). rewrite P3 in P1. rewrite P4 in P2.
    split; [|split; [|split]].
    + intros r Hr. rewrite <- P3 in Hr. apply filter_In in Hr. tauto.
    + intros r Hr. rewrite <- P4 in Hr. apply filter_In in Hr. apply negb_true_iff. tauto.
    + rewrite P1. apply group_keys_sorted.
    + rewrite P2. apply group_keys_sorted.
Qed.

Lemma pow10_statement prec : ((0 <= prec)%Z -> pow10 prec = qz (10 ^ prec)) /\ ((prec <= 0)%Z -> pow10 prec * qz (10 ^ (- prec)) = 1).
Proof.
  unfold pow10. destruct (Z.leb_spec 0 prec) as [L|L]; (split; [intro H|intro H]); try reflexivity; try lia.
  - replace prec with 0%Z by lia. apply Qc_is_canon. reflexivity.
  - field. intro Z. assert (P : qz 0 < qz (10 ^ (- prec))) by (apply (proj1 (qz_lt 0 _)), Z.pow_pos_nonneg; lia). rewrite Z, qz_0 in P. qlra.
Qed.
Lemma rounding_statement prec x : exists n,
  np_round prec x = qz n / pow10 prec /\
  qabs (x * pow10 prec - qz n) <= qf 1 2 /\
  (qabs (x * pow10 prec - qz n) = qf 1 2 -> Z.even n = true).
Proof.
  exists (rint (x * pow10 prec)). split; [reflexivity|].
  set (y := x * pow10 prec).
  destruct (rint_near y) as [A B].
  assert (Hp : 0 < qf 1 2) by (apply qltb_lt; vm_compute; reflexivity).
  assert (H2 : qf 1 2 + qf 1 2 = 1) by (apply Qc_is_canon; reflexivity).
  split.
  - destruct (Qclt_le_dec (y - qz (rint y)) 0) as [L|L]; [rewrite qabs_neg by qlra | rewrite qabs_pos by exact L]; qlra.
  - intro E. destruct (Qclt_le_dec (y - qz (rint y)) 0) as [L|L].
    + rewrite qabs_neg in E by qlra. apply (rint_tie y (rint y + -1)). rewrite qz_plus.
      replace (qz (-1)) with (- (1)) by (apply Qc_is_canon; reflexivity). qlra.
    + rewrite qabs_pos in E by exact L. apply (rint_tie y (rint y)). qlra.
Qed.

Lemma split_statement tm d mp : map lbl d = seq 0 (length d) ->
  (forall t, In t (tm_trans tm) -> exists rs, nth_error mp (t_bid t) = Some (map lbl rs) /\
     (forall r, In r rs -> In r d) /\ qsumf qty rs <> 0) ->
  exists tm' ls, split_transactions_merged_players tm d mp None = Ok (tm', None) /\
    tm_trans tm' = concat ls /\ n_trans tm' = length (concat ls) /\
    Forall2 (fun t l => exists rows, nth_error mp (t_bid t) = Some rows /\ Split d rows t l) (tm_trans tm) ls.
Proof.
  intros Hl H. unfold split_transactions_merged_players.
  destruct (split_list_spec d mp false (tm_trans tm) tm_init Hl) as (ls & E & F).
  { intros t Ht. destruct (H t Ht) as (rs & H1 & H2 & H3). exists (map lbl rs), rs. auto 10. }
  rewrite E. cbn [bind]. eexists _, ls. split; [reflexivity|]. rewrite add_all_trans, add_all_n. auto.
Qed.

Lemma split_fees_raise tm d mp fees t rows : In t (tm_trans tm) -> nth_error mp (t_bid t) = Some rows ->
  (2 <= length rows)%nat -> exists e, split_transactions_merged_players tm d mp (Some fees) = Err e.
Proof.
  intros Ht Hm Hr. unfold split_transactions_merged_players.
  assert (A : forall ts acc, In t ts -> exists e, split_list d mp true ts acc = Err e).
  { induction ts as [|t' ts IH]; intros acc Hi; [contradiction|]. simpl.
    destruct (split_one d mp true t') as [l|e] eqn:E; cbn [bind]; [|eauto].
    destruct Hi as [->|Hi]; [|apply IH, Hi]. exfalso. unfold split_one in E. rewrite Hm in E.
    destruct (iloc d rows) as [rs|e]; cbn [bind] in E; [|discriminate].
    replace (Nat.ltb 1 (length rows)) with true in E by (symmetry; apply Nat.ltb_lt; lia). discriminate. }
  destruct (A (tm_trans tm) tm_init Ht) as (e & ->). cbn [bind]. eauto.
Qed.

Lemma split_fees_single tm d mp fees : map lbl d = seq 0 (length d) ->
  (forall t, In t (tm_trans tm) -> exists r, nth_error mp (t_bid t) = Some [lbl r] /\ In r d /\ qty r <> 0) ->
  exists tm', split_transactions_merged_players tm d mp (Some fees) = Ok (tm', Some fees) /\
    Forall2 (fun t t' => nth_error mp (t_bid t) = Some [t_bid t'] /\ t_qty t' = t_qty t /\ t_price t' = t_price t /\
               t_source t' = t_source t /\ t_active t' = t_active t) (tm_trans tm) (tm_trans tm').
Proof.
  intros Hl H. unfold split_transactions_merged_players.
  assert (Hs : forall r, qsumf qty [r] = qty r) by (intro r; rewrite qsumf_cons, qsumf_nil; ring).
  destruct (split_list_spec d mp true (tm_trans tm) tm_init Hl) as (ls & E & F).
  { intros t Ht. destruct (H t Ht) as (r & H1 & H2 & H3). exists [lbl r], [r].
    rewrite Hs. simpl. split; [exact H1|]. split; [reflexivity|]. split; [intros x [<-|[]]; exact H2|]. auto. }
  rewrite E. cbn [bind]. eexists. split; [reflexivity|]. rewrite add_all_trans. simpl app.
  clear E. induction F as [|t l ts ls Hp F IH]; [constructor|].
  destruct Hp as (rows & Hm & rs & E1 & E2 & E3 & E4).
  destruct (H t (or_introl eq_refl)) as (r & G1 & G2 & G3). rewrite G1 in Hm. injection Hm as <-.
  destruct rs as [|x [|y rs]]; try discriminate. simpl in E1. injection E1 as E1. subst l. simpl in *.
  constructor; [|apply IH; intros; apply H; auto].
  simpl. rewrite E1. split; [exact G1|]. split; [|auto]. rewrite qsumf_cons, qsumf_nil in E4. simpl in E4.
  rewrite <- E4 at 2. ring.
Qed.

Lemma user_ids prec smp d cnt : exists md mp c,
  merge_same_price prec smp d cnt = Ok (md, mp, c) /\
  (forall i r rows, nth_error md i = Some r -> nth_error mp i = Some rows ->
     if Nat.ltb 1 (length rows) then forall x, In x d -> (user x < user r)%Z
     else exists x, In x d /\ rows = [lbl x] /\ user r = user x) /\
  (forall i j r s rows rows', nth_error md i = Some r -> nth_error mp i = Some rows ->
     nth_error md j = Some s -> nth_error mp j = Some rows' ->
     (2 <= length rows)%nat -> (2 <= length rows')%nat -> user r = user s -> i = j).
Proof.
  destruct (merge_same_price_ok prec smp d cnt) as (mb & ms & c2 & E & M).
  eexists _, _, c2. split; [exact E|].
  assert (Pair : forall i r rows, nth_error (map fst (mb ++ ms)) i = Some r -> nth_error (map snd (mb ++ ms)) i = Some rows ->
    nth_error (mb ++ ms) i = Some (r, rows)).
  { intros i r rows H1 H2. rewrite nth_error_map in H1, H2. destruct (nth_error (mb ++ ms) i) as [[a b]|]; [|discriminate].
    injection H1 as <-. injection H2 as <-. reflexivity. }
  split.
  - intros i r rows H1 H2. pose proof (Pair _ _ _ H1 H2) as P. pose proof (nth_error_In _ _ P) as I.
    destruct (Nat.ltb 1 (length rows)) eqn:Mu.
    + intros x Hx. pose proof (mo_multi _ _ _ _ _ _ M _ I Mu). pose proof (user_max_ge d x Hx). simpl in *. lia.
    + destruct (mo_single _ _ _ _ _ _ M _ I Mu) as (x & Hx & A & B & _). simpl in *. eauto.
  - intros i j r s rows rows' H1 H2 H3 H4 L1 L2 Eu.
    pose proof (Pair _ _ _ H1 H2) as P1. pose proof (Pair _ _ _ H3 H4) as P2.
    assert (Mu1 : multi (r, rows) = true) by (apply Nat.ltb_lt; simpl; lia).
    assert (Mu2 : multi (s, rows') = true) by (apply Nat.ltb_lt; simpl; lia).
    assert (Epair : (r, rows) = (s, rows')).
    { apply (NoDup_map_in (fun rm => user (fst rm)) (filter multi (mb ++ ms)) _ _ (mo_nodup _ _ _ _ _ _ M));
      try (apply filter_In; split; [eapply nth_error_In; eauto | assumption]). exact Eu. }
    injection Epair as -> ->.
    destruct (merged_nth _ _ _ _ _ _ M _ _ _ H1 H2) as (<- & _). destruct (merged_nth _ _ _ _ _ _ M _ _ _ H3 H4) as (<- & _).
    reflexivity.
Qed.

(** sequences of [new_player_id(i)] and of calls of the returned functions *)
Lemma gen_calls_sequential (calls : list (list Z)) c : (forall us, In us calls -> us <> []) ->
  exists c' ids, fold_left (fun acc us => '(cnt, ids) <- acc ;; '(u, cnt') <- new_id us cnt ;; Ok (cnt', ids ++ [u])) calls (Ok (c, [])) = Ok (c', ids) /\
    Forall2 (fun us u => match us with [v] => u = v | _ => (c <= u < c')%Z end) calls ids /\ (c <= c')%Z.
Proof.
  intro H. induction calls as [|us calls IH] using rev_ind.
  - exists c, []. split; [reflexivity|]. split; [constructor | lia].
  - destruct IH as (c1 & ids & E & F & L); [intros; apply H; apply in_or_app; auto|].
    rewrite fold_left_app, E. simpl. assert (N : us <> []) by (apply H; apply in_or_app; right; left; reflexivity).
    destruct us as [|v [|w us]]; [congruence| |]; cbn [new_id bind].
    + eexists c1, _. split; [reflexivity|]. split; [|exact L]. apply Forall2_app; [exact F|]. repeat constructor.
    + eexists (c1 + 1)%Z, _. split; [reflexivity|]. split; [|lia]. apply Forall2_app.
      * clear - F. induction F as [|us u l1 l2 Hu F IH]; constructor; auto. destruct us as [|? [|? ?]]; auto; lia.
      * constructor; [lia | constructor].
Qed.

Lemma generator_calls :
  (forall index c, new_player_id index c = index) /\
  (forall us c, new_id us c = if Nat.eqb (length us) 0 then Err IndexError else if Nat.ltb 1 (length us) then Ok (c, (c + 1)%Z) else Ok (hd 0%Z us, c)) /\
  (forall calls c, Forall (fun us => us <> []) calls -> exists c' ids,
     fold_left (fun acc us => '(cnt, ids) <- acc ;; '(u, cnt') <- new_id us cnt ;; Ok (cnt', ids ++ [u])) calls (Ok (c, [])) = Ok (c', ids) /\
     Forall2 (fun us u => match us with [v] => u = v | _ => (c <= u < c')%Z end) calls ids /\ (c <= c')%Z).
Proof.
  split; [reflexivity|]. split; [intros [|u [|v us]] c; reflexivity|]. intros calls c H. apply gen_calls_sequential, Forall_forall, H.
Qed.
Lemma shared_counter : exists (index1 index2 : Z) (us1 us2 : list Z) (u1 u2 c1 c3 : Z),
    let c0 := new_player_id index1 0 in
    new_id us1 c0 = Ok (u1, c1) /\
    let c2 := new_player_id index2 c1 in
    new_id us2 c2 = Ok (u2, c3) /\
    (length us1 > 1)%nat /\ (length us2 > 1)%nat /\ us1 <> us2 /\ u1 = u2.
Proof.
  exists 6%Z, 6%Z, [0; 1]%Z, [2; 4]%Z, 6%Z, 6%Z, 7%Z, 7%Z. simpl. repeat split; try lia. discriminate.
Qed.
