(** Merging and splitting of bids with infinite and NaN prices. *)
From Verif Require Import QcTac Num NumFacts ListFacts ModelBase ModelHuang ModelMerge ModelAny ModelWild ModelWildMarket Spec SpecWild MergeFacts WildTop.

Lemma neqb_eq a b : neqb a b = true <-> a = b /\ a <> NaN.
Proof.
  destruct a as [x| | |], b as [y| | |]; cbn; split; intro H; try discriminate; try (destruct H; congruence); try (split; [reflexivity | discriminate]); auto.
  - apply qeqb_eq in H. subst. split; [reflexivity | discriminate].
  - destruct H as [H _]. injection H as ->. apply qeqb_eq. reflexivity.
Qed.
Lemma n_insert_In x y l : x <> NaN -> In y (n_insert x l) <-> y = x \/ In y l.
Proof.
  intro Hx. induction l as [|a l IH]; cbn; [intuition|]. destruct (nltb x a); cbn; [intuition|].
  destruct (neqb x a) eqn:E; cbn; [apply neqb_eq in E; destruct E as [-> _]; intuition|]. rewrite IH. intuition.
Qed.
Lemma n_insert_sorted x l : x <> NaN -> Forall ok l -> StronglySorted nlt l -> StronglySorted nlt (n_insert x l) /\ Forall ok (n_insert x l).
Proof.
  intros Hx O. induction 1 as [|a l H IH Ha]; cbn; [repeat constructor; exact Hx|]. inversion O as [|? ? Oa Ol]; subst.
  destruct (nltb x a) eqn:L.
  - split; [|constructor; assumption]. constructor; [constructor; assumption|]. constructor; [exact L|]. rewrite Forall_forall in *. intros y Hy. apply (nlt_trans x a y L (Ha y Hy)).
  - destruct (neqb x a) eqn:E; [split; [constructor|]; assumption|]. destruct (IH Ol) as [I1 I2]. split; [|constructor; assumption]. constructor; [exact I1|].
    rewrite Forall_forall in *. intros y Hy. apply (n_insert_In x y l Hx) in Hy. destruct Hy as [->|Hy]; [|apply Ha, Hy].
    unfold nlt. destruct x as [x| | |], a as [a| | |]; cbn [nltb neqb] in *; try discriminate; try reflexivity; try (exfalso; apply Oa; reflexivity); try (exfalso; apply Hx; reflexivity).
    destruct (qlt_spec a x) as [C|C]; [reflexivity|]. exfalso. destruct (qlt_spec x a) as [D|D]; [discriminate L|]. apply qeqb_neq in E. apply E. qlra.
Qed.
Lemma n_keys_In k l : In k (n_keys l) <-> In k l /\ k <> NaN.
Proof.
  induction l as [|a l IH]; cbn; [tauto|]. destruct a as [x| | |]; try (rewrite n_insert_In by discriminate; rewrite IH; split; [intros [->|[A B]]; [split; [auto | discriminate] | auto] | intros [[->|A] B]; auto]).
  rewrite IH. split; [intros [A B]; auto | intros [[<-|A] B]; [congruence | auto]].
Qed.
Lemma n_keys_sorted l : StronglySorted nlt (n_keys l) /\ Forall ok (n_keys l).
Proof. induction l as [|a l [A B]]; cbn; [repeat constructor|]. destruct a as [x| | |]; try (apply n_insert_sorted; [discriminate | assumption | assumption]). auto. Qed.
Lemma n_keys_NoDup l : NoDup (n_keys l).
Proof.
  destruct (n_keys_sorted l) as [S _]. induction S as [|a l' H IH Ha]; constructor; auto. intro I. rewrite Forall_forall in Ha. apply (nlt_irrefl a), Ha, I.
Qed.

Definition wgrp (side : wdf) (k : num) : wdf := filter (fun x => neqb (n_round 5 (w_price x)) k) side.
Definition went (side : wdf) (b : bool) (k : num) (rm : wrow * list nat) : Prop :=
  w_price (fst rm) = k /\ w_qty (fst rm) = qsumf w_qty (wgrp side k) /\ w_buying (fst rm) = b /\ snd rm = map w_lbl (wgrp side k).

Lemma qsum_map_f {A} (f : A -> Qc) l : qsum (map f l) = qsumf f l.
Proof. reflexivity. Qed.

Lemma w_merge_groups_spec smp side b keys g cnt :
  (forall x, In x side -> w_buying x = b) -> (forall k, In k keys -> wgrp side k <> []) ->
  exists l cnt', w_merge_groups 5 smp side keys g cnt = Ok (l, (g + length keys)%nat, cnt') /\ Forall2 (went side b) keys l /\
    map w_lbl (map fst l) = seq g (length keys).
Proof.
  intro Hb. revert g cnt. induction keys as [|k keys IH]; intros g cnt Hne.
  - exists [], cnt. cbn. rewrite Nat.add_0_r. repeat split; constructor.
  - cbn [w_merge_groups]. change (filter (fun x => neqb (n_round 5 (w_price x)) k) side) with (wgrp side k).
    assert (Hk : wgrp side k <> []) by (apply Hne; left; reflexivity).
    assert (N : exists u c1, new_id (map w_user (wgrp side k)) cnt = Ok (u, c1)) by (destruct (wgrp side k) as [|x [|y r]]; [congruence|cbn; eauto|cbn; eauto]).
    destruct N as (u & c1 & EN). rewrite EN. cbn [bind].
    assert (EB : sample smp (3 * g) (map w_buying (wgrp side k)) true = b).
    { pose proof (sample_in smp (3 * g) (map w_buying (wgrp side k)) true) as S.
      assert (I : In (sample smp (3 * g) (map w_buying (wgrp side k)) true) (map w_buying (wgrp side k))) by (apply S; destruct (wgrp side k); [congruence | discriminate]).
      apply in_map_iff in I. destruct I as (x & <- & Hx). apply filter_In in Hx. apply Hb; tauto. }
    destruct (IH (Datatypes.S g) c1) as (l & cnt' & E & F & Lb); [intros k' Hk'; apply Hne; right; exact Hk'|].
    rewrite E. cbn [bind]. eexists _, cnt'. split; [f_equal; f_equal; f_equal; cbn; lia|]. split.
    + constructor; [|exact F]. repeat split; cbn [fst snd w_price w_qty w_buying]; auto.
    + cbn [map fst w_lbl length seq]. rewrite Lb. reflexivity.
Qed.
Lemma w_side_keys_grp side k : In k (w_side_keys 5 side) -> wgrp side k <> [].
Proof.
  unfold w_side_keys. rewrite n_keys_In, in_map_iff. intros [(x & E & Hx) Hk] Z.
  assert (I : In x (wgrp side k)) by (apply filter_In; split; [exact Hx | apply neqb_eq; split; congruence]). rewrite Z in I. contradiction.
Qed.
Lemma F2_len {A B} (R : A -> B -> Prop) l l' : Forall2 R l l' -> length l = length l'.
Proof. induction 1; cbn; congruence. Qed.
Lemma w_merge_ok smp d cnt : exists mb ms c, w_merge 5 smp d cnt = Ok (map fst (mb ++ ms), map snd (mb ++ ms), c) /\
  Forall2 (went (w_buyers d) true) (w_side_keys 5 (w_buyers d)) mb /\ Forall2 (went (w_sellers d) false) (w_side_keys 5 (w_sellers d)) ms /\
  map w_lbl (map fst (mb ++ ms)) = seq 0 (length (mb ++ ms)).
Proof.
  unfold w_merge. cbv zeta.
  destruct (w_merge_groups_spec smp (w_buyers d) true (w_side_keys 5 (w_buyers d)) 0 (new_player_id (w_user_max d + 1)%Z cnt)) as (mb & c1 & E1 & F1 & L1).
  { intros x Hx. apply filter_In in Hx. tauto. } { apply w_side_keys_grp. }
  rewrite E1. cbn [bind].
  destruct (w_merge_groups_spec smp (w_sellers d) false (w_side_keys 5 (w_sellers d)) (0 + length (w_side_keys 5 (w_buyers d))) c1) as (ms & c2 & E2 & F2 & L2).
  { intros x Hx. apply filter_In in Hx. destruct Hx as [_ Hx]. apply negb_true_iff in Hx. exact Hx. } { apply w_side_keys_grp. }
  rewrite E2. cbn [bind]. exists mb, ms, c2. split; [reflexivity|]. split; [exact F1|]. split; [exact F2|].
  rewrite !map_app, L1, L2, app_length. apply F2_len in F1, F2. rewrite <- F1, <- F2. symmetry. apply seq_app.
Qed.

(** ** Sums over the groups *)
Lemma sum_pick (v : Qc) a keys : a <> NaN -> NoDup keys -> qsumf (fun k => if neqb a k then v else 0) keys = if existsb (neqb a) keys then v else 0.
Proof.
  intro Ha. induction 1 as [|k keys Hk H IH]; [reflexivity|]. rewrite qsumf_cons. cbn [existsb]. rewrite IH. destruct (neqb a k) eqn:E; cbn [orb]; [|ring].
  apply neqb_eq in E. destruct E as [<- _].
  destruct (existsb (neqb a) keys) eqn:X; [|ring]. apply existsb_exists in X. destruct X as (z & Hz & Ez). apply neqb_eq in Ez. destruct Ez as [<- _]. contradiction.
Qed.
Lemma group_sum (f : num -> bool) side keys : NoDup keys -> (forall x, In x side -> not_nan x = true -> In (n_round 5 (w_price x)) keys) ->
  qsumf (fun k => if f k then qsumf w_qty (wgrp side k) else 0) keys = qsumf w_qty (filter (fun x => not_nan x && f (n_round 5 (w_price x))) side).
Proof.
  intros N. induction side as [|x side IH]; intro H.
  - cbn [filter]. rewrite qsumf_nil. transitivity (qsumf (fun _ : num => 0) keys); [apply qsumf_ext; intros k _; destruct (f k); reflexivity|].
    clear. induction keys as [|k ks I]; [reflexivity|]. rewrite qsumf_cons, I. ring.
  - transitivity (qsumf (fun k => (if neqb (n_round 5 (w_price x)) k then (if f (n_round 5 (w_price x)) then w_qty x else 0) else 0) + (if f k then qsumf w_qty (wgrp side k) else 0)) keys).
    { apply qsumf_ext. intros k _. unfold wgrp at 1. cbn [filter]. fold (wgrp side k). destruct (neqb (n_round 5 (w_price x)) k) eqn:E.
      - apply neqb_eq in E. destruct E as [<- _]. destruct (f (n_round 5 (w_price x))); [rewrite qsumf_cons; reflexivity | ring].
      - destruct (f k); ring. }
    assert (P : forall (u v : num -> Qc) ks, qsumf (fun k => u k + v k) ks = qsumf u ks + qsumf v ks).
    { intros u v ks. induction ks as [|k ks I]; [cbn; ring|]. rewrite !qsumf_cons, I. ring. }
    rewrite P, IH by (intros y Hy; apply H; right; exact Hy). cbn [filter].
    destruct (not_nan x) eqn:Nx.
    + assert (O : n_round 5 (w_price x) <> NaN) by (unfold not_nan in Nx; destruct (w_price x); cbn; congruence).
      rewrite sum_pick by assumption. replace (existsb (neqb (n_round 5 (w_price x))) keys) with true.
      2:{ symmetry. apply existsb_exists. exists (n_round 5 (w_price x)). split; [apply H; [left; reflexivity | exact Nx] | apply neqb_eq; auto]. }
      cbn [andb]. destruct (f (n_round 5 (w_price x))); [rewrite qsumf_cons; reflexivity | ring].
    + cbn [andb]. unfold not_nan in Nx. destruct (w_price x); try discriminate. cbn [n_round neqb].
      transitivity (0 + qsumf w_qty (filter (fun x0 : wrow => not_nan x0 && f (n_round 5 (w_price x0))) side)); [f_equal | ring].
      clear. induction keys as [|k ks I]; [reflexivity|]. rewrite qsumf_cons, I. ring.
Qed.
Lemma entries_sum (f : num -> bool) side b keys l : Forall2 (went side b) keys l ->
  qsumf w_qty (filter (fun r => f (w_price r)) (map fst l)) = qsumf (fun k => if f k then qsumf w_qty (wgrp side k) else 0) keys.
Proof.
  induction 1 as [|k rm keys l (E1 & E2 & _ & _) F IH]; [reflexivity|]. cbn [map filter]. rewrite qsumf_cons, E1, <- IH.
  destruct (f k); [rewrite qsumf_cons, E2; reflexivity | ring].
Qed.
Lemma side_sum (f : num -> bool) side b l : Forall2 (went side b) (w_side_keys 5 side) l ->
  qsumf w_qty (filter (fun r => f (w_price r)) (map fst l)) = qsumf w_qty (filter (fun x => not_nan x && f (n_round 5 (w_price x))) side).
Proof.
  intro F. rewrite (entries_sum f side b _ l F). apply group_sum; [apply n_keys_NoDup|]. intros x Hx Nx. apply n_keys_In. split; [apply in_map_iff; eauto|].
  unfold not_nan in Nx. destruct (w_price x); cbn; congruence.
Qed.

(** ** The merged table *)
Lemma entries_buying side b keys l : Forall2 (went side b) keys l -> forall r, In r (map fst l) -> w_buying r = b.
Proof. intros F r Hr. apply in_map_iff in Hr. destruct Hr as (rm & <- & Hr). destruct (Forall2_in_r _ _ _ _ F Hr) as (k & _ & _ & _ & E & _). exact E. Qed.
Lemma filter_all {A} (p : A -> bool) l : (forall x, In x l -> p x = true) -> filter p l = l.
Proof. induction l as [|x l IH]; intro H; [reflexivity|]. cbn. rewrite (H x) by (left; reflexivity). f_equal. apply IH. intros y Hy. apply H. right. exact Hy. Qed.
Lemma filter_nil {A} (p : A -> bool) l : (forall x, In x l -> p x = false) -> filter p l = [].
Proof. induction l as [|x l IH]; intro H; [reflexivity|]. cbn. rewrite (H x) by (left; reflexivity). apply IH. intros y Hy. apply H. right. exact Hy. Qed.

Section Merged.
  Variable d : wdf.
  Variables mb ms : list (wrow * list nat).
  Hypothesis Fb : Forall2 (went (w_buyers d) true) (w_side_keys 5 (w_buyers d)) mb.
  Hypothesis Fs : Forall2 (went (w_sellers d) false) (w_side_keys 5 (w_sellers d)) ms.
  Notation nd := (map fst (mb ++ ms)).

  Lemma m_buyers : w_buyers nd = map fst mb.
  Proof.
    unfold w_buyers. rewrite map_app, filter_app, filter_all by (apply (entries_buying _ _ _ _ Fb)).
    rewrite filter_nil by (apply (entries_buying _ _ _ _ Fs)). apply app_nil_r.
  Qed.
  Lemma m_sellers : w_sellers nd = map fst ms.
  Proof.
    unfold w_sellers. rewrite map_app, filter_app, filter_nil by (intros x Hx; rewrite (entries_buying _ _ _ _ Fb x Hx); reflexivity).
    rewrite filter_all by (intros x Hx; rewrite (entries_buying _ _ _ _ Fs x Hx); reflexivity). reflexivity.
  Qed.
  Lemma filter_filter' {A} (p q : A -> bool) l : filter p (filter q l) = filter (fun x => q x && p x) l.
  Proof. induction l as [|x l IH]; [reflexivity|]. cbn. destruct (q x); cbn; [destruct (p x)|]; rewrite IH; reflexivity. Qed.

  Lemma m_wanted_any : wanted_at_any_price nd = wanted_at_any_price d.
  Proof.
    unfold wanted_at_any_price. rewrite <- (filter_filter' at_any_price w_buying nd). fold (w_buyers nd). rewrite m_buyers.
    etransitivity; [exact (side_sum (fun p => match p with PInf => true | _ => false end) _ _ _ Fb)|]. unfold w_buyers. rewrite filter_filter'.
    f_equal. apply filter_ext. intro x. unfold at_any_price, not_nan. destruct (w_price x); reflexivity.
  Qed.
  Lemma m_offered : offered nd = offered (filter not_nan d).
  Proof.
    unfold offered. change (filter (fun x => negb (w_buying x)) nd) with (w_sellers nd). rewrite m_sellers.
    rewrite <- (filter_all (fun r => true) (map fst ms)) by reflexivity.
    etransitivity; [exact (side_sum (fun _ => true) _ _ _ Fs)|]. unfold w_sellers. rewrite !filter_filter'. f_equal. apply filter_ext. intro x. destruct (w_buying x), (not_nan x); reflexivity.
  Qed.

  (** a merged row and its bids *)
  Lemma m_row i r rows : nth_error nd i = Some r -> nth_error (map snd (mb ++ ms)) i = Some rows ->
    exists rs, rows = map w_lbl rs /\ rs <> [] /\ (forall x, In x rs -> In x d /\ w_buying x = w_buying r /\ n_round 5 (w_price x) = w_price r) /\
      w_qty r = qsumf w_qty rs /\ w_price r <> NaN /\ rs = wgrp (filter (fun x => Bool.eqb (w_buying x) (w_buying r)) d) (w_price r).
  Proof.
    intros E1 E2.
    assert (X : forall side b l, side = filter (fun x => Bool.eqb (w_buying x) b) d -> Forall2 (went side b) (w_side_keys 5 side) l -> forall j, nth_error (map fst l) j = Some r -> nth_error (map snd l) j = Some rows ->
      exists rs, rows = map w_lbl rs /\ rs <> [] /\ (forall x, In x rs -> In x d /\ w_buying x = w_buying r /\ n_round 5 (w_price x) = w_price r) /\ w_qty r = qsumf w_qty rs /\ w_price r <> NaN /\
        rs = wgrp (filter (fun x => Bool.eqb (w_buying x) (w_buying r)) d) (w_price r)).
    { intros side b l Es F j J1 J2. rewrite nth_error_map in J1, J2. destruct (nth_error l j) as [rm|] eqn:Ej; [|discriminate]. cbn in J1, J2. injection J1 as <-. injection J2 as <-.
      destruct (Forall2_nth _ _ _ _ _ F Ej) as (k & Hk & K1 & K2 & K3 & K4). exists (wgrp side k). split; [exact K4|]. apply nth_error_In in Hk.
      split; [apply w_side_keys_grp, Hk|]. split; [|split; [exact K2|split]].
      - intros x Hx. apply filter_In in Hx. destruct Hx as [Hx Kx]. apply neqb_eq in Kx. destruct Kx as [Kx _]. rewrite Es in Hx. apply filter_In in Hx. destruct Hx as [Hx Hb].
        apply Bool.eqb_prop in Hb. rewrite K1, K3. auto.
      - rewrite K1. unfold w_side_keys in Hk. apply n_keys_In in Hk. tauto.
      - rewrite K1, K3, <- Es. reflexivity. }
    rewrite map_app in E1, E2.
    assert (Eb : w_buyers d = filter (fun x => Bool.eqb (w_buying x) true) d) by (apply filter_ext; intro x; destruct (w_buying x); reflexivity).
    assert (El : w_sellers d = filter (fun x => Bool.eqb (w_buying x) false) d) by (apply filter_ext; intro x; destruct (w_buying x); reflexivity).
    destruct (Nat.lt_ge_cases i (length mb)) as [L|L].
    - rewrite nth_error_app1 in E1, E2 by (rewrite map_length; exact L). apply (X _ true mb Eb Fb i E1 E2).
    - rewrite nth_error_app2 in E1, E2 by (rewrite map_length; exact L). rewrite map_length in E1, E2. apply (X _ false ms El Fs _ E1 E2).
  Qed.
  Lemma m_row_in r : In r nd -> exists i, nth_error nd i = Some r /\ exists rows, nth_error (map snd (mb ++ ms)) i = Some rows.
  Proof.
    intro H. apply In_nth_error in H. destruct H as (i & E). exists i. split; [exact E|]. rewrite nth_error_map in *. destruct (nth_error (mb ++ ms) i); [cbn; eauto | discriminate].
  Qed.
  Lemma m_qty_pos : w_qty_pos d -> w_qty_pos nd.
  Proof.
    intros H r Hr. destruct (m_row_in r Hr) as (i & E1 & rows & E2). destruct (m_row i r rows E1 E2) as (rs & _ & Ne & In_ & -> & _).
    destruct rs as [|x rs]; [congruence|]. rewrite qsumf_cons. assert (0 < w_qty x) by (apply H, In_; left; reflexivity).
    assert (0 <= qsumf w_qty rs) by (apply qsumf_nonneg; intros y Hy; apply Qclt_le_weak, H, In_; right; exact Hy). qlra.
  Qed.
End Merged.
