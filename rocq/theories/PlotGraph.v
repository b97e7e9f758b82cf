(** The graph of trades. *)
From Verif Require Import QcTac Num NumFacts ListFacts ModelBase ModelCurves ModelHuang ModelPlot Spec SpecTrade SpecPlot.

Lemma node_eqb_eq a b : node_eqb a b = true <-> a = b.
Proof. destruct a as [x|], b as [y|]; simpl; split; intro H; try discriminate; try reflexivity; [apply Z.eqb_eq in H; congruence | apply Z.eqb_eq; congruence]. Qed.
Lemma edge_eqb_eq a b : edge_eqb a b = true <-> a = b.
Proof.
  destruct a as [a1 a2], b as [b1 b2]. unfold edge_eqb. rewrite andb_true_iff, !node_eqb_eq. simpl. split; [intros [-> ->]; reflexivity | intro E; injection E; auto].
Qed.
Lemma has_key_in k l : has_key k l = true <-> In k (map fst l).
Proof.
  unfold has_key. rewrite existsb_exists, in_map_iff. split.
  - intros (e & H1 & H2). apply edge_eqb_eq in H2. exists e. auto.
  - intros (e & H1 & H2). exists e. split; [exact H2 | apply edge_eqb_eq; congruence].
Qed.
Lemma has_key_out k l : has_key k l = false <-> ~ In k (map fst l).
Proof. rewrite <- has_key_in. destruct (has_key k l); split; intro H; congruence. Qed.
Lemma dict_put_new k v l : ~ In k (map fst l) -> dict_put k v l = l ++ [(k, v)].
Proof.
  induction l as [|e l IH]; intro H; [reflexivity|]. cbn [dict_put app]. destruct (edge_eqb k (fst e)) eqn:E.
  - exfalso. apply H. left. apply edge_eqb_eq in E. congruence.
  - rewrite IH; [reflexivity|]. intro I. apply H. right. exact I.
Qed.
Lemma to_dict_nodup_from : forall rows acc, NoDup (map fst (acc ++ rows)) -> fold_left (fun acc e => dict_put (fst e) (snd e) acc) rows acc = acc ++ rows.
Proof.
  induction rows as [|e rows IH]; intros acc H; cbn [fold_left]; [symmetry; apply app_nil_r|].
  rewrite dict_put_new.
  - rewrite <- surjective_pairing. rewrite IH; [rewrite <- app_assoc; reflexivity | rewrite <- app_assoc; exact H].
  - rewrite map_app in H. cbn [map] in H. apply NoDup_remove_2 in H. intro I. apply H, in_or_app. left; exact I.
Qed.
Lemma to_dict_nodup rows : NoDup (map fst rows) -> to_dict rows = rows.
Proof. intro H. unfold to_dict. apply (to_dict_nodup_from rows []). exact H. Qed.

Section Graph.
  Variable d : df.
  Hypothesis Hu : labels_unique d.
  Lemma user_found x : In x d -> user_of d (Z.of_nat (lbl x)) = Some (user x).
  Proof.
    intro Hx. unfold user_of. destruct (find _ d) as [y|] eqn:E.
    - apply find_some in E. destruct E as [Hy E]. apply Z.eqb_eq, Nat2Z.inj in E. rewrite (NoDup_map_in lbl d y x Hu Hy Hx E). reflexivity.
    - exfalso. apply (find_none _ _ E) in Hx. rewrite Z.eqb_refl in Hx. discriminate.
  Qed.
  Hypothesis Hn : NoDup (map user d).
  Definition is_meeting (p : nat * nat) : Prop := exists x y, In x d /\ In y d /\ buying x = true /\ buying y = false /\ fst p = lbl x /\ snd p = lbl y.
  Definition key (p : nat * nat) : edge := (user_of d (Z.of_nat (fst p)), user_of d (Z.of_nat (snd p))).
  Lemma key_inj p q : is_meeting p -> is_meeting q -> key p = key q -> p = q.
  Proof.
    intros (x & y & Hx & Hy & _ & _ & E1 & E2) (x' & y' & Hx' & Hy' & _ & _ & E1' & E2'). unfold key. rewrite E1, E2, E1', E2'.
    rewrite !user_found by assumption. intro E. injection E as U1 U2.
    assert (x = x') by (apply (NoDup_map_in user d); auto). assert (y = y') by (apply (NoDup_map_in user d); auto).
    destruct p, q; simpl in *; congruence.
  Qed.
  Lemma key_swap p q : is_meeting p -> is_meeting q -> key p <> (snd (key q), fst (key q)).
  Proof.
    intros (x & y & Hx & Hy & Bx & By & E1 & E2) (x' & y' & Hx' & Hy' & Bx' & By' & E1' & E2'). unfold key. simpl. rewrite E1, E2, E1', E2'.
    rewrite !user_found by assumption. intro E. injection E as U1 U2.
    assert (x = y') by (apply (NoDup_map_in user d); auto). subst. congruence.
  Qed.
  Lemma on_side_of x t b : In x d -> lbl x = t_bid t -> on_side b d t = Bool.eqb (buying x) b.
  Proof.
    intros Hx E. unfold on_side. destruct (existsb _ d) eqn:Ex.
    - apply existsb_exists in Ex. destruct Ex as (y & Hy & H). apply andb_true_iff in H. destruct H as [H1 H2]. apply Nat.eqb_eq in H1.
      rewrite (NoDup_map_in lbl d x y Hu Hx Hy) by congruence. symmetry; exact H2.
    - destruct (Bool.eqb (buying x) b) eqn:Eb; [|reflexivity]. exfalso.
      assert (T : existsb (fun r => Nat.eqb (lbl r) (t_bid t) && Bool.eqb (buying r) b) d = true); [|congruence].
      apply existsb_exists. exists x. split; [exact Hx|]. rewrite Eb, andb_true_r. apply Nat.eqb_eq, E.
  Qed.
  Definition lab (t : trans) : edge * Qc := ((user_of d (Z.of_nat (t_bid t)), user_of d (t_source t)), t_qty t).
  Lemma rows_keys L tl : Meetings L tl -> (forall p, In p L -> is_meeting p) -> forall k, In k (map fst (edge_rows d tl)) ->
    exists p, In p L /\ (k = key p \/ k = (snd (key p), fst (key p))).
  Proof.
    induction 1 as [|b s L tb ts tl E1 E2 S1 S2 Q P M IH]; intros Hm k Hk; [contradiction|].
    cbn [edge_rows map fst] in Hk. rewrite E1, E2, S1, S2 in Hk. destruct Hk as [<-|[<-|Hk]].
    - exists (b, s). split; [left; reflexivity | left; reflexivity].
    - exists (b, s). split; [left; reflexivity | right; reflexivity].
    - destruct (IH (fun p Hp => Hm p (or_intror Hp)) k Hk) as (p & Hp & K). exists p. split; [right; exact Hp | exact K].
  Qed.
  Lemma rows_nodup L tl : Meetings L tl -> (forall p, In p L -> is_meeting p) -> NoDup L -> NoDup (map fst (edge_rows d tl)).
  Proof.
    induction 1 as [|b s L tb ts tl E1 E2 S1 S2 Q P M IH]; intros Hm ND; [constructor|].
    inversion_clear ND as [|? ? N1 N2]. assert (Hm' : forall p, In p L -> is_meeting p) by (intros p Hp; apply Hm; right; exact Hp).
    assert (Mb : is_meeting (b, s)) by (apply Hm; left; reflexivity).
    cbn [edge_rows map fst]. rewrite E1, E2, S1, S2. constructor.
    - intros [K|K]; [apply (key_swap (b, s) (b, s) Mb Mb); symmetry; exact K|].
      destruct (rows_keys L tl M Hm' _ K) as (p & Hp & [K'|K']).
      + apply N1. rewrite (key_inj (b, s) p Mb (Hm' p Hp) K'). exact Hp.
      + apply (key_swap (b, s) p Mb (Hm' p Hp)). exact K'.
    - constructor; [|apply IH; assumption]. intro K.
      destruct (rows_keys L tl M Hm' _ K) as (p & Hp & [K'|K']).
      + apply (key_swap p (b, s) (Hm' p Hp) Mb). symmetry. exact K'.
      + apply N1. rewrite (key_inj (b, s) p Mb (Hm' p Hp)); [exact Hp|]. unfold key in *. simpl in K'. injection K' as K1 K2. simpl. congruence.
  Qed.
  Definition keep (acc : labels) (e : edge * Qc) : labels :=
    let '((x, y), v) := e in if negb (has_key (x, y) acc) && negb (has_key (y, x) acc) then dict_put (x, y) v acc else acc.
  Lemma keep_rows L tl : Meetings L tl -> forall L0 acc, (forall p, In p (L0 ++ L) -> is_meeting p) -> NoDup (L0 ++ L) -> map fst acc = map key L0 ->
    fold_left keep (edge_rows d tl) acc = acc ++ map lab (filter (on_side true d) tl).
  Proof.
    induction 1 as [|b s L tb ts tl E1 E2 S1 S2 Q P M IH]; intros L0 acc Hm ND Ea; [simpl; symmetry; apply app_nil_r|].
    assert (Mb : is_meeting (b, s)) by (apply Hm, in_or_app; right; left; reflexivity).
    assert (Nb : ~ In (b, s) L0) by (apply NoDup_remove_2 in ND; intro I; apply ND, in_or_app; left; exact I).
    assert (A1 : ~ In (key (b, s)) (map fst acc)).
    { rewrite Ea. intro I. apply in_map_iff in I. destruct I as (p & K & Hp). apply Nb. rewrite <- (key_inj p (b, s)); [exact Hp| |exact Mb|exact K].
      apply Hm, in_or_app; left; exact Hp. }
    assert (A2 : ~ In (snd (key (b, s)), fst (key (b, s))) (map fst acc)).
    { rewrite Ea. intro I. apply in_map_iff in I. destruct I as (p & K & Hp). apply (key_swap p (b, s)); [|exact Mb|exact K]. apply Hm, in_or_app; left; exact Hp. }
    destruct Mb as (x & y & Hx & Hy & Bx & By & F1 & F2). simpl in F1, F2.
    assert (O1 : on_side true d tb = true) by (rewrite (on_side_of x) by (auto; congruence); rewrite Bx; reflexivity).
    assert (O2 : on_side true d ts = false) by (rewrite (on_side_of y) by (auto; congruence); rewrite By; reflexivity).
    cbn [filter]. rewrite O1, O2. cbn [edge_rows map fold_left]. rewrite E1, E2, S1, S2.
    match goal with |- _ = ?g => change (fold_left keep (edge_rows d tl) (keep (keep acc (key (b, s), t_qty tb)) ((user_of d (Z.of_nat s), user_of d (Z.of_nat b)), t_qty ts)) = g) end.
    assert (K1 : keep acc (key (b, s), t_qty tb) = acc ++ [(key (b, s), t_qty tb)]).
    { unfold keep. destruct (key (b, s)) as [k1 k2] eqn:Ek. simpl in A2. rewrite (proj2 (has_key_out _ _) A1), (proj2 (has_key_out _ _) A2). cbn [negb andb].
      apply dict_put_new, A1. }
    rewrite K1.
    assert (K2 : keep (acc ++ [(key (b, s), t_qty tb)]) ((user_of d (Z.of_nat s), user_of d (Z.of_nat b)), t_qty ts) = acc ++ [(key (b, s), t_qty tb)]).
    { unfold keep. change (user_of d (Z.of_nat b), user_of d (Z.of_nat s)) with (key (b, s)).
      assert (Hk : has_key (key (b, s)) (acc ++ [(key (b, s), t_qty tb)]) = true).
      { apply has_key_in. rewrite map_app. apply in_or_app. right. left. reflexivity. }
      rewrite Hk. rewrite andb_false_r. reflexivity. }
    rewrite K2. rewrite (IH (L0 ++ [(b, s)])).
    - rewrite <- app_assoc. cbn [app map]. unfold lab at 2. rewrite E1, S1. reflexivity.
    - rewrite <- app_assoc. exact Hm.
    - rewrite <- app_assoc. exact ND.
    - rewrite !map_app, Ea. reflexivity.
  Qed.
  Lemma graph_labels L tl : Meetings L tl -> (forall p, In p L -> is_meeting p) -> NoDup L ->
    fig_labels (plot_trades_as_graph d tl) = map lab (filter (on_side true d) tl).
  Proof.
    intros M Hm ND. cbn [plot_trades_as_graph fig_labels]. unfold edge_labels. rewrite to_dict_nodup by (apply (rows_nodup L); assumption).
    change (fold_left keep (edge_rows d tl) [] = map lab (filter (on_side true d) tl)). apply (keep_rows L tl M []); auto.
  Qed.
  Lemma lab_labelled L tl : Meetings L tl -> (forall p, In p L -> is_meeting p) ->
    Forall2 (labelled d) (filter (on_side true d) tl) (map lab (filter (on_side true d) tl)).
  Proof.
    induction 1 as [|b s L tb ts tl E1 E2 S1 S2 Q P M IH]; intros Hm; [constructor|].
    destruct (Hm (b, s) (or_introl eq_refl)) as (x & y & Hx & Hy & Bx & By & F1 & F2). simpl in F1, F2.
    assert (O1 : on_side true d tb = true) by (rewrite (on_side_of x) by (auto; congruence); rewrite Bx; reflexivity).
    assert (O2 : on_side true d ts = false) by (rewrite (on_side_of y) by (auto; congruence); rewrite By; reflexivity).
    cbn [filter]. rewrite O1, O2. cbn [map]. constructor; [|apply IH; intros p Hp; apply Hm; right; exact Hp].
    exists x, y. repeat split; auto; try congruence. unfold lab. rewrite E1, S1, F1, F2, !user_found by assumption. reflexivity.
  Qed.
  Lemma labels_total tl : qsumf snd (map lab (filter (on_side true d) tl)) = bought d tl.
  Proof. unfold bought. rewrite qsumf_map. reflexivity. Qed.
End Graph.
(** two users are joined exactly when their bids met *)
Lemma graph_joins d L tl x y : labels_unique d -> NoDup (map user d) -> Meetings L tl -> (forall p, In p L -> is_meeting d p) -> In x d -> In y d ->
  (joins (fig_edges (plot_trades_as_graph d tl)) (user x) (user y) <-> met tl x y).
Proof.
  intros Hu Hn M Hm Hx Hy. cbn [plot_trades_as_graph fig_edges]. unfold joins, edge_rows. rewrite map_map. cbn [fst].
  assert (Ref : forall t, In t tl -> exists r s, In r d /\ In s d /\ t_bid t = lbl r /\ t_source t = Z.of_nat (lbl s)).
  { clear Hx Hy. induction M as [|b s L tb ts tl E1 E2 S1 S2 Q P M IH]; intros t Ht; [contradiction|].
    destruct (Hm (b, s) (or_introl eq_refl)) as (r & r' & Hr & Hr' & _ & _ & F1 & F2). simpl in F1, F2.
    destruct Ht as [<-|[<-|Ht]].
    - exists r, r'. repeat split; auto; congruence.
    - exists r', r. repeat split; auto; congruence.
    - apply IH; [intros p Hp; apply Hm; right; exact Hp | exact Ht]. }
  assert (K : forall x y, In x d -> In y d -> (In (Some (user x), Some (user y)) (map (fun t => (user_of d (Z.of_nat (t_bid t)), user_of d (t_source t))) tl) <->
    exists t, In t tl /\ t_bid t = lbl x /\ t_source t = Z.of_nat (lbl y))).
  { clear x y Hx Hy. intros x y Hx Hy. rewrite in_map_iff. split.
    - intros (t & E & Ht). destruct (Ref t Ht) as (r & s & Hr & Hs & E1 & E2). rewrite E1, E2, !user_found in E by assumption. injection E as U1 U2.
      assert (r = x) by (apply (NoDup_map_in user d); auto). assert (s = y) by (apply (NoDup_map_in user d); auto). subst. exists t. auto.
    - intros (t & Ht & E1 & E2). exists t. rewrite E1, E2, !user_found by assumption. auto. }
  rewrite (K x y Hx Hy), (K y x Hy Hx). unfold met. split.
  - intros [(t & Ht & H)|(t & Ht & H)]; exists t; auto.
  - intros (t & Ht & [H|H]); [left|right]; exists t; auto.
Qed.
