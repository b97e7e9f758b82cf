(** The labels of the graph of trades when users may have several bids. *)
From Verif Require Import QcTac Num ModelBase ModelMarket ModelPlot Spec SpecTrade SpecMuda SpecStats SpecPlot ListFacts PlotGraph.

Definition back (k : edge) : edge := (snd k, fst k).
Lemma edge_dec (a b : edge) : {a = b} + {a <> b}.
Proof. repeat decide equality. Qed.
Lemma edge_eqb_dec a b : edge_eqb a b = if edge_dec a b then true else false.
Proof.
  destruct (edge_dec a b) as [->|N]; [unfold edge_eqb; rewrite (proj2 (node_eqb_eq (fst b) (fst b))), (proj2 (node_eqb_eq (snd b) (snd b))) by reflexivity; reflexivity|].
  destruct (edge_eqb a b) eqn:E; [|reflexivity]. exfalso. apply N. unfold edge_eqb in E. apply andb_true_iff in E. destruct E as [E1 E2].
  apply node_eqb_eq in E1, E2. destruct a, b; cbn in *; congruence.
Qed.
Lemma has_key_in k l : has_key k l = true <-> In k (map fst l).
Proof.
  unfold has_key. rewrite existsb_exists, in_map_iff. split.
  - intros (e & He & E). rewrite edge_eqb_dec in E. destruct (edge_dec k (fst e)); [|discriminate]. exists e. auto.
  - intros (e & <- & He). exists e. split; [exact He|]. rewrite edge_eqb_dec. destruct (edge_dec (fst e) (fst e)); congruence.
Qed.
Lemma has_key_out k l : has_key k l = false <-> ~ In k (map fst l).
Proof. rewrite <- has_key_in. destruct (has_key k l); split; congruence. Qed.
Lemma put_new k v l : ~ In k (map fst l) -> dict_put k v l = l ++ [(k, v)].
Proof.
  induction l as [|e l IH]; intro H; [reflexivity|]. cbn [dict_put app map] in *. rewrite edge_eqb_dec. destruct (edge_dec k (fst e)) as [->|N]; [exfalso; apply H; left; reflexivity|].
  rewrite IH; [reflexivity|]. intro; apply H; right; assumption.
Qed.
Lemma put_old k v l : In k (map fst l) -> NoDup (map fst l) -> map fst (dict_put k v l) = map fst l /\ forall j w, In (j, w) (dict_put k v l) <-> (j = k /\ w = v) \/ (j <> k /\ In (j, w) l).
Proof.
  induction l as [|[a b] l IH]; intros H N; [destruct H|]. cbn [dict_put map fst] in *. inversion N as [|? ? N1 N2]; subst. rewrite edge_eqb_dec. destruct (edge_dec k a) as [->|Ne].
  - split; [reflexivity|]. intros j w. cbn [In]. split.
    + intros [E|E]; [injection E as <- <-; auto|]. right. split; [|auto]. intros ->. apply N1. change a with (fst (a, w)). apply in_map, E.
    + intros [[-> ->]|[Nj [E|E]]]; [auto | injection E as -> ->; congruence | auto].
  - destruct H as [->|H]; [congruence|]. destruct (IH H N2) as [I1 I2]. split; [cbn [map fst]; rewrite I1; reflexivity|]. intros j w. cbn [In]. rewrite I2. split.
    + intros [E|[E|E]]; [injection E as <- <-; right; split; [congruence|auto] | auto | tauto].
    + intros [E|[E [E'|E']]]; auto.
Qed.

(** the dictionary made from the rows *)
Lemma to_dict_snoc rows e : to_dict (rows ++ [e]) = dict_put (fst e) (snd e) (to_dict rows).
Proof. unfold to_dict. rewrite fold_left_app. reflexivity. Qed.
Lemma to_dict_keys rows : NoDup (map fst (to_dict rows)) /\ forall k, In k (map fst (to_dict rows)) <-> In k (map fst rows).
Proof.
  induction rows as [|[k v] rows [N I]] using rev_ind; [split; [constructor|intro; tauto]|]. rewrite to_dict_snoc. cbn [fst snd].
  assert (J : forall j, In j (map fst (rows ++ [(k, v)])) <-> In j (map fst rows) \/ j = k) by (intro j; rewrite map_app, in_app_iff; cbn; intuition congruence).
  destruct (has_key k (to_dict rows)) eqn:H; [apply has_key_in in H | apply has_key_out in H].
  - destruct (put_old k v _ H N) as [-> _]. split; [exact N|]. intro j. rewrite J, I. split; [auto|]. intros [?| ->]; [assumption|]. apply I, H.
  - rewrite put_new by exact H. rewrite map_app. split.
    + apply NoDup_app_intro; [exact N | repeat constructor; intros [] |]. intros x Hx [<-|[]]. exact (H Hx).
    + intro j. rewrite J, in_app_iff, I. cbn. intuition congruence.
Qed.
Lemma split_snoc {X} (l : list X) e a x b : l ++ [e] = a ++ x :: b -> (b = [] /\ a = l /\ x = e) \/ exists b', b = b' ++ [e] /\ l = a ++ x :: b'.
Proof.
  intro E. destruct b as [|y b] using rev_ind.
  - left. apply app_inj_tail in E. destruct E. auto.
  - right. exists b. change (a ++ x :: b ++ [y]) with (a ++ (x :: b) ++ [y]) in E. rewrite app_assoc in E. apply app_inj_tail in E. destruct E as [-> ->]. auto.
Qed.
Lemma to_dict_last rows k v : In (k, v) (to_dict rows) <-> exists a b, rows = a ++ (k, v) :: b /\ ~ In k (map fst b).
Proof.
  revert k v. induction rows as [|[k0 v0] rows IH] using rev_ind; intros k v; [split; [intros []|intros (a & b & E & _); destruct a; discriminate]|].
  rewrite to_dict_snoc. cbn [fst snd]. destruct (to_dict_keys rows) as [N I].
  assert (Q : In (k, v) (dict_put k0 v0 (to_dict rows)) <-> (k = k0 /\ v = v0) \/ (k <> k0 /\ In (k, v) (to_dict rows))).
  { destruct (has_key k0 (to_dict rows)) eqn:H; [apply has_key_in in H; apply (put_old k0 v0 _ H N) | apply has_key_out in H].
    rewrite put_new by exact H. rewrite in_app_iff. cbn. split.
    - intros [E|[E|[]]]; [right; split; [|exact E]; intros ->; apply H; change k0 with (fst (k0, v)); apply in_map, E | injection E as -> ->; auto].
    - intros [[-> ->]|[_ E]]; auto. }
  rewrite Q, IH. clear Q. split.
  - intros [[-> ->]|[Ne (a & b & -> & Nb)]]; [exists rows, []; split; [reflexivity|intros []]|]. exists a, (b ++ [(k0, v0)]). split; [rewrite <- app_assoc; reflexivity|].
    rewrite map_app, in_app_iff. cbn. intuition congruence.
  - intros (a & b & E & Nb). apply split_snoc in E. destruct E as [(-> & -> & E)|(b' & -> & ->)]; [injection E as <- <-; auto|].
    rewrite map_app, in_app_iff in Nb. cbn in Nb. right. split; [intros ->; apply Nb; auto|]. exists a, b'. split; [reflexivity|]. tauto.
Qed.
Lemma to_dict_order rows j k : (exists a b, map fst (to_dict rows) = a ++ k :: b /\ ~ In j a) <-> (exists a b, map fst rows = a ++ k :: b /\ ~ In j a /\ ~ In k a).
Proof.
  induction rows as [|[k0 v0] rows IH] using rev_ind; [split; intros (a & b & E & _); destruct a; discriminate|].
  rewrite to_dict_snoc. cbn [fst snd]. destruct (to_dict_keys rows) as [N I]. rewrite map_app. cbn [map fst].
  assert (Up : (exists a b, map fst rows = a ++ k :: b /\ ~ In j a /\ ~ In k a) -> exists a b, map fst rows ++ [k0] = a ++ k :: b /\ ~ In j a /\ ~ In k a).
  { intros (a & b & E & H). exists a, (b ++ [k0]). split; [rewrite E, <- app_assoc; reflexivity | exact H]. }
  destruct (has_key k0 (to_dict rows)) eqn:H; [apply has_key_in in H | apply has_key_out in H].
  - destruct (put_old k0 v0 _ H N) as [-> _]. rewrite IH. split; [exact Up|]. intros (a & b & E & Nj & Nk). apply split_snoc in E. destruct E as [(-> & -> & ->)|(b' & -> & E)].
    + exfalso. apply Nk. apply I, H.
    + exists a, b'. auto.
  - rewrite put_new by exact H. rewrite map_app. cbn [map fst]. split.
    + intros (a & b & E & Nj). apply split_snoc in E. destruct E as [(-> & -> & ->)|(b' & -> & E)].
      * exists (map fst rows), []. split; [reflexivity|]. split; intro Z; apply I in Z; [exact (Nj Z)|exact (H Z)].
      * apply Up, IH. exists a, b'. auto.
    + intros (a & b & E & Nj & Nk). apply split_snoc in E. destruct E as [(-> & -> & ->)|(b' & -> & E)].
      * exists (map fst (to_dict rows)), []. split; [reflexivity|]. intro Z. apply Nj, I, Z.
      * destruct (proj2 IH) as (c & e & F & Nc); [exists a, b'; auto|]. exists c, (e ++ [k0]). split; [rewrite F, <- app_assoc; reflexivity | exact Nc].
Qed.

(** one label per pair: the direction met first *)
Definition add_label (acc : labels) (e : edge * Qc) : labels :=
  let '((x, y), v) := e in if negb (has_key (x, y) acc) && negb (has_key (y, x) acc) then dict_put (x, y) v acc else acc.
Lemma add_label_eq acc k v : add_label acc (k, v) = if negb (has_key k acc) && negb (has_key (back k) acc) then dict_put k v acc else acc.
Proof. destruct k. reflexivity. Qed.
Lemma directions D : NoDup (map fst D) -> forall k v, In (k, v) (fold_left add_label D []) <-> exists a b, D = a ++ (k, v) :: b /\ ~ In (back k) (map fst a).
Proof.
  induction D as [|[k0 v0] D IH] using rev_ind; intros N k v; [split; [intros []|intros (a & b & E & _); destruct a; discriminate]|].
  rewrite map_app in N. cbn [map fst] in N. apply NoDup_remove in N. rewrite app_nil_r in N. destruct N as [N N0]. specialize (IH N).
  rewrite fold_left_app. cbn [fold_left]. rewrite add_label_eq. set (F := fold_left add_label D []) in *.
  assert (Sub : forall j, In j (map fst F) -> In j (map fst D)).
  { intros j Hj. apply in_map_iff in Hj. destruct Hj as ([j' w] & <- & Hj). apply IH in Hj. destruct Hj as (a & b & -> & _). rewrite map_app, in_app_iff. right. left. reflexivity. }
  assert (Old : has_key k0 F = false) by (apply has_key_out; intro Z; exact (N0 (Sub _ Z))).
  assert (Back : has_key (back k0) F = true <-> In (back k0) (map fst D)).
  { rewrite has_key_in. split; [apply Sub|]. intro Z. apply in_map_iff in Z. destruct Z as ([j w] & E & Hj). cbn in E. subst j. destruct (in_split _ _ Hj) as (a & b & E).
    apply in_map_iff. exists (back k0, w). split; [reflexivity|]. apply IH. exists a, b. split; [exact E|]. destruct k0 as [x y]. cbn [back fst snd]. intro Z. apply N0. rewrite E, map_app, in_app_iff. left. exact Z. }
  rewrite Old. cbn [negb andb].
  assert (Ext : (exists a b, D = a ++ (k, v) :: b /\ ~ In (back k) (map fst a)) -> exists a b, D ++ [(k0, v0)] = a ++ (k, v) :: b /\ ~ In (back k) (map fst a)).
  { intros (a & b & -> & H). exists a, (b ++ [(k0, v0)]). split; [rewrite <- app_assoc; reflexivity | exact H]. }
  destruct (has_key (back k0) F) eqn:Hb; cbn [negb].
  - rewrite IH. split; [exact Ext|]. intros (a & b & E & H). apply split_snoc in E. destruct E as [(-> & -> & E)|(b' & -> & ->)]; [|exists a, b'; auto].
    injection E as -> ->. exfalso. apply H. apply Back. reflexivity.
  - rewrite put_new by (apply has_key_out; exact Old). rewrite in_app_iff. cbn [In]. rewrite IH. split.
    + intros [E|[E|[]]]; [apply Ext, E|]. injection E as <- <-. exists D, []. split; [reflexivity|]. intro Z. apply Back in Z. congruence.
    + intros (a & b & E & H). apply split_snoc in E. destruct E as [(-> & -> & E)|(b' & -> & ->)]; [right; left; symmetry; exact E|]. left. exists a, b'. auto.
Qed.
Lemma key_split {X Y} (D : list (X * Y)) a k b : map fst D = a ++ k :: b -> exists a' v b', D = a' ++ (k, v) :: b' /\ map fst a' = a.
Proof.
  revert D. induction a as [|x a IH]; intros [|[j w] D] E; cbn in E; try discriminate; injection E as <- E.
  - exists [], w, D. auto.
  - destruct (IH D E) as (a' & v & b' & -> & E'). exists ((j, w) :: a'), v, b'. cbn. rewrite E'. auto.
Qed.
Theorem labels_exact rows k v : In (k, v) (edge_labels rows) <->
  (exists a b, map fst rows = a ++ k :: b /\ ~ In (back k) a /\ ~ In k a) /\ (exists a b, rows = a ++ (k, v) :: b /\ ~ In k (map fst b)).
Proof.
  change (edge_labels rows) with (fold_left add_label (to_dict rows) []). destruct (to_dict_keys rows) as [N _].
  rewrite (directions _ N), <- to_dict_order, <- to_dict_last. split.
  - intros (a & b & E & H). split; [exists (map fst a), (map fst b); rewrite E, map_app; auto|]. rewrite E. apply in_or_app. right. left. reflexivity.
  - intros ((a & b & E & H) & Hi). destruct (key_split _ _ _ _ E) as (a' & w & b' & E' & <-). exists a', b'. split; [|exact H]. rewrite E'. f_equal. f_equal. f_equal.
    rewrite E' in Hi, N. rewrite map_app in N. cbn [map fst] in N. apply NoDup_remove_2 in N.
    apply in_app_or in Hi. destruct Hi as [Hi|[Hi|Hi]]; [|congruence|]; exfalso; apply N; apply in_or_app; [left|right]; apply in_map_iff; exists (k, v); auto.
Qed.
Definition ends (bids : df) (t : trans) : edge := (user_of bids (Z.of_nat (t_bid t)), user_of bids (t_source t)).
Theorem plot_labels bids tl x y v : In ((x, y), v) (fig_labels (plot_trades_as_graph bids tl)) <->
  (exists a t b, tl = a ++ t :: b /\ ends bids t = (x, y) /\ forall s, In s a -> ends bids s <> (x, y) /\ ends bids s <> (y, x)) /\
  (exists a t b, tl = a ++ t :: b /\ ends bids t = (x, y) /\ t_qty t = v /\ forall s, In s b -> ends bids s <> (x, y)).
Proof.
  change (fig_labels (plot_trades_as_graph bids tl)) with (edge_labels (edge_rows bids tl)). rewrite labels_exact. cbn [back fst snd].
  assert (K : map fst (edge_rows bids tl) = map (ends bids) tl) by (unfold edge_rows; rewrite map_map; reflexivity). rewrite K.
  assert (NI : forall l k, ~ In k (map (ends bids) l) <-> forall s, In s l -> ends bids s <> k).
  { intros l k. rewrite in_map_iff. split; [intros H s Hs E; apply H; exists s; auto | intros H (s & E & Hs); exact (H s Hs E)]. }
  split; intros [H1 H2]; split.
  - destruct H1 as (a & b & E & N1 & N2). destruct (map_eq_app _ _ _ _ E) as (a' & l2 & -> & <- & E2). destruct (map_eq_cons _ _ E2) as (t & b' & -> & Et & <-).
    exists a', t, b'. split; [reflexivity|]. split; [exact Et|]. intros s Hs. split; [apply (proj1 (NI _ _) N2 s Hs) | apply (proj1 (NI _ _) N1 s Hs)].
  - destruct H2 as (a & b & E & N1). unfold edge_rows in E. destruct (map_eq_app _ _ _ _ E) as (a' & l2 & -> & <- & E2). destruct (map_eq_cons _ _ E2) as (t & b' & -> & Et & <-).
    injection Et as E1 E3 E4. exists a', t, b'. split; [reflexivity|]. split; [unfold ends; congruence|]. split; [exact E4|]. apply NI. rewrite map_map in N1. exact N1.
  - destruct H1 as (a & t & b & -> & Et & H). exists (map (ends bids) a), (map (ends bids) b). rewrite map_app. cbn [map]. rewrite Et. split; [reflexivity|]. split; apply NI; intros s Hs; apply H, Hs.
  - destruct H2 as (a & t & b & -> & Et & <- & H). exists (edge_rows bids a), (edge_rows bids b). split; [|unfold edge_rows; rewrite map_map; apply NI, H].
    unfold edge_rows. rewrite map_app. cbn [map]. f_equal. f_equal. f_equal. exact Et.
Qed.
