(** Who meets whom in the first round of [p2p_random]. *)
From Verif Require Import QcTac Num ModelBase ModelHuang ModelP2P ListFacts MergeFacts StoreFacts Spec SpecTrade TradeFacts P2PFacts P2PTrades SpecP2P P2PSchedule SpecChance ChanceFacts ChancePick ChanceP2P.

Lemma pairs_length d : length (all_pairs d) = pairs_count d.
Proof.
  unfold all_pairs, pairs_count, buyers, sellers. induction (filter buying d) as [|x l IH]; [reflexivity|]. cbn [flat_map length]. rewrite app_length, map_length, IH. lia.
Qed.

(** ** the mean of a function of the picks of a round *)
Section Mean.
  Variable ps : list pair.
  Variables (M : nat).
  Hypothesis HM : fair M (length ps).

  Fixpoint picks_mean (fuel : nat) (g : list pair -> Qc) (tmp : list bool) (tr : list pair) : Qc :=
    match where_true tmp, fuel with
    | [], _ => g tr
    | _, O => 0
    | w, S n => mean (fun y => match nth_error ps y with None => 0 | Some p => picks_mean n g (mask_out ps tmp p) (tr ++ [p]) end) w
    end.
  Lemma mask_out_len tmp p : length tmp = length ps -> length (mask_out ps tmp p) = length ps.
  Proof. intro L. unfold mask_out. rewrite mask_and_len; rewrite ?mask_and_len; rewrite ?pairs_row_len; auto. Qed.
  Lemma picks_mean_draws g fuel : forall active tmp tr K, length tmp = length ps -> (fuel <= K)%nat ->
    mean (rest_of ps (fun T _ _ => g T) fuel active tmp tr) (draws M K) = picks_mean fuel g tmp tr.
  Proof.
    induction fuel as [|fuel IH]; intros active tmp tr K Lt HK; cbn [picks_mean]; destruct (where_true tmp) as [|x0 w] eqn:W.
    - rewrite (mean_ext _ (fun _ => g tr)); [apply mean_const, draws_some, HM|]. intros l _. unfold rest_of. cbn [pick_round]. rewrite W. reflexivity.
    - rewrite (mean_ext _ (fun _ => 0)); [apply mean_const, draws_some, HM|]. intros l _. unfold rest_of. cbn [pick_round]. rewrite W. reflexivity.
    - rewrite (mean_ext _ (fun _ => g tr)); [apply mean_const, draws_some, HM|]. intros l _. unfold rest_of. cbn [pick_round]. rewrite W. reflexivity.
    - destruct K as [|K]; [lia|].
      etransitivity.
      { apply (mean_draw M K (x0 :: w) _ (next_of ps (fun T _ _ => g T) fuel active tmp tr)); [rewrite <- W; apply (fair_less ps M HM), Lt | discriminate | intros y l; apply rest_step, W]. }
      apply mean_ext. intros y _. destruct (nth_error ps y) as [p|] eqn:Ep.
      + rewrite <- (IH (set_nth y false active) (mask_out ps tmp p) (tr ++ [p]) K); [|apply mask_out_len, Lt | lia].
        apply mean_ext. intros l _. unfold next_of. rewrite Ep. reflexivity.
      + rewrite (mean_ext _ (fun _ => 0)); [apply mean_const, draws_some, HM|]. intros l _. unfold next_of. rewrite Ep. reflexivity.
  Qed.

  Lemma where_filter (h : pair -> bool) : map (fun x => nth_error ps x) (where_true (map h ps)) = map Some (filter h ps).
  Proof.
    clear. induction ps as [|p l IH]; [reflexivity|].
    assert (W : where_true (map h (p :: l)) = (if h p then [0%nat] else []) ++ map S (where_true (map h l))).
    { unfold where_true at 1. cbn [map length seq combine filter snd]. pose proof (proj1 (where_gen (map h l) 1%nat)) as E. destruct (h p); cbn [map fst app]; rewrite E; reflexivity. }
    rewrite W. cbn [filter]. rewrite map_app, map_map. cbn [nth_error]. rewrite IH. destruct (h p); reflexivity.
  Qed.
End Mean.

Lemma sum_marked (a : nat) (u v : Qc) (h : nat -> Qc) l : NoDup l -> In a l -> h a = u -> (forall x, In x l -> x <> a -> h x = v) ->
  qsumf h l = u + num_of (length l - 1) * v.
Proof.
  intros N I Ha Hv. induction l as [|x l IH]; [contradiction|]. inversion_clear N as [|? ? N1 N2]. rewrite qsumf_cons. cbn [length]. rewrite Nat.sub_succ, Nat.sub_0_r.
  destruct I as [->|I].
  - rewrite Ha. f_equal. rewrite <- (qsumf_const v l). apply qsumf_ext. intros y Hy. apply Hv; [right; exact Hy | intros ->; contradiction].
  - rewrite (Hv x); [|left; reflexivity | intros ->; contradiction]. rewrite IH; [|exact N2 | exact I | intros y Hy; apply Hv; right; exact Hy].
    destruct l as [|z l]; [contradiction|]. cbn [length]. rewrite Nat.sub_succ, Nat.sub_0_r, num_of_S. ring.
Qed.

(** ** rounds on the grid of all pairs *)
Section Grid.
  Variables (B0 S0 : list nat).
  Hypothesis NB : NoDup B0.
  Hypothesis NS : NoDup S0.
  Hypothesis Dj : forall i, In i B0 -> In i S0 -> False.
  Let ps := list_prod B0 S0.
  Let grid (kb ks : nat -> bool) : list bool := map (fun p => kb (fst p) && ks (snd p)) ps.
  Let drop (k : nat -> bool) (a : nat) : nat -> bool := fun i => k i && negb (Nat.eqb i a).

  Lemma grid_out kb ks b s : In (b, s) ps -> mask_out ps (grid kb ks) (b, s) = grid (drop kb b) (drop ks s).
  Proof.
    intro I. apply in_prod_iff in I. destruct I as [Ib Is]. unfold mask_out, grid. cbn [fst snd].
    assert (G : forall (h : pair -> bool) a l, mask_and (map h l) (pairs_row l a) = map (fun p => h p && negb (Nat.eqb (fst p) a || Nat.eqb (snd p) a)) l).
    { intros h a l. unfold mask_and, pairs_row. induction l as [|p l IH]; [reflexivity|]. cbn [map combine fst snd]. rewrite IH. reflexivity. }
    rewrite !G. apply map_ext_in. intros [x y] Hp. apply in_prod_iff in Hp. destruct Hp as [Hx Hy]. cbn [fst snd]. unfold drop.
    destruct (Nat.eqb_spec y b) as [->|_]; [exfalso; eauto|]. destruct (Nat.eqb_spec x s) as [->|_]; [exfalso; eauto|].
    rewrite orb_false_r. cbn [orb]. destruct (kb x), (ks y), (Nat.eqb x b), (Nat.eqb y s); reflexivity.
  Qed.
  Lemma grid_open kb ks : filter (fun p => kb (fst p) && ks (snd p)) ps = list_prod (filter kb B0) (filter ks S0).
  Proof.
    unfold ps. clear. induction B0 as [|b l IH]; [reflexivity|]. cbn [list_prod filter]. rewrite filter_app, IH.
    assert (G : filter (fun p => kb (fst p) && ks (snd p)) (map (fun y => (b, y)) S0) = if kb b then map (fun y => (b, y)) (filter ks S0) else []).
    { rewrite filter_map. cbn [fst snd]. destruct (kb b); cbn [andb].
      - reflexivity.
      - rewrite (ListFacts.filter_none _ S0); [reflexivity | reflexivity]. }
    rewrite G. destruct (kb b); reflexivity.
  Qed.
  Lemma grid_mean (F : option pair -> Qc) kb ks : mean (fun y => F (nth_error ps y)) (where_true (grid kb ks)) = mean (fun p => F (Some p)) (list_prod (filter kb B0) (filter ks S0)).
  Proof.
    rewrite <- (mean_map F (fun y => nth_error ps y)). unfold grid. rewrite (where_filter ps (fun p => kb (fst p) && ks (snd p))), mean_map, grid_open. reflexivity.
  Qed.
  Lemma grid_empty kb ks : where_true (grid kb ks) = [] <-> list_prod (filter kb B0) (filter ks S0) = [].
  Proof.
    rewrite <- grid_open. pose proof (where_filter ps (fun p => kb (fst p) && ks (snd p))) as E. fold (grid kb ks) in E. split; intro X.
    - rewrite X in E. destruct (filter _ ps); [reflexivity | discriminate].
    - rewrite X in E. destruct (where_true _); [reflexivity | discriminate].
  Qed.
  Lemma picks_step n g kb ks tr : list_prod (filter kb B0) (filter ks S0) <> [] ->
    picks_mean ps (S n) g (grid kb ks) tr = mean (fun p => picks_mean ps n g (grid (drop kb (fst p)) (drop ks (snd p))) (tr ++ [p])) (list_prod (filter kb B0) (filter ks S0)).
  Proof.
    intro N. cbn [picks_mean]. destruct (where_true (grid kb ks)) as [|x0 w] eqn:W; [exfalso; apply N, grid_empty, W|]. rewrite <- W.
    etransitivity; [apply (grid_mean (fun o => match o with None => 0 | Some p => picks_mean ps n g (mask_out ps (grid kb ks) p) (tr ++ [p]) end))|].
    apply mean_ext. intros [b s] I. apply in_prod_iff in I. destruct I as [Ib Is]. apply filter_In in Ib, Is. rewrite grid_out by (apply in_prod; tauto). reflexivity.
  Qed.
  Lemma picks_end n g kb ks tr : list_prod (filter kb B0) (filter ks S0) = [] -> picks_mean ps n g (grid kb ks) tr = g tr.
  Proof. intro N. apply grid_empty in N. destruct n; cbn [picks_mean]; rewrite N; reflexivity. Qed.
  Lemma drop_filter k a l : NoDup l -> In a (filter k l) -> S (length (filter (drop k a) l)) = length (filter k l).
  Proof.
    intros N I. apply filter_In in I. destruct I as [I K]. unfold drop. induction l as [|x l IH]; [contradiction|]. inversion_clear N as [|? ? N1 N2]. cbn [filter].
    destruct I as [->|I].
    - rewrite K, Nat.eqb_refl. cbn [negb andb length]. f_equal. f_equal. apply filter_ext_in. intros y Hy. destruct (Nat.eqb_spec y a) as [->|_]; [contradiction|]. rewrite andb_true_r. reflexivity.
    - specialize (IH N2 I). destruct (Nat.eqb_spec x a) as [->|_]; [contradiction|]. rewrite andb_true_r. destruct (k x); cbn [length]; lia.
  Qed.
  Lemma prod_nil {A B} (a : list A) (b : list B) : list_prod a b = [] -> a = [] \/ b = [].
  Proof. destruct a as [|x a]; [auto|]. destruct b; [auto|]. discriminate. Qed.

  Variables (b s : nat).
  Let is_p (q : pair) : bool := Nat.eqb (fst q) b && Nat.eqb (snd q) s.
  Let met (T : list pair) : Qc := if existsb is_p T then 1 else 0.
  Lemma met_snoc tr q : met (tr ++ [q]) = if is_p q then 1 else met tr.
  Proof. unfold met. rewrite existsb_app. cbn [existsb]. rewrite orb_false_r. destruct (existsb is_p tr), (is_p q); reflexivity. Qed.

  Lemma met_stays n : forall kb ks tr, (length (filter kb B0) <= n)%nat -> met tr = 1 -> picks_mean ps n met (grid kb ks) tr = 1.
  Proof.
    induction n as [|n IH]; intros kb ks tr L H.
    - rewrite picks_end; [exact H|]. destruct (filter kb B0); [reflexivity | cbn [length] in L; lia].
    - destruct (list_prod (filter kb B0) (filter ks S0)) as [|p0 l0] eqn:E; [rewrite picks_end; assumption|].
      rewrite picks_step by (rewrite E; discriminate). rewrite (mean_ext _ (fun _ => 1)); [apply mean_const; rewrite E; discriminate|].
      intros [b' s'] I. apply in_prod_iff in I. destruct I as [Ib Is]. cbn [fst snd]. apply IH; [|rewrite met_snoc; destruct (is_p _); [reflexivity | exact H]].
      pose proof (drop_filter kb b' B0 NB Ib). lia.
  Qed.
  Lemma met_never n : forall kb ks tr, (length (filter kb B0) <= n)%nat -> kb b && ks s = false -> met tr = 0 -> picks_mean ps n met (grid kb ks) tr = 0.
  Proof.
    induction n as [|n IH]; intros kb ks tr L K H.
    - rewrite picks_end; [exact H|]. destruct (filter kb B0); [reflexivity | cbn [length] in L; lia].
    - destruct (list_prod (filter kb B0) (filter ks S0)) as [|p0 l0] eqn:E; [rewrite picks_end; assumption|].
      rewrite picks_step by (rewrite E; discriminate). rewrite (mean_ext _ (fun _ => 0)); [apply mean_const; rewrite E; discriminate|].
      intros [b' s'] I. apply in_prod_iff in I. destruct I as [Ib Is]. cbn [fst snd].
      assert (Nq : is_p (b', s') = false).
      { unfold is_p. cbn [fst snd]. apply filter_In in Ib, Is. destruct (Nat.eqb_spec b' b) as [->|]; [|reflexivity]. destruct (Nat.eqb_spec s' s) as [->|]; [|reflexivity].
        destruct Ib as [_ Ib], Is as [_ Is]. rewrite Ib, Is in K. discriminate. }
      apply IH; [pose proof (drop_filter kb b' B0 NB Ib); lia| |rewrite met_snoc, Nq; exact H].
      unfold drop. destruct (kb b), (ks s); try discriminate; cbn [andb]; try reflexivity; apply andb_false_r.
  Qed.
  Lemma met_mean n : forall kb ks tr, (length (filter kb B0) <= n)%nat -> In b (filter kb B0) -> In s (filter ks S0) -> met tr = 0 ->
    picks_mean ps n met (grid kb ks) tr = 1 / num_of (Nat.max (length (filter kb B0)) (length (filter ks S0))).
  Proof.
    induction n as [|n IH]; intros kb ks tr L Ib Is H; [destruct (filter kb B0); [contradiction | cbn [length] in L; lia]|].
    set (B := filter kb B0) in *. set (Z := filter ks S0) in *.
    assert (NE : list_prod B Z <> []) by (intro E; destruct (prod_nil _ _ E) as [X|X]; rewrite X in *; contradiction).
    assert (NDB : NoDup B) by (apply NoDup_filter, NB). assert (NDZ : NoDup Z) by (apply NoDup_filter, NS).
    rewrite picks_step by exact NE. fold B Z.
    set (m := length B). set (k := length Z).
    assert (Pm : (0 < m)%nat) by (unfold m; destruct B; [contradiction | cbn [length]; lia]).
    assert (Pk : (0 < k)%nat) by (unfold k; destruct Z; [contradiction | cbn [length]; lia]).
    set (v := 1 / num_of (Nat.max (m - 1) (k - 1))).
    set (F := fun p : pair => if Nat.eqb (fst p) b then (if Nat.eqb (snd p) s then 1 else 0) else (if Nat.eqb (snd p) s then 0 else v)).
    assert (EF : forall p, In p (list_prod B Z) -> picks_mean ps n met (grid (drop kb (fst p)) (drop ks (snd p))) (tr ++ [p]) = F p).
    { intros [b' s'] I. apply in_prod_iff in I. destruct I as [Ib' Is']. cbn [fst snd]. unfold F. cbn [fst snd].
      pose proof (drop_filter kb b' B0 NB Ib') as L1. pose proof (drop_filter ks s' S0 NS Is') as L2. fold B in L1. fold Z in L2.
      destruct (Nat.eqb_spec b' b) as [->|Nb]; destruct (Nat.eqb_spec s' s) as [->|Ns].
      - apply met_stays; [lia|]. rewrite met_snoc. unfold is_p. cbn [fst snd]. rewrite !Nat.eqb_refl. reflexivity.
      - apply met_never; [lia| |].
        + unfold drop. rewrite Nat.eqb_refl. cbn [negb]. rewrite andb_false_r. reflexivity.
        + rewrite met_snoc. unfold is_p. cbn [fst snd]. rewrite (proj2 (Nat.eqb_neq s' s) Ns), andb_false_r. exact H.
      - apply met_never; [lia| |].
        + unfold drop. rewrite Nat.eqb_refl. cbn [negb]. rewrite !andb_false_r. reflexivity.
        + rewrite met_snoc. unfold is_p. cbn [fst snd]. rewrite (proj2 (Nat.eqb_neq b' b) Nb). exact H.
      - assert (Jb : In b (filter (drop kb b') B0)).
        { apply filter_In in Ib. apply filter_In. split; [apply Ib|]. unfold drop. rewrite (proj2 Ib). cbn [andb]. apply negb_true_iff, Nat.eqb_neq. congruence. }
        assert (Js : In s (filter (drop ks s') S0)).
        { apply filter_In in Is. apply filter_In. split; [apply Is|]. unfold drop. rewrite (proj2 Is). cbn [andb]. apply negb_true_iff, Nat.eqb_neq. congruence. }
        rewrite IH; [|lia | exact Jb | exact Js | rewrite met_snoc; unfold is_p; cbn [fst snd]; rewrite (proj2 (Nat.eqb_neq b' b) Nb); exact H].
        unfold v. f_equal. f_equal. unfold m, k. lia. }
    rewrite (mean_ext _ F) by exact EF. unfold mean. rewrite prod_length. fold m k.
    assert (Sum : qsumf F (list_prod B Z) = 1 + num_of (m - 1) * (num_of (k - 1) * v)).
    { assert (G : forall l : list nat, qsumf F (list_prod l Z) = qsumf (fun x => qsumf (fun y => F (x, y)) Z) l).
      { induction l as [|x l IHl]; [reflexivity|]. cbn [list_prod]. rewrite qsumf_app, qsumf_map, qsumf_cons, IHl. reflexivity. }
      rewrite G. apply (sum_marked b); [exact NDB | exact Ib | |].
      - rewrite (sum_marked s 1 0 _ Z NDZ Is); [ring| |].
        + unfold F. cbn [fst snd]. rewrite !Nat.eqb_refl. reflexivity.
        + intros y _ Ny. unfold F. cbn [fst snd]. rewrite Nat.eqb_refl, (proj2 (Nat.eqb_neq y s) Ny). reflexivity.
      - intros x _ Nx. rewrite (sum_marked s 0 v _ Z NDZ Is); [fold k; ring| |].
        + unfold F. cbn [fst snd]. rewrite Nat.eqb_refl, (proj2 (Nat.eqb_neq x b) Nx). reflexivity.
        + intros y _ Ny. unfold F. cbn [fst snd]. rewrite (proj2 (Nat.eqb_neq y s) Ny), (proj2 (Nat.eqb_neq x b) Nx). reflexivity. }
    rewrite Sum. clear - Pm Pk. unfold v.
    pose proof (num_of_neq m Pm) as Nm. pose proof (num_of_neq k Pk) as Nk. rewrite num_of_mul.
    assert (Em : num_of m = 1 + num_of (m - 1)) by (rewrite <- num_of_S; f_equal; lia).
    assert (Ek : num_of k = 1 + num_of (k - 1)) by (rewrite <- num_of_S; f_equal; lia).
    destruct (Nat.le_ge_cases m k) as [Hmk|Hmk].
    - rewrite (Nat.max_r m k), (Nat.max_r (m - 1) (k - 1)) by lia. destruct (Nat.eq_dec k 1) as [->|K1].
      + assert (m = 1%nat) as -> by lia. cbn [Nat.sub]. rewrite num_of_0, num_of_1. vm_compute. reflexivity.
      + assert (N1 : num_of (k - 1) <> 0) by (apply num_of_neq; lia). rewrite Em in *. field. repeat split; assumption.
    - rewrite (Nat.max_l m k), (Nat.max_l (m - 1) (k - 1)) by lia. destruct (Nat.eq_dec m 1) as [->|M1].
      + assert (k = 1%nat) as -> by lia. cbn [Nat.sub]. rewrite num_of_0, num_of_1. vm_compute. reflexivity.
      + assert (N1 : num_of (m - 1) <> 0) by (apply num_of_neq; lia). rewrite Ek in *. field. repeat split; assumption.
  Qed.
End Grid.
