(** Chances of meetings in [p2p_random] and in Market.run. *)
From Coq Require Import FinFun.
From Verif Require Import QcTac Num ModelBase ModelHuang ModelP2P ModelMarket ListFacts MergeFacts StoreFacts Spec SpecTrade SpecOrder AllocFacts TradeFacts P2PFacts P2PTrades SpecP2P P2PSchedule MarketOrder P2POrder UnitMarket SpecChance ChanceFacts ChancePick ChanceP2P ChanceOrder ChanceRound.

Definition on_first (g : list pair -> Qc) (x : res (transmgr * extra)) : Qc :=
  match x with
  | Ok (_, XP2P (T :: _)) => g T
  | _ => 0
  end.

Lemma all_true (l : list nat) : filter (fun _ => true) l = l.
Proof. apply filter_all. reflexivity. Qed.

Section First.
  Variables (d : df) (c : Qc).
  Hypothesis Hl : map lbl d = seq 0 (length d).
  Hypothesis Hq : qty_nonneg d.
  Hypothesis Hp : exists x, In x d /\ 0 < qty x.
  Variables (M K : nat).
  Hypothesis HM : fair M (pairs_count d).
  Hypothesis HK : (pairs_count d <= K)%nat.
  Let B0 := map lbl (filter buying d).
  Let S0 := map lbl (filter (fun r => negb (buying r)) d).

  Lemma pairs_grid : all_pairs d = list_prod B0 S0.
  Proof. unfold B0, S0. rewrite list_prod_map, (pairs_lab d). reflexivity. Qed.
  Lemma first_mean g : (0 < pairs_count d)%nat ->
    average M K (p2p_random d c) (on_first g) = picks_mean (list_prod B0 S0) (pairs_count d) g (map (fun p => true && true) (list_prod B0 S0)) [].
  Proof.
    intro Pos. rewrite <- pairs_grid.
    assert (Er : repeat true (length (all_pairs d)) = map (fun p => true && true) (all_pairs d)).
    { induction (all_pairs d) as [|p l IH]; [reflexivity|]. cbn [length repeat map andb]. rewrite IH. reflexivity. }
    rewrite <- Er. rewrite <- pairs_length in *.
    rewrite <- (picks_mean_draws (all_pairs d) M HM g (length (all_pairs d)) (repeat true (length (all_pairs d))) _ [] K); [|apply repeat_length | exact HK].
    apply mean_ext. intros l _. destruct (p2p_run d c (st l) Hl Hq) as (gtl & E & _). revert E.
    generalize (snd (fold_left (trade_pair c (map price d)) (concat gtl) (map qty d, tm_init))). intros tmx E. destruct (run_loop d c (st l) _ _ E) as (g2 & Eg & El). injection Eg as <-.
    rewrite E. unfold rest_of. destruct (length (all_pairs d)) as [|n] eqn:En; [lia|].
    destruct (pick_round (S n) (all_pairs d) (st l) 0 (repeat true (S n)) (repeat true (S n)) []) as [[[T a] k]|e] eqn:Ek;
      cbn [p2p_loop] in El; rewrite En, Ek in El;
      (assert (C : qltb 0 (qsum (after (map price d) (map qty d) (concat []))) && existsb (fun b => b) (repeat true (S n)) = true);
       [apply andb_true_iff; split; [|reflexivity]; apply qltb_lt; destruct Hp as (x & Ix & Px);
        pose proof (qsumf_in_le qty d x (fun y Iy => Hq y Iy) Ix) as Q; unfold qsumf in Q; change (after (map price d) (map qty d) (concat [])) with (map qty d); qlra |
        rewrite C in El; cbn [bind] in El]).
    - destruct (fold_left _ _ _) as [q' tm']. apply loop_prefix in El. destruct El as (g2 & ->). reflexivity.
    - discriminate.
  Qed.
  Lemma labels_b : NoDup B0.
  Proof. apply NoDup_filter_map, (labels_ok d Hl). Qed.
  Lemma labels_s : NoDup S0.
  Proof. apply NoDup_filter_map, (labels_ok d Hl). Qed.
  Lemma labels_apart i : In i B0 -> In i S0 -> False.
  Proof.
    unfold B0, S0. rewrite !in_map_iff. intros (x & Ex & Ix) (y & Ey & Iy). apply filter_In in Ix, Iy.
    assert (x = y) by (apply (row_of d Hl); try tauto; congruence). subst y. destruct Ix as [_ A], Iy as [_ A']. rewrite A in A'. discriminate.
  Qed.

  Variables (x y : row).
  Hypothesis Ix : In x d.
  Hypothesis Iy : In y d.
  Hypothesis Bx : buying x = true.
  Hypothesis By : buying y = false.
  Lemma in_b : In (lbl x) B0.
  Proof. apply in_map, filter_In. auto. Qed.
  Lemma in_s : In (lbl y) S0.
  Proof. apply in_map, filter_In. rewrite By. auto. Qed.
  Lemma count_pos : (0 < pairs_count d)%nat.
  Proof.
    pose proof in_b as A. pose proof in_s as B. unfold B0, S0, pairs_count in *. destruct (filter buying d), (filter (fun r => negb (buying r)) d); try contradiction. cbn [length]. lia.
  Qed.

  (** a buyer and a seller meet in the first round with chance one over the size of the larger side *)
  Theorem early_chance : share M K (p2p_random d c) (met_early (lbl x, lbl y)) =
    1 / num_of (Nat.max (length (filter buying d)) (length (filter (fun r => negb (buying r)) d))).
  Proof.
    set (is_p := fun q : pair => Nat.eqb (fst q) (lbl x) && Nat.eqb (snd q) (lbl y)).
    pose proof (first_mean (fun T => if existsb is_p T then 1 else 0) count_pos) as F.
    pose proof (met_mean B0 S0 labels_b labels_s labels_apart (lbl x) (lbl y) (pairs_count d) (fun _ => true) (fun _ => true) []) as G.
    cbv beta in G. fold is_p in G. unfold share, average in *.
    rewrite (mean_ext _ (fun l => on_first (fun T => if existsb is_p T then 1 else 0) (p2p_random d c (st l)))).
    - rewrite F, G; [unfold B0, S0; rewrite !all_true, !map_length; reflexivity| | | |reflexivity].
      + rewrite all_true. pose proof in_s as X. unfold B0, S0, pairs_count in *. rewrite map_length.
        destruct (filter (fun r => negb (buying r)) d); [contradiction|]. cbn [length]. nia.
      + rewrite all_true. apply in_b.
      + rewrite all_true. apply in_s.
    - intros l _. destruct (p2p_random d c (st l)) as [[tm ex]|e]; [|reflexivity]. destruct ex as [| | |[|T g]|]; reflexivity.
  Qed.

  (** every pair has the same chance of being the first *)
  Theorem first_chance : share M K (p2p_random d c) (met_first (lbl x, lbl y)) = 1 / num_of (pairs_count d).
  Proof.
    set (is_p := fun q : pair => Nat.eqb (fst q) (lbl x) && Nat.eqb (snd q) (lbl y)).
    set (g := fun T : list pair => match T with q :: _ => if is_p q then 1 else 0 | [] => 0 end).
    pose proof count_pos as Pos. pose proof (first_mean g Pos) as F. unfold share, average in *.
    rewrite (mean_ext _ (fun l => on_first g (p2p_random d c (st l)))).
    2: { intros l _. destruct (p2p_random d c (st l)) as [[tm ex]|e]; [|reflexivity]. destruct ex as [| | |[|[|q T] G]|]; reflexivity. }
    rewrite F. destruct (pairs_count d) as [|n] eqn:En; [lia|].
    rewrite (picks_step B0 S0 labels_apart n g (fun _ => true) (fun _ => true)); rewrite !all_true.
    2: { intro E. pose proof in_b as X. pose proof in_s as Y. destruct (prod_nil _ _ E) as [Z|Z]; rewrite Z in *; contradiction. }
    assert (Keep : forall m kb ks tr v, (length (filter kb B0) <= m)%nat -> (forall T, g (tr ++ T) = v) ->
      picks_mean (list_prod B0 S0) m g (map (fun p => kb (fst p) && ks (snd p)) (list_prod B0 S0)) tr = v).
    { induction m as [|m IH]; intros kb ks tr v L Hv.
      - rewrite (picks_end B0 S0); [rewrite <- (Hv []), app_nil_r; reflexivity|]. destruct (filter kb B0); [reflexivity | cbn [length] in L; lia].
      - destruct (list_prod (filter kb B0) (filter ks S0)) as [|p0 l0] eqn:E; [rewrite (picks_end B0 S0) by exact E; rewrite <- (Hv []), app_nil_r; reflexivity|].
        rewrite (picks_step B0 S0 labels_apart m g kb ks) by (rewrite E; discriminate).
        rewrite (mean_ext _ (fun _ => v)); [apply mean_const; rewrite E; discriminate|]. intros [b' s'] I. apply in_prod_iff in I. destruct I as [Ib _].
        apply (IH (fun i => kb i && negb (Nat.eqb i b')) (fun i => ks i && negb (Nat.eqb i s'))); [pose proof (drop_filter kb b' B0 labels_b Ib) as D; cbv beta zeta in D; cbn [fst]; lia|].
        intro T. rewrite <- app_assoc. apply Hv. }
    rewrite (mean_ext _ (fun p => if is_p p then 1 else 0)).
    - unfold mean. rewrite prod_length.
      assert (EL : (length B0 * length S0)%nat = S n) by (unfold B0, S0; rewrite !map_length; exact En). rewrite EL. f_equal.
      assert (G : forall l : list nat, qsumf (fun p => if is_p p then 1 else 0) (list_prod l S0) = qsumf (fun i => qsumf (fun j => if is_p (i, j) then 1 else 0) S0) l).
      { induction l as [|i l IHl]; [reflexivity|]. cbn [list_prod]. rewrite qsumf_app, qsumf_map, qsumf_cons, IHl. reflexivity. }
      rewrite G, (sum_marked (lbl x) 1 0 _ B0 labels_b in_b); [ring| |].
      + rewrite (sum_marked (lbl y) 1 0 _ S0 labels_s in_s); [ring| |]; unfold is_p; cbn [fst snd]; rewrite Nat.eqb_refl; [rewrite Nat.eqb_refl; reflexivity|].
        intros j _ N. rewrite (proj2 (Nat.eqb_neq _ _) N). reflexivity.
      + intros i _ N. apply qsumf_zero. intros j _. unfold is_p. cbn [fst snd]. rewrite (proj2 (Nat.eqb_neq _ _) N). reflexivity.
    - intros [b' s'] I. apply in_prod_iff in I. destruct I as [Ib _]. cbn [app]. apply (Keep n (fun i => true && negb (Nat.eqb i b')) (fun i => true && negb (Nat.eqb i s'))).
      + assert (Ib' : In b' (filter (fun _ => true) B0)) by (rewrite all_true; exact Ib).
        pose proof (drop_filter (fun _ => true) b' B0 labels_b Ib') as D. cbv beta zeta in D. rewrite all_true in D.
        pose proof in_s as X. unfold B0, S0, pairs_count in *. rewrite map_length in D.
        destruct (filter (fun r => negb (buying r)) d); [contradiction|]. cbn [length] in En. nia.
      + intro T. reflexivity.
  Qed.
End First.

(** ** order and names *)
Lemma moved_rows bs bs' f : Permutation bs bs' -> moved bs bs' f -> forall c, (forall b, In b bs -> 0 <= b_qty b) ->
  forall M K M' K' gtl, fair M (pairs_count (rows_from 0 bs)) -> (pairs_count (rows_from 0 bs) <= K)%nat ->
  fair M' (pairs_count (rows_from 0 bs)) -> (pairs_count (rows_from 0 bs) <= K')%nat ->
  share M' K' (p2p_random (rows_from 0 bs') c) (gave (map (map (rename_pair f)) gtl)) = share M K (p2p_random (rows_from 0 bs) c) (gave gtl).
Proof.
  intros P Mv c Hq M K M' K' gtl F HK F' HK'.
  pose proof (move_perm bs bs' f P Mv) as MP.
  assert (Q : qty_nonneg (rows_from 0 bs)).
  { intros x Ix. destruct (rows_In_inv bs x Ix) as [X _]. apply nth_error_In in X. exact (Hq _ X). }
  assert (E : pairs_count (rows_from 0 bs') = pairs_count (rows_from 0 bs)).
  { unfold pairs_count. rewrite <- !(Permutation_length (filter_perm _ _ _ MP)), !filter_map, !map_length. reflexivity. }
  apply (g_share (rows_from 0 bs) (rows_from 0 bs') c f (ren f)); rewrite ?pairs_length, ?E; try assumption; try reflexivity; try apply rows_labels.
  apply (f_inj bs bs' f Mv).
Qed.
Theorem run_chance_moved S S' m m' f : Permutation (bm_bids (mk_bm m)) (bm_bids (mk_bm m')) -> moved (bm_bids (mk_bm m)) (bm_bids (mk_bm m')) f ->
  (forall b, In b (bm_bids (mk_bm m)) -> 0 <= b_qty b) ->
  forall c M K M' K' gtl, fair M (pairs_count (get_df (mk_bm m))) -> (pairs_count (get_df (mk_bm m)) <= K)%nat ->
    fair M' (pairs_count (get_df (mk_bm m))) -> (pairs_count (get_df (mk_bm m)) <= K')%nat ->
    share M' K' (fun r => snd (market_run S' m' (AP2P c r))) (gave (map (map (rename_pair f)) gtl)) =
    share M K (fun r => snd (market_run S m (AP2P c r))) (gave gtl).
Proof.
  intros P Mv Hq c M K M' K' gtl F HK F' HK'. unfold get_df in *. set (bs := bm_bids (mk_bm m)) in *. set (bs' := bm_bids (mk_bm m')) in *.
  pose proof (buyers_perm bs bs' P) as BP. apply Permutation_length in BP. rewrite !map_length in BP. 
  set (skip := Nat.eqb (length (buyers (rows_from 0 bs))) 0 || Nat.eqb (length (buyers (rows_from 0 bs))) (length (rows_from 0 bs))).
  assert (E : forall T m0 c r, bm_bids (mk_bm m0) = bs \/ bm_bids (mk_bm m0) = bs' -> snd (market_run T m0 (AP2P c r)) = if skip then Ok (tm_init, XEmpty) else p2p_random (rows_from 0 (bm_bids (mk_bm m0))) c r).
  { intros T m0 c0 r H. rewrite UnitMarket.run_result. cbn [run_algo mechanism]. unfold mech_run0, get_df. unfold skip.
    destruct H as [->| ->]; [reflexivity|]. rewrite <- BP, !rows_from_length, <- (Permutation_length P). reflexivity. }
  unfold share. rewrite (mean_ext _ (fun l => if gave (map (map (rename_pair f)) gtl) (if skip then Ok (tm_init, XEmpty) else p2p_random (rows_from 0 bs') c (st l)) then 1 else 0))
    by (intros l _; rewrite E by (right; reflexivity); reflexivity).
  rewrite (mean_ext (fun l => if gave gtl (snd (market_run S m (AP2P c (st l)))) then 1 else 0) (fun l => if gave gtl (if skip then Ok (tm_init, XEmpty) else p2p_random (rows_from 0 bs) c (st l)) then 1 else 0))
    by (intros l _; rewrite E by (left; reflexivity); reflexivity).
  destruct skip; [cbn [gave]; rewrite !mean_const; [reflexivity | apply draws_some, F | apply draws_some, F']|].
  apply (moved_rows bs bs' f P Mv c Hq M K M' K' gtl F HK F' HK').
Qed.

(** two bids that ask for the same have the same chances *)
Theorem twin_chance d c x y : map lbl d = seq 0 (length d) -> qty_nonneg d -> In x d -> In y d -> buying x = buying y -> price x = price y -> qty x = qty y ->
  forall M K gtl, fair M (pairs_count d) -> (pairs_count d <= K)%nat ->
  share M K (p2p_random d c) (gave (map (map (rename_pair (exchange (lbl x) (lbl y)))) gtl)) = share M K (p2p_random d c) (gave gtl).
Proof.
  intros Hl Hq Ix Iy Eb Ep Eq M K gtl F HK.
  set (f := exchange (lbl x) (lbl y)). set (rn := fun r => if Nat.eqb (lbl r) (lbl x) then y else if Nat.eqb (lbl r) (lbl y) then x else r).
  assert (Hf : forall k, f (f k) = k).
  { intro k. unfold f, exchange. destruct (Nat.eqb_spec k (lbl x)) as [->|N1].
    - destruct (Nat.eqb_spec (lbl y) (lbl x)) as [E|_]; [exact E | rewrite Nat.eqb_refl; reflexivity].
    - destruct (Nat.eqb_spec k (lbl y)) as [->|N2]; [rewrite Nat.eqb_refl; reflexivity|]. rewrite (proj2 (Nat.eqb_neq _ _) N1), (proj2 (Nat.eqb_neq _ _) N2). reflexivity. }
  assert (Rw : forall r, In r d -> (lbl r = lbl x -> r = x) /\ (lbl r = lbl y -> r = y)).
  { intros r Hr. split; intro E; apply (row_of d Hl); assumption. }
  rewrite <- pairs_length in *.
  apply (g_share d d c f rn); try assumption.
  - intros i j E. rewrite <- (Hf i), <- (Hf j), E. reflexivity.
  - intros r _. unfold rn, f, exchange. destruct (Nat.eqb (lbl r) (lbl x)); [reflexivity|]. destruct (Nat.eqb (lbl r) (lbl y)); reflexivity.
  - intros r Hr. unfold rn. destruct (Nat.eqb_spec (lbl r) (lbl x)) as [E|_]; [apply (Rw r Hr) in E; subst r; congruence|]. destruct (Nat.eqb_spec (lbl r) (lbl y)) as [E|_]; [apply (Rw r Hr) in E; subst r; congruence | reflexivity].
  - intros r Hr. unfold rn. destruct (Nat.eqb_spec (lbl r) (lbl x)) as [E|_]; [apply (Rw r Hr) in E; subst r; congruence|]. destruct (Nat.eqb_spec (lbl r) (lbl y)) as [E|_]; [apply (Rw r Hr) in E; subst r; congruence | reflexivity].
  - intros r Hr. unfold rn. destruct (Nat.eqb_spec (lbl r) (lbl x)) as [E|_]; [apply (Rw r Hr) in E; subst r; congruence|]. destruct (Nat.eqb_spec (lbl r) (lbl y)) as [E|_]; [apply (Rw r Hr) in E; subst r; congruence | reflexivity].
  - assert (In_rn : forall r, In r d -> In (rn r) d) by (intros r Hr; unfold rn; destruct (Nat.eqb (lbl r) (lbl x)); [exact Iy|]; destruct (Nat.eqb (lbl r) (lbl y)); assumption).
    assert (Inv : forall r, In r d -> rn (rn r) = r).
    { intros r Hr. unfold rn. destruct (Nat.eqb_spec (lbl r) (lbl x)) as [E|N].
      - apply (Rw r Hr) in E. subst r. destruct (Nat.eqb_spec (lbl y) (lbl x)) as [E|_]; [apply (proj1 (Rw y Iy)) in E; exact E|]. rewrite Nat.eqb_refl. reflexivity.
      - destruct (Nat.eqb_spec (lbl r) (lbl y)) as [E|N2]; [rewrite Nat.eqb_refl; symmetry; apply (Rw r Hr), E|].
        rewrite (proj2 (Nat.eqb_neq _ _) N), (proj2 (Nat.eqb_neq _ _) N2). reflexivity. }
    assert (ND : NoDup d) by (apply (NoDup_map_inv lbl); apply (labels_ok d Hl)).
    apply NoDup_Permutation_bis.
    + assert (G : forall l, incl l d -> NoDup l -> NoDup (map rn l)).
      { induction l as [|a l IH]; intros I N; [constructor|]. inversion_clear N as [|? ? N1 N2]. cbn [map]. constructor; [|apply IH; [intros z Hz; apply I; right; exact Hz | exact N2]].
        intro J. apply in_map_iff in J. destruct J as (z & E & Hz). apply N1. assert (z = a) as <-; [|exact Hz].
        rewrite <- (Inv z), <- (Inv a), E; [reflexivity | apply I; left; reflexivity | apply I; right; exact Hz]. }
      apply G; [intros z; auto | exact ND].
    + rewrite map_length. apply le_n.
    + intros z Hz. apply in_map_iff in Hz. destruct Hz as (r & <- & Hr). apply In_rn, Hr.
Qed.

(** ** The law with the number of pairs, and the chances are positive *)
Lemma picks_positive d met tl T2 : forall T1, NoDup (bids_of (T1 ++ T2)) -> (forall p, In p T2 -> may_meet d met tl p) -> 0 < picks_chance d met tl T1 T2.
Proof.
  induction T2 as [|p T2 IH]; intros T1 N A; [cbn [picks_chance]; qlra|]. cbn [picks_chance]. apply qmult_pos.
  - unfold Qcdiv. rewrite Qcmult_1_l. apply AllocFacts.qinv_pos, num_of_pos.
    destruct (A p (or_introl eq_refl)) as (x & y & Ix & Iy & Bx & By & -> & Nm & Z).
    assert (I : In (x, y) (open_pairs d met tl T1)).
    { apply filter_In. split; [apply in_prod; apply filter_In; rewrite ?By; auto|]. cbn [open_pair]. apply andb_true_iff. split; [apply andb_true_iff; split|].
      - apply forallb_forall. intros [b s] Iq. apply negb_true_iff, andb_false_iff. cbn [fst snd].
        destruct (Nat.eqb_spec b (lbl x)) as [->|]; [|auto]. destruct (Nat.eqb_spec s (lbl y)) as [->|]; [contradiction | auto].
      - destruct met; [reflexivity|]. destruct Z as [Z|[Z1 Z2]]; [discriminate|]. apply qeqb_neq in Z1, Z2. rewrite Z1, Z2. reflexivity.
      - apply forallb_forall. intros q Iq. apply andb_true_iff. unfold bids_of in N. rewrite flat_map_app in N. cbn [flat_map app fst snd] in N.
        pose proof (NoDup_remove_2 _ _ _ N) as N2. apply NoDup_remove_1 in N. change (lbl y :: flat_map _ T2) with ([lbl y] ++ flat_map (fun p : nat * nat => [fst p; snd p]) T2) in N.
        pose proof (NoDup_remove_2 _ _ _ N) as N3.
        split; apply negb_true_iff, Nat.eqb_neq; intro E; [apply N2 | apply N3]; apply in_or_app; left; apply in_flat_map; exists q; rewrite <- E; cbn [In]; auto. }
    destruct (open_pairs d met tl T1); [contradiction | cbn [length]; lia].
  - apply IH; [rewrite <- app_assoc; exact N | intros q Iq; apply A; right; exact Iq].
Qed.
Theorem chance_positive (d : df) (c : Qc) : map lbl d = seq 0 (length d) -> forall gtl tl, Schedule d c gtl tl -> exists w, Chance d c gtl tl w /\ 0 < w.
Proof.
  intros Hl gtl tl H. induction H as [|gtl tl T tl' Sc IH Ex R D]; [exists 1; split; [constructor | qlra]|].
  destruct IH as (w & C & P). exists (w * picks_chance d (concat gtl) tl [] T). split; [econstructor; eassumption|].
  apply qmult_pos; [exact P|]. apply picks_positive; [exact (rd_disjoint _ _ _ _ R)|]. exact (rd_allowed _ _ _ _ R).
Qed.
Theorem p2p_law_count (d : df) (c : Qc) : map lbl d = seq 0 (length d) -> qty_nonneg d -> forall M, fair M (pairs_count d) ->
  forall gtl tl w K, Chance d c gtl tl w -> Stopped d gtl tl -> (pairs_count d <= K)%nat -> share M K (p2p_random d c) (gave gtl) = w.
Proof. intros Hl Hq M F gtl tl w K C St HK. rewrite <- pairs_length in *. eapply p2p_law; eassumption. Qed.
Theorem p2p_never_count (d : df) (c : Qc) : map lbl d = seq 0 (length d) -> qty_nonneg d -> forall M, fair M (pairs_count d) ->
  forall gtl K, ~ (exists tl, Schedule d c gtl tl /\ Stopped d gtl tl) -> share M K (p2p_random d c) (gave gtl) = 0.
Proof. intros Hl Hq M F gtl K N. rewrite <- pairs_length in *. apply p2p_never; assumption. Qed.
