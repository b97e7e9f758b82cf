(** Witnesses for the uniform price mechanism and the truthfulness of p2p. *)
From Verif Require Import QcTac Num NumFacts ModelBase ModelCurves ModelHuang ModelMuda ModelP2P ModelMarket ModelStats ModelUniform Spec SpecTrade SpecMuda SpecHuang Sorter Conform MudaWitness HuangWitness.

(** a buyer that bids less than its value gets a better price *)
Definition one_pair : df := frame [B (qz 1) (qz 10) 0; A (qz 1) (qz 2) 1].
Definition one_pair' : df := frame [B (qz 1) (qz 8) 0; A (qz 1) (qz 2) 1].
Lemma uniform_untruthful :
  exists (S : sorter) (d d' : df) (u : Z) tm ex tm' ex', qty_pos d /\ price_nonneg d /\ price_nonneg d' /\ labels_unique d /\
    prices_distinct d /\ prices_distinct d' /\ asks_pos d /\
    (forall r r', In r d -> In r' d -> user r = u -> user r' = u -> r = r') /\ Forall2 (misprice u) d d' /\
    uniform_run S d = Ok (tm, ex) /\ uniform_run S d' = Ok (tm', ex') /\
    profit d u (tm_trans tm) < profit d u (tm_trans tm').
Proof.
  destruct (better_is (uniform_run SS one_pair) (uniform_run SS one_pair') one_pair 0) as (tm & ex & tm' & ex' & E & E' & P); [vm_compute; reflexivity|].
  exists SS, one_pair, one_pair', 0%Z, tm, ex, tm', ex'.
  split; [each_row|]. split; [each_row|]. split; [each_row|]. split; [no_dup|].
  split; [split; no_dup|]. split; [split; no_dup|]. split; [each_row|].
  split. { intros r r' [<-|[<-|[]]] [<-|[<-|[]]] H H'; try reflexivity; vm_compute in H, H'; discriminate. }
  split; [|auto]. repeat (constructor; [vm_compute; intuition congruence|]). constructor.
Qed.

(** the buyer at 8 would gladly buy at the price 11/2 and does not trade *)
Definition left_out : df := frame [B (qz 1) (qz 10) 0; B (qz 1) (qz 8) 1; A (qz 1) (qz 1) 2; A (qz 1) (qz 9) 3].
Lemma uniform_left_out :
  exists (S : sorter) (d : df) tm c p r, qty_pos d /\ price_nonneg d /\ labels_unique d /\ prices_distinct d /\ asks_pos d /\
    uniform_run S d = Ok (tm, XUniform c (Fin p)) /\ In r d /\ buying r = true /\ p < price r /\ traded_by (lbl r) (tm_trans tm) = 0.
Proof.
  destruct (uniform_run SS left_out) as [[tm [| | | |c [p| | |]]]|] eqn:E; try (vm_compute in E; discriminate E).
  exists SS, left_out, tm, c, p, (row_of 1 (B (qz 1) (qz 8) 1)).
  split; [each_row|]. split; [each_row|]. split; [no_dup|]. split; [split; no_dup|]. split; [each_row|]. split; [exact E|].
  split; [right; left; reflexivity|]. split; [reflexivity|].
  assert (K : match uniform_run SS left_out with Ok (tm, XUniform _ (Fin p)) => qltb p (qz 8) && qeqb (traded_by 1 (tm_trans tm)) 0 | _ => false end = true) by (vm_compute; reflexivity).
  rewrite E in K. apply andb_true_iff in K. destruct K as [K1 K2]. split; [apply (proj1 (qltb_lt _ _)) in K1; exact K1 | apply (proj1 (qeqb_eq _ _)) in K2; exact K2].
Qed.

(** ** p2p with one buyer and one seller *)
Definition pair_df (b s : bid) : df := rows_from 0 [b; s].
Lemma mask_one ps l : length ps = 1%nat -> fold_left (fun a i => mask_and a (pairs_row ps i)) l [false] = [false].
Proof.
  intro H. destruct ps as [|p [|? ?]]; try discriminate. induction l as [|i l IH]; [reflexivity|]. cbn [fold_left].
  change (mask_and [false] (pairs_row [p] i)) with [false]. exact IH.
Qed.
Lemma pair_run (b s : bid) c r : b_buying b = true -> b_buying s = false -> 0 < b_qty b -> 0 < b_qty s -> b_price s <= b_price b ->
  exists tm ab as_, p2p_random (pair_df b s) c r = Ok (tm, XP2P [[(0, 1)%nat]]) /\
    tm_trans tm =
      [mkTrans 0 (qmin (b_qty b) (b_qty s)) (b_price b * c + (1 - c) * b_price s) 1 ab;
       mkTrans 1 (qmin (b_qty b) (b_qty s)) (b_price b * c + (1 - c) * b_price s) 0 as_].
Proof.
  intros Bb Bs Qb Qs L. destruct b as [qb pb ub bb tb db], s as [qs ps us bs ts ds]. cbn [b_buying b_qty b_price] in *. subst bb bs.
  unfold p2p_random, pair_df. cbn [rows_from row_of b_qty b_price b_user b_buying b_time b_div].
  set (d := [_; _]).
  change (all_pairs d) with [(0, 1)%nat]. cbn [forallb fst snd length Nat.ltb Nat.leb andb repeat d].
  change (map price d) with [pb; ps]. change (map qty d) with [qb; qs].
  cbn [p2p_loop]. assert (Q : qltb 0 (qsum [qb; qs]) = true) by (apply qltb_lt; cbn; qlra). rewrite Q. cbn [existsb orb andb].
  change (length [(0, 1)%nat]) with 1%nat. cbn [pick_round]. change (where_true [true]) with [0%nat]. cbv iota. unfold choose. cbn [length]. rewrite Nat.mod_1_r. cbn [nth nth_error].
  change (where_true _) with (@nil nat). cbn [bind]. cbn [app fold_left trade_pair nth fst snd].
  rewrite (proj2 (qleb_le _ _) L). cbv zeta. cbn [set_nth nth].
  unfold next_tmp. change (length [(0, 1)%nat]) with 1%nat. change (set_nth 0 false [true]) with [false].
  rewrite mask_one by reflexivity. cbn [existsb orb]. rewrite andb_false_r. cbn [bind].
  eexists _, _, _. split; [reflexivity|]. reflexivity.
Qed.

Lemma p2p_pair_untruthful (b s : bid) (v : Qc) c r : b_buying b = true -> b_buying s = false -> 0 < b_qty b -> 0 < b_qty s ->
  b_user b <> b_user s -> 0 < c -> b_price s <= v -> v < b_price b ->
  let b' := mkBid (b_qty b) v (b_user b) true (b_time b) (b_div b) in
  exists tm ex tm' ex', p2p_random (pair_df b s) c r = Ok (tm, ex) /\ p2p_random (pair_df b' s) c r = Ok (tm', ex') /\
    profit (pair_df b s) (b_user b) (tm_trans tm) < profit (pair_df b s) (b_user b) (tm_trans tm').
Proof.
  intros Bb Bs Qb Qs U C0 L1 L2 b'.
  destruct (pair_run b s c r Bb Bs Qb Qs) as (tm & x & y & E & T); [qlra|].
  destruct (pair_run b' s c r eq_refl Bs Qb Qs L1) as (tm' & x' & y' & E' & T'). cbn [b_qty b_price b'] in T'.
  exists tm, (XP2P [[(0, 1)%nat]]), tm', (XP2P [[(0, 1)%nat]]). split; [exact E|]. split; [exact E'|]. rewrite T, T'.
  unfold profit, pair_df, by_user. cbn [rows_from]. unfold row_of at 1 2 3 4. cbn [filter user].
  rewrite Z.eqb_refl. destruct (Z.eqb_spec (b_user s) (b_user b)) as [X|_]; [congruence|].
  rewrite !qsumf_cons, !qsumf_nil. cbn [filter t_bid lbl Nat.eqb]. rewrite !qsumf_cons, !qsumf_nil. unfold gain. cbn [t_price t_qty buying price]. rewrite Bb.
  assert (M : 0 < qmin (b_qty b) (b_qty s)) by (destruct (qmin_case (b_qty b) (b_qty s)) as [[-> _]|[-> _]]; assumption).
  set (m := qmin _ _) in *. pose proof (qmult_pos _ _ (qmult_pos _ _ C0 (proj1 (Qclt_minus_iff _ _) L2)) M) as K. 
  apply (proj2 (Qclt_minus_iff _ _)).
  replace ((b_price b - (v * c + (1 - c) * b_price s)) * m + 0 + 0 + - ((b_price b - (b_price b * c + (1 - c) * b_price s)) * m + 0 + 0)) with (c * (b_price b + - v) * m) by ring. exact K.
Qed.
