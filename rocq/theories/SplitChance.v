(** One bid sent as several: the chances of meeting in peer to peer trading. *)
From Verif Require Import QcTac Num ModelBase ModelHuang ModelP2P Spec SpecTrade SpecP2P SpecChance StoreFacts MergeFacts P2POrder ChanceFacts ChanceTop AllocFacts.

Lemma ratio_lt a b k : (0 < a)%nat -> (0 < b)%nat -> (b < k * a)%nat -> 1 / num_of a < num_of k * (1 / num_of b).
Proof.
  intros Ha Hb H. assert (H' : num_of b < num_of k * num_of a) by (rewrite <- num_of_mul; apply (proj1 (qz_lt _ _)); lia).
  pose proof (qinv_pos _ (num_of_pos a Ha)) as A. pose proof (qinv_pos _ (num_of_pos b Hb)) as B. unfold Qcdiv. rewrite !Qcmult_1_l.
  pose proof (Qcmult_inv_r _ (num_of_neq a Ha)) as IA. pose proof (Qcmult_inv_r _ (num_of_neq b Hb)) as IB.
  assert (X : num_of b * (/ num_of a * / num_of b) < num_of k * num_of a * (/ num_of a * / num_of b)) by (apply Qcmult_lt_compat_r; [apply qmult_pos; assumption | exact H']).
  replace (num_of b * (/ num_of a * / num_of b)) with (num_of b * / num_of b * / num_of a) in X by ring.
  replace (num_of k * num_of a * (/ num_of a * / num_of b)) with (num_of a * / num_of a * (num_of k * / num_of b)) in X by ring.
  rewrite IA, IB, !Qcmult_1_l in X. exact X.
Qed.
Lemma count_rows (f : row -> bool) (g : bid -> bool) l : (forall i b, f (ModelBase.row_of i b) = g b) -> forall i, length (filter f (rows_from i l)) = length (filter g l).
Proof. intro H. induction l as [|b l IH]; intro i; [reflexivity|]. cbn [rows_from filter]. rewrite H. destruct (g b); cbn [length]; rewrite IH; reflexivity. Qed.

Theorem p2p_pieces l1 b l2 ps c M K M' K' : (forall q, In q ps -> b_buying q = b_buying b) -> (2 <= length ps)%nat ->
  let d := rows_from 0 (l1 ++ b :: l2) in let d' := rows_from 0 (l1 ++ ps ++ l2) in
  qty_pos d -> qty_pos d' -> fair M (pairs_count d) -> (pairs_count d <= K)%nat -> fair M' (pairs_count d') -> (pairs_count d' <= K')%nat ->
  forall x y x' y', In x d -> In y d -> buying x = true -> buying y = false -> In x' d' -> In y' d' -> buying x' = true -> buying y' = false ->
    share M' K' (p2p_random d' c) (met_first (lbl x', lbl y')) < share M K (p2p_random d c) (met_first (lbl x, lbl y)) /\
    ((exists q, In q (l1 ++ l2) /\ b_buying q = b_buying b) ->
      share M K (p2p_random d c) (met_first (lbl x, lbl y)) < num_of (length ps) * share M' K' (p2p_random d' c) (met_first (lbl x', lbl y'))).
Proof.
  intros Hs Hl d d' Hq Hq' F Hk F' Hk' x y x' y' Ix Iy Bx By Ix' Iy' Bx' By'.
  rewrite (first_chance d c (rows_labels _) (fun r H => Qclt_le_weak _ _ (Hq r H)) (ex_intro _ x (conj Ix (Hq x Ix))) M K F Hk x y Ix Iy Bx By).
  rewrite (first_chance d' c (rows_labels _) (fun r H => Qclt_le_weak _ _ (Hq' r H)) (ex_intro _ x' (conj Ix' (Hq' x' Ix'))) M' K' F' Hk' x' y' Ix' Iy' Bx' By').
  assert (Nz : forall (f : row -> bool) (e : df) z, In z e -> f z = true -> (1 <= length (filter f e))%nat).
  { intros f e z Hz Fz. assert (I : In z (filter f e)) by (apply filter_In; auto). destruct (filter f e); [destruct I | cbn [length]; lia]. }
  pose proof (Nz buying d x Ix Bx) as N1. pose proof (Nz (fun r => negb (buying r)) d y Iy ltac:(cbn beta; rewrite By; reflexivity)) as N2.
  unfold pairs_count. revert N1 N2. unfold d, d'. rewrite !(count_rows buying b_buying), !(count_rows (fun r => negb (buying r)) (fun q => negb (b_buying q))) by reflexivity.
  rewrite !filter_app, !app_length. cbn [filter].
  assert (Ps : forall f : bid -> bool, (forall q q', b_buying q = b_buying q' -> f q = f q') -> length (filter f ps) = if f b then length ps else 0%nat).
  { intros f Hf. destruct (f b) eqn:E; [rewrite ListFacts.filter_all; [reflexivity|] | rewrite ListFacts.filter_none; [reflexivity|]]; intros q Hq0; rewrite <- E; apply Hf, Hs, Hq0. }
  rewrite (Ps b_buying (fun q q' H => H)), (Ps (fun q => negb (b_buying q)) (fun q q' H => f_equal negb H)).
  assert (Os : forall f : bid -> bool, (forall q q', b_buying q = b_buying q' -> f q = f q') -> f b = true -> (exists q, In q (l1 ++ l2) /\ b_buying q = b_buying b) -> (1 <= length (filter f l1) + length (filter f l2))%nat).
  { intros f Hf Fb (q & Iq & Bq). rewrite <- app_length, <- filter_app. assert (I : In q (filter f (l1 ++ l2))) by (apply filter_In; split; [exact Iq|]; rewrite <- Fb; apply Hf, Bq). destruct (filter f (l1 ++ l2)); [destruct I | cbn [length]; lia]. }
  specialize (Os b_buying (fun q q' H => H)) as O1. specialize (Os (fun q => negb (b_buying q)) (fun q q' H => f_equal negb H)) as O2. cbn beta in O1, O2.
  set (k := length ps) in *. set (a1 := length (filter b_buying l1)) in *. set (a2 := length (filter b_buying l2)) in *.
  set (e1 := length (filter (fun q => negb (b_buying q)) l1)) in *. set (e2 := length (filter (fun q => negb (b_buying q)) l2)) in *.
  destruct (b_buying b); cbn [negb length] in *; intros N1 N2.
  - split.
    + match goal with |- _ < ?g => replace g with (num_of 1 * g) by (rewrite num_of_1; apply Qcmult_1_l) end. apply ratio_lt; nia.
    + intro Ex. specialize (O1 eq_refl Ex). apply ratio_lt; nia.
  - split.
    + match goal with |- _ < ?g => replace g with (num_of 1 * g) by (rewrite num_of_1; apply Qcmult_1_l) end. apply ratio_lt; nia.
    + intro Ex. specialize (O2 eq_refl Ex). apply ratio_lt; nia.
Qed.
