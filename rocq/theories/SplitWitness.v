(** Tables where sending a bid in pieces pays. *)
From Verif Require Import QcTac Num ModelBase ModelCurves ModelHuang ModelMuda ModelP2P ModelUniform Spec SpecTrade SpecMuda SpecHuang SpecAlloc SpecSplit SpecChance
  Sorter Conform PlotWitness MudaWitness.

(** four units are traded; the ask at 6 is served in part and sets the price *)
Definition whole_u : df := frame [B (qz 3) (qz 9) 0; B 1 (qz 8) 1; A (qz 2) 1 2; A (qz 3) (qz 6) 3].
(** its owner sends 2 and 1 instead; the first piece is used up, and the price becomes (6 + 8) / 2 *)
Definition cut_u : df := frame [B (qz 3) (qz 9) 0; B 1 (qz 8) 1; A (qz 2) 1 2; A (qz 2) (qz 6) 3; A 1 (qz 6) 3].
(** the buyer of 2 at 10 finds one unit in the left half *)
Definition whole_m : df := frame [B (qz 2) (qz 10) 0; A 1 1 1; B 1 (qz 8) 2; A (qz 2) (qz 3) 3].
(** the same as two buyers *)
Definition cut_m : df := frame [B 1 (qz 10) 0; A 1 1 1; B 1 (qz 8) 2; A (qz 2) (qz 3) 3; B 1 (qz 10) 4].
Definition flips_m := [true; true; false; false].
(** the second name is drawn to the right half, or to the left one *)
Definition flips_right := [true; true; false; false; false].
Definition flips_left := [true; true; false; false; true].
Definition row_no (d : df) (i : nat) : row := nth i d (row_of 0 (A 0 0 0)).

Lemma whole_u_ok : qty_pos whole_u /\ price_nonneg whole_u /\ labels_unique whole_u /\ labels_unique cut_u /\ prices_distinct whole_u /\ asks_pos whole_u.
Proof. split; [each_row|]. split; [each_row|]. split; [no_dup|]. split; [no_dup|]. split; [split; no_dup | each_row]. Qed.
Lemma pieces_u : pieces_of (row_no whole_u 3) [row_no cut_u 3; row_no cut_u 4].
Proof.
  split; [vm_compute; reflexivity|]. split; [|apply Qc_is_canon; vm_compute; reflexivity].
  intros x [<-|[<-|[]]]; (split; [vm_compute; reflexivity|]); (split; reflexivity).
Qed.
Lemma price_moves : ~ (forall (S S' : sorter) (d d' : df) r l o tm c p tm' c' p', qty_pos d -> price_nonneg d -> labels_unique d -> labels_unique d' -> prices_distinct d -> asks_pos d ->
  pieces_of r l -> Permutation d (r :: o) -> Permutation d' (l ++ o) ->
  uniform_run S d = Ok (tm, XUniform (Fin c) (Fin p)) -> uniform_run S' d' = Ok (tm', XUniform (Fin c') (Fin p')) -> p' = p).
Proof.
  intro H. destruct whole_u_ok as (A1 & A2 & A3 & A4 & A5 & A6).
  assert (K : match uniform_run SS whole_u, uniform_run SS cut_u with Ok (_, XUniform (Fin _) (Fin p)), Ok (_, XUniform (Fin _) (Fin p')) => qltb p p' | _, _ => false end = true) by (vm_compute; reflexivity).
  destruct (uniform_run SS whole_u) as [[tm [| | | |[c| | |] [p| | |]]]|] eqn:E; try discriminate K. destruct (uniform_run SS cut_u) as [[tm' [| | | |[c'| | |] [p'| | |]]]|] eqn:E'; try discriminate K.
  apply (proj1 (qltb_lt _ _)) in K.
  assert (X : p' = p); [|rewrite X in K; exact (Qclt_not_eq _ _ K eq_refl)].
  apply (H SS SS whole_u cut_u (row_no whole_u 3) [row_no cut_u 3; row_no cut_u 4] (firstn 3 whole_u) tm c p tm' c' p' A1 A2 A3 A4 A5 A6 pieces_u); [| |exact E | exact E'].
  - change whole_u with (firstn 3 whole_u ++ [row_no whole_u 3]). symmetry. apply Permutation_cons_append.
  - change cut_u with (firstn 3 whole_u ++ [row_no cut_u 3; row_no cut_u 4]). apply Permutation_app_comm.
Qed.

Lemma pieces_m : pieces_of (row_no whole_m 0) [row_no cut_m 0; row_no cut_m 4].
Proof.
  split; [vm_compute; reflexivity|]. split; [|apply Qc_is_canon; vm_compute; reflexivity].
  intros x [<-|[<-|[]]]; (split; [vm_compute; reflexivity|]); (split; reflexivity).
Qed.
Lemma names_pay : ~ (forall (S : sorter) l1 l2 l3 r x1 x2 fl fl' tm tm' L R L' R' pl pr pl' pr' fees fees',
  let d := l1 ++ r :: l2 ++ l3 in let d' := l1 ++ x1 :: l2 ++ x2 :: l3 in
  qty_nonneg d -> labels_unique d -> labels_unique d' -> (forall x, In x d -> (0 <= user x)%Z) -> (0 <= user x2)%Z ->
  pieces_of r [x1; x2] -> user x1 = user r -> (forall x, In x d -> user x <> user x2) ->
  muda S d fl = Ok (tm, XMuda L R pl pr fees) -> muda S d' fl' = Ok (tm', XMuda L' R' pl' pr' fees') ->
  (forall x, In x (l1 ++ l2 ++ l3) -> (In (lbl x) L <-> In (lbl x) L')) -> (In (lbl x1) L' <-> In (lbl r) L) ->
  (forall x, In x d -> user x = user r -> x = r) ->
  net d' (tm_trans tm') fees' (user r) + net d' (tm_trans tm') fees' (user x2) <= net d (tm_trans tm) fees (user r)).
Proof.
  intro H.
  assert (K : match muda SS whole_m flips_m, muda SS cut_m flips_right with
    | Ok (tm, XMuda L _ _ _ fees), Ok (tm', XMuda L' _ _ _ fees') =>
      forallb (fun p => Nat.eqb (fst p) (snd p)) (combine L [0; 1]%nat) && Nat.eqb (length L) 2 && forallb (fun p => Nat.eqb (fst p) (snd p)) (combine L' [0; 1]%nat) && Nat.eqb (length L') 2 &&
      qltb (net whole_m (tm_trans tm) fees 0) (net cut_m (tm_trans tm') fees' 0 + net cut_m (tm_trans tm') fees' 4)
    | _, _ => false end = true) by (vm_compute; reflexivity).
  destruct (muda SS whole_m flips_m) as [[tm [| |L R pl pr fees| |]]|] eqn:E; try discriminate K. destruct (muda SS cut_m flips_right) as [[tm' [| |L' R' pl' pr' fees'| |]]|] eqn:E'; try discriminate K.
  rewrite !andb_true_iff in K. destruct K as [[[[K1 K2] K3] K4] K5]. apply (proj1 (qltb_lt _ _)) in K5. apply Nat.eqb_eq in K2, K4.
  destruct L as [|a [|b [|]]]; try discriminate K2. destruct L' as [|a' [|b' [|]]]; try discriminate K4.
  cbn [combine forallb fst snd] in K1, K3. rewrite !andb_true_iff, !Nat.eqb_eq in K1, K3. destruct K1 as (-> & -> & _). destruct K3 as (-> & -> & _).
  apply (Qclt_not_le _ _ K5).
  apply (H SS [] (skipn 1 whole_m) [] (row_no whole_m 0) (row_no cut_m 0) (row_no cut_m 4) flips_m flips_right tm tm' [0; 1]%nat R [0; 1]%nat R' pl pr pl' pr' fees fees').
  - change (qty_nonneg whole_m). each_row.
  - change (labels_unique whole_m). no_dup.
  - change (labels_unique cut_m). no_dup.
  - change (forall x, In x whole_m -> (0 <= user x)%Z). each_row.
  - cbn. lia.
  - exact pieces_m.
  - reflexivity.
  - change (forall x, In x whole_m -> user x <> 4%Z). each_row.
  - exact E.
  - exact E'.
  - intros x _. reflexivity.
  - reflexivity.
  - change (forall x, In x whole_m -> user x = 0%Z -> x = row_no whole_m 0). intros x [<-|[<-|[<-|[<-|[]]]]] X; try discriminate X. reflexivity.
Qed.
