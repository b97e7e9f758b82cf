(** Peer to peer trading with infinite values. *)
From Verif Require Import QcTac Num ModelBase ModelHuang ModelP2P ModelRound ModelAny ListFacts StoreFacts P2PFacts RoundFacts SpecAny SpecAnyRel AnyFacts AnyTop AnyRel.

(** ** Related sums *)
Section Sums.
  Context {A B : Type}.
  Variables (S : A -> B -> Prop) (add : A -> A -> A) (add' : B -> B -> B) (z : A) (z' : B).
  Hypothesis Hz : S z z'.
  Hypothesis Ha : forall x x' y y', S x x' -> S y y' -> S (add x y) (add' x' y').
  Lemma rel_fold l l' : Forall2 S l l' -> forall a a', S a a' -> S (fold_left add l a) (fold_left add' l' a').
  Proof. induction 1; simpl; auto. Qed.
  Lemma rel_firstn n : forall l l', Forall2 S l l' -> Forall2 S (firstn n l) (firstn n l').
  Proof. induction n as [|n IH]; intros l l' H; simpl; [constructor|]. destruct H; constructor; auto. Qed.
  Lemma rel_skipn n : forall l l', Forall2 S l l' -> Forall2 S (skipn n l) (skipn n l').
  Proof. induction n as [|n IH]; intros l l' H; simpl; [exact H|]. destruct H; auto. Qed.
  Lemma rel_every8 l l' : Forall2 S l l' -> forall j, Forall2 S (any_every8 j l) (any_every8 j l').
  Proof. induction 1; intros [|j]; simpl; auto. Qed.
  Lemma rel_block l l' : Forall2 S l l' -> S (any_block add z l) (any_block add' z' l').
  Proof.
    intro H. unfold any_block. rewrite (Forall2_length_eq _ _ _ H). destruct (Nat.ltb (length l') 8); [apply rel_fold; assumption|].
    unfold any_seq. apply rel_fold; [apply rel_skipn, H|].
    repeat apply Ha; apply rel_fold; try exact Hz; apply rel_every8, rel_firstn, H.
  Qed.
  Lemma rel_pair fuel : forall l l', Forall2 S l l' -> S (any_pair add z fuel l) (any_pair add' z' fuel l').
  Proof.
    induction fuel as [|fuel IH]; intros l l' H; cbn [any_pair]; [apply rel_block, H|]. rewrite (Forall2_length_eq _ _ _ H).
    destruct (Nat.leb (length l') 128); [apply rel_block, H|]. apply Ha; apply IH; [apply rel_firstn, H | apply rel_skipn, H].
  Qed.
  Lemma rel_sum l l' : Forall2 S l l' -> S (any_sum add z l) (any_sum add' z' l').
  Proof. intro H. unfold any_sum. rewrite (Forall2_length_eq _ _ _ H). apply rel_pair, H. Qed.
End Sums.
(** the sum is the one of ModelRound.v *)
Lemma every8_np l : forall j, any_every8 j l = every8 j l.
Proof. induction l as [|x l IH]; intros [|j]; simpl; rewrite ?IH; reflexivity. Qed.
Lemma any_sum_np (R : rounding) l : any_sum (fun x y => R (x + y)) 0 l = np_sum R l.
Proof.
  unfold any_sum, np_sum. generalize (length l). intro n. revert l. induction n as [|n IH]; intro l; cbn [any_pair np_pair].
  - unfold any_block, np_block, any_seq, seq_sum. rewrite !every8_np. reflexivity.
  - rewrite !IH. unfold any_block, np_block, any_seq, seq_sum. rewrite !every8_np. reflexivity.
Qed.
Lemma any_sum_exact l : any_sum (fun x y => x + y) 0 l = qsum l.
Proof. change (any_sum (fun x y => exact (x + y)) 0 l = qsum l). rewrite any_sum_np. apply sums_exact, np_sum_ok. Qed.

(** ** Finite values *)
Lemma nsub_fin x y : nsub (Fin x) (Fin y) = Fin (x - y).
Proof. unfold nsub. cbn [nmul nadd]. apply (f_equal Fin). ring. Qed.
Lemma fin_sum l l' : Forall2 (fun q n => n = Fin q) l l' -> any_sum nadd (Fin 0) l' = Fin (qsum l).
Proof.
  intro H. rewrite <- any_sum_exact.
  apply (rel_sum (fun q n => n = Fin q) (fun x y => x + y) nadd); auto. intros x x' y y' -> ->. reflexivity.
Qed.
Theorem any_finite c (d : list (arow Qc Qc)) r :
  same_result (fun q n => n = Fin q) (fun q n => n = Fin q) (a_run (ops_q c) d r)
    (a_run (ops_n (Fin c)) (map (fun x => mkARow (a_lbl x) (Fin (a_qty x)) (Fin (a_price x)) (a_buying x)) d) r).
Proof.
  apply (any_related (fun q n => n = Fin q)).
  - constructor; cbn [ops_q ops_r ops_n o_le o_mix o_free o_none o_min o_sub o_pos o_is0 o_more]; auto.
    + intros p p' q q' -> ->. reflexivity.
    + intros p p' q q' -> ->. rewrite nsub_fin. cbn [nmul nadd]. reflexivity.
    + intros p p' q q' -> ->. cbn [nltb]. unfold qmin. destruct (qlt_spec q p), (qle_spec p q); try reflexivity; exfalso; qlra.
    + intros p p' q q' -> ->. apply nsub_fin.
    + intros p p' ->. reflexivity.
    + intros p p' ->. reflexivity.
    + intros l l' H. rewrite (fin_sum l l' H). reflexivity.
  - induction d as [|x l IH]; simpl; constructor; auto. constructor; reflexivity.
Qed.

(** ** Infinite quantities *)
Definition amount (x : num) : Prop := x = PInf \/ exists q, 0 <= q /\ x = Fin q.
Lemma fold_amount l : forall a, amount a -> (forall x, In x l -> amount x) -> amount (fold_left nadd l a) /\ (a = PInf \/ In PInf l -> fold_left nadd l a = PInf).
Proof.
  induction l as [|x l IH]; intros a Ha Hl; simpl.
  - split; [exact Ha|]. intros [H|[]]; exact H.
  - assert (Hx : amount x) by (apply Hl; left; reflexivity).
    assert (Hs : amount (nadd a x) /\ (a = PInf \/ x = PInf -> nadd a x = PInf)).
    { destruct Ha as [->|(p & Hp & ->)], Hx as [->|(q & Hq & ->)]; simpl; split; try (left; reflexivity); auto.
      - right. exists (p + q). split; [qlra | reflexivity].
      - intros [H|H]; discriminate. }
    destruct Hs as [Hs1 Hs2]. destruct (IH (nadd a x) Hs1) as [I1 I2]; [intros y Hy; apply Hl; right; exact Hy|]. split; [exact I1|]. intro H. apply I2.
    destruct H as [H|[H|H]]; [left; apply Hs2; auto | left; apply Hs2; auto | right; exact H].
Qed.
Lemma every8_sub {A} (l : list A) : forall j x, In x (any_every8 j l) -> In x l.
Proof. induction l as [|a l IH]; intros [|j] x H; simpl in *; try contradiction; [destruct H as [H|H]; [auto | right; eapply IH; eauto]|]. right. eapply IH; eauto. Qed.
Lemma firstn_sub {A} n (l : list A) x : In x (firstn n l) -> In x l.
Proof. intro H. rewrite <- (firstn_skipn n l). apply in_or_app. auto. Qed.
Lemma skipn_sub {A} n (l : list A) x : In x (skipn n l) -> In x l.
Proof. intro H. rewrite <- (firstn_skipn n l). apply in_or_app. auto. Qed.
Lemma nadd_amount a x : amount a -> amount x -> amount (nadd a x) /\ (a = PInf \/ x = PInf -> nadd a x = PInf).
Proof.
  intros Ha Hx. destruct (fold_amount [x] a Ha) as [H1 H2]; [intros y [<-|[]]; exact Hx|]. simpl in H1, H2. split; [exact H1|]. intro H. apply H2. tauto.
Qed.
Lemma zero_amount : amount (Fin 0).
Proof. right. exists 0. split; [apply Qcle_refl | reflexivity]. Qed.
Lemma every8_pinf l : In PInf l -> exists j, (j < 8)%nat /\ In PInf (any_every8 j l).
Proof.
  induction l as [|x l IH]; [contradiction|]. intros [->|H]; [exists 0%nat; split; [lia | left; reflexivity]|].
  destruct (IH H) as (j & Lj & I). destruct (Nat.eq_dec j 7) as [->|N].
  - exists 0%nat. split; [lia|]. right. exact I.
  - exists (Datatypes.S j). split; [lia|]. exact I.
Qed.
Lemma block_amount l : (forall x, In x l -> amount x) -> amount (any_block nadd (Fin 0) l) /\ (In PInf l -> any_block nadd (Fin 0) l = PInf).
Proof.
  intro Hl. unfold any_block. destruct (Nat.ltb (length l) 8).
  { destruct (fold_amount l (Fin 0) zero_amount Hl) as [H1 H2]. split; auto. }
  set (n := (length l - length l mod 8)%nat).
  assert (Acc : forall j, amount (any_seq nadd (Fin 0) (any_every8 j (firstn n l))) /\ (In PInf (any_every8 j (firstn n l)) -> any_seq nadd (Fin 0) (any_every8 j (firstn n l)) = PInf)).
  { intro j. destruct (fold_amount (any_every8 j (firstn n l)) (Fin 0) zero_amount) as [H1 H2]; [intros x Hx; eapply Hl, firstn_sub, every8_sub, Hx|]. split; auto. }
  set (acc := fun j => any_seq nadd (Fin 0) (any_every8 j (firstn n l))).
  pose proof (fun j => proj1 (Acc j)) as Am. fold acc in Am. change (forall j, amount (acc j)) in Am.
  match goal with |- context [fold_left nadd (skipn n l) ?s] => set (t := s) end.
  assert (Ht : amount t /\ ((exists j, (j < 8)%nat /\ acc j = PInf) -> t = PInf)).
  { change t with (nadd (nadd (nadd (acc 0%nat) (acc 1%nat)) (nadd (acc 2%nat) (acc 3%nat))) (nadd (nadd (acc 4%nat) (acc 5%nat)) (nadd (acc 6%nat) (acc 7%nat)))).
    assert (G : forall a b, amount a -> amount b -> amount (nadd a b)) by (intros; apply nadd_amount; assumption).
    split; [repeat apply G; apply Am|]. intros (j & Lj & E).
    assert (Gl : forall a b, amount b -> a = PInf -> nadd a b = PInf) by (intros a b Hb ->; apply (nadd_amount PInf b); [left; reflexivity | exact Hb | auto]).
    assert (Gr : forall a b, amount a -> b = PInf -> nadd a b = PInf) by (intros a b Hb ->; apply (nadd_amount a PInf); [exact Hb | left; reflexivity | auto]).
    do 8 (destruct j as [|j]; [first
      [ apply Gl; [repeat apply G; apply Am|]; apply Gl; [repeat apply G; apply Am|]; apply Gl; [apply Am | exact E]
      | apply Gl; [repeat apply G; apply Am|]; apply Gl; [repeat apply G; apply Am|]; apply Gr; [apply Am | exact E]
      | apply Gl; [repeat apply G; apply Am|]; apply Gr; [repeat apply G; apply Am|]; apply Gl; [apply Am | exact E]
      | apply Gl; [repeat apply G; apply Am|]; apply Gr; [repeat apply G; apply Am|]; apply Gr; [apply Am | exact E]
      | apply Gr; [repeat apply G; apply Am|]; apply Gl; [repeat apply G; apply Am|]; apply Gl; [apply Am | exact E]
      | apply Gr; [repeat apply G; apply Am|]; apply Gl; [repeat apply G; apply Am|]; apply Gr; [apply Am | exact E]
      | apply Gr; [repeat apply G; apply Am|]; apply Gr; [repeat apply G; apply Am|]; apply Gl; [apply Am | exact E]
      | apply Gr; [repeat apply G; apply Am|]; apply Gr; [repeat apply G; apply Am|]; apply Gr; [apply Am | exact E] ]|]). lia. }
  destruct Ht as [Ht1 Ht2]. destruct (fold_amount (skipn n l) t Ht1) as [H1 H2]; [intros x Hx; eapply Hl, skipn_sub, Hx|].
  split; [exact H1|]. intro H. apply H2. rewrite <- (firstn_skipn n l) in H. apply in_app_or in H. destruct H as [H|H]; [left | right; exact H].
  apply Ht2. destruct (every8_pinf _ H) as (j & Lj & I). exists j. split; [exact Lj|]. apply (Acc j), I.
Qed.
Lemma pair_amount fuel : forall l, (forall x, In x l -> amount x) -> amount (any_pair nadd (Fin 0) fuel l) /\ (In PInf l -> any_pair nadd (Fin 0) fuel l = PInf).
Proof.
  induction fuel as [|fuel IH]; intros l Hl; cbn [any_pair]; [apply block_amount, Hl|].
  destruct (Nat.leb (length l) 128); [apply block_amount, Hl|].
  destruct (IH (firstn (np_half (length l)) l)) as [A1 A2]; [intros x Hx; eapply Hl, firstn_sub, Hx|].
  destruct (IH (skipn (np_half (length l)) l)) as [B1 B2]; [intros x Hx; eapply Hl, skipn_sub, Hx|].
  destruct (nadd_amount _ _ A1 B1) as [H1 H2]. split; [exact H1|]. intro H. apply H2. rewrite <- (firstn_skipn (np_half (length l)) l) in H.
  apply in_app_or in H. destruct H as [H|H]; auto.
Qed.
Lemma more_pinf c l : (forall x, In x l -> amount x) -> In PInf l -> o_more (ops_n c) l = true.
Proof. intros Hl H. cbn [ops_n o_more]. unfold any_sum. rewrite (proj2 (pair_amount _ l Hl) H). reflexivity. Qed.
Lemma more_nan c l : In NaN l -> o_more (ops_n c) l = false.
Proof. intro H. cbn [ops_n o_more]. rewrite nan_sum_n by exact H. reflexivity. Qed.
