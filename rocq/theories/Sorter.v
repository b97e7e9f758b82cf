(** A concrete (stable insertion) sorter: shows that [sorter] is inhabited and is used in examples. *)
From Verif Require Import QcTac Num ModelBase.

Fixpoint ins (le : row -> row -> bool) (x : row) (l : df) : df :=
  match l with
  | [] => [x]
  | y :: r => if le x y then x :: l else y :: ins le x r
  end.
Definition isort (le : row -> row -> bool) (l : df) : df := fold_right (ins le) [] l.

Lemma ins_perm le x l : Permutation (ins le x l) (x :: l).
Proof.
  induction l as [|y r IH]; simpl; [reflexivity|].
  destruct (le x y); [reflexivity|]. rewrite IH. apply perm_swap.
Qed.
Lemma isort_perm le l : Permutation (isort le l) l.
Proof.
  induction l as [|x r IH]; simpl; [constructor|].
  rewrite ins_perm. constructor. exact IH.
Qed.

Section Sorted.
  Variable le : row -> row -> bool.
  Variable R : row -> row -> Prop.
  Hypothesis le_true : forall a b, le a b = true -> R a b.
  Hypothesis le_false : forall a b, le a b = false -> R b a.
  Hypothesis R_trans : forall a b c, R a b -> R b c -> R a c.

  Lemma ins_sorted x l : StronglySorted R l -> StronglySorted R (ins le x l).
  Proof.
    induction 1 as [|y r Hr IH Hy]; simpl.
    - constructor; constructor.
    - destruct (le x y) eqn:E.
      + constructor; [constructor; assumption|].
        constructor; [auto|]. rewrite Forall_forall in *. eauto.
      + constructor; [exact IH|].
        rewrite Forall_forall. intros z Hz.
        apply (Permutation_in z (ins_perm le x r)) in Hz. destruct Hz as [<-|Hz]; [auto|].
        rewrite Forall_forall in Hy. auto.
  Qed.
  Lemma isort_sorted l : StronglySorted R (isort le l).
  Proof. induction l; simpl; [constructor | apply ins_sorted; assumption]. Qed.
End Sorted.

Definition le_asc (a b : row) : bool := qleb (price a) (price b).
Definition le_desc (a b : row) : bool := qleb (price b) (price a).

Lemma isort_asc_sorted l : StronglySorted (fun a b => price a <= price b) (isort le_asc l).
Proof.
  apply isort_sorted; unfold le_asc; intros a b.
  - apply qleb_le.
  - intros H. apply qleb_gt in H. qlra.
  - intros c. qlra.
Qed.
Lemma isort_desc_sorted l : StronglySorted (fun a b => price b <= price a) (isort le_desc l).
Proof.
  apply isort_sorted; unfold le_desc; intros a b.
  - apply qleb_le.
  - intros H. apply qleb_gt in H. qlra.
  - intros c. qlra.
Qed.

Definition stable_sorter : sorter :=
  mkSorter (isort le_asc) (isort le_desc) (isort_perm le_asc) (isort_perm le_desc)
    isort_asc_sorted isort_desc_sorted.
