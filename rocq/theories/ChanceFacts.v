(** Averages over all draws of the random generator. *)
From Verif Require Import QcTac Num ModelBase ModelHuang ModelP2P ListFacts MergeFacts AllocFacts P2PFacts SpecP2P SpecChance.

Lemma num_of_0 : num_of 0 = 0.
Proof. apply qz_0. Qed.
Lemma num_of_1 : num_of 1 = 1.
Proof. apply qz_1. Qed.
Lemma num_of_S n : num_of (S n) = 1 + num_of n.
Proof. unfold num_of. rewrite Nat2Z.inj_succ. unfold Z.succ. rewrite qz_plus, qz_1. ring. Qed.
Lemma num_of_add a b : num_of (a + b) = num_of a + num_of b.
Proof. unfold num_of. rewrite Nat2Z.inj_add. apply qz_plus. Qed.
Lemma num_of_mul a b : num_of (a * b) = num_of a * num_of b.
Proof. unfold num_of. rewrite Nat2Z.inj_mul. apply qz_mult. Qed.
Lemma num_of_pos n : (0 < n)%nat -> 0 < num_of n.
Proof. intro H. unfold num_of. rewrite <- qz_0. apply (proj1 (qz_lt _ _)). lia. Qed.
Lemma num_of_neq n : (0 < n)%nat -> num_of n <> 0.
Proof. intros H E. apply num_of_pos in H. rewrite E in H. qlra. Qed.
Lemma num_of_nonneg n : 0 <= num_of n.
Proof. destruct n; [rewrite num_of_0; qlra|]. pose proof (num_of_pos (S n) ltac:(lia)). qlra. Qed.

Lemma qsumf_const {A} (a : Qc) (l : list A) : qsumf (fun _ => a) l = num_of (length l) * a.
Proof. induction l as [|x l IH]; [rewrite qsumf_nil; cbn [length]; rewrite num_of_0; ring|]. rewrite qsumf_cons, IH. cbn [length]. rewrite num_of_S. ring. Qed.
Lemma qsumf_flat {A B} (f : B -> Qc) (g : A -> list B) l : qsumf f (flat_map g l) = qsumf (fun x => qsumf f (g x)) l.
Proof. induction l as [|x l IH]; [reflexivity|]. cbn [flat_map]. rewrite qsumf_app, qsumf_cons, IH. reflexivity. Qed.

(** ** means *)
Lemma mean_ext {A} (f g : A -> Qc) l : (forall x, In x l -> f x = g x) -> mean f l = mean g l.
Proof. intro H. unfold mean. rewrite (qsumf_ext f g) by exact H. reflexivity. Qed.
Lemma mean_map {A B} (f : B -> Qc) (g : A -> B) l : mean f (map g l) = mean (fun x => f (g x)) l.
Proof. unfold mean. rewrite qsumf_map, map_length. reflexivity. Qed.
Lemma mean_const {A} (a : Qc) (l : list A) : l <> [] -> mean (fun _ => a) l = a.
Proof.
  intro H. unfold mean. rewrite qsumf_const. assert (num_of (length l) <> 0) by (apply num_of_neq; destruct l; [congruence | cbn [length]; lia]).
  field. assumption.
Qed.
Lemma mean_perm {A} (f : A -> Qc) l l' : Permutation l l' -> mean f l = mean f l'.
Proof. intro P. unfold mean. rewrite (QcTac.qsumf_perm f _ _ P), (Permutation_length P). reflexivity. Qed.
Lemma mean_plus {A} (f g : A -> Qc) l : mean (fun x => f x + g x) l = mean f l + mean g l.
Proof. unfold mean. rewrite qsumf_plus. unfold Qcdiv. ring. Qed.
Lemma mean_scale {A} (a : Qc) (f : A -> Qc) l : mean (fun x => a * f x) l = a * mean f l.
Proof. unfold mean. rewrite qsumf_scale. unfold Qcdiv. ring. Qed.
Lemma mean_le {A} (f g : A -> Qc) l : (forall x, In x l -> f x <= g x) -> mean f l <= mean g l.
Proof.
  intro H. unfold mean, Qcdiv. destruct l as [|a l]; [rewrite !qsumf_nil; qlra|]. apply qmult_le_r; [|apply qsumf_le, H].
  apply Qclt_le_weak, AllocFacts.qinv_pos, num_of_pos. cbn [length]. lia.
Qed.

(** ** draws *)
Lemma draws_length M K : length (draws M K) = (M ^ K)%nat.
Proof.
  induction K as [|K IH]; [reflexivity|]. cbn [draws Nat.pow]. rewrite <- IH.
  assert (G : forall l : list nat, length (flat_map (fun x => map (cons x) (draws M K)) l) = (length l * length (draws M K))%nat).
  { induction l as [|x l IHl]; [reflexivity|]. cbn [flat_map length]. rewrite app_length, map_length, IHl. lia. }
  rewrite G, seq_length. reflexivity.
Qed.
Lemma draws_some M K : (0 < M)%nat -> draws M K <> [].
Proof. intros H E. pose proof (draws_length M K) as L. rewrite E in L. cbn [length] in L. pose proof (Nat.pow_nonzero M K ltac:(lia)). lia. Qed.
Lemma mean_draws M K (F : list nat -> Qc) : (0 < M)%nat ->
  mean F (draws M (S K)) = mean (fun x => mean (fun l => F (x :: l)) (draws M K)) (seq 0 M).
Proof.
  intro H. unfold mean at 1 2. rewrite draws_length, seq_length. cbn [draws]. rewrite qsumf_flat.
  rewrite (qsumf_ext _ (fun x => num_of (M ^ K) * mean (fun l => F (x :: l)) (draws M K))).
  - rewrite qsumf_scale. cbn [Nat.pow]. rewrite num_of_mul. pose proof (num_of_neq M H). assert (num_of (M ^ K) <> 0) by (apply num_of_neq; pose proof (Nat.pow_nonzero M K); lia).
    field. split; assumption.
  - intros x _. rewrite qsumf_map. unfold mean. rewrite draws_length.
    assert (num_of (M ^ K) <> 0) by (apply num_of_neq; pose proof (Nat.pow_nonzero M K); lia). field. assumption.
Qed.
Lemma sum_mod (h : nat -> Qc) n q : (0 < n)%nat -> qsumf (fun x => h (Nat.modulo x n)) (seq 0 (q * n)) = num_of q * qsumf h (seq 0 n).
Proof.
  intro H. induction q as [|q IH]; [cbn; rewrite num_of_0; ring|]. rewrite num_of_S. replace (S q * n)%nat with (q * n + n)%nat by lia.
  rewrite seq_app, qsumf_app, IH. cbn [Nat.add].
  assert (E : qsumf (fun x => h (Nat.modulo x n)) (seq (q * n) n) = qsumf h (seq 0 n)).
  { replace (seq (q * n) n) with (map (fun i => (q * n + i)%nat) (seq 0 n)).
    - rewrite qsumf_map. apply qsumf_ext. intros i Hi. apply in_seq in Hi. rewrite Nat.add_comm, Nat.mod_add by lia. rewrite Nat.mod_small by lia. reflexivity.
    - clear.
      assert (G : forall n a b, map (fun i => (a + i)%nat) (seq b n) = seq (a + b) n).
      { induction n0 as [|m IHm]; intros a0 b; [reflexivity|]. cbn [seq map]. rewrite IHm. f_equal. f_equal. lia. }
      rewrite G. f_equal. lia. }
  rewrite E. ring.
Qed.
Lemma mean_mod (h : nat -> Qc) n M : (0 < n)%nat -> (0 < M)%nat -> Nat.divide n M -> mean (fun x => h (Nat.modulo x n)) (seq 0 M) = mean h (seq 0 n).
Proof.
  intros Hn HM (q & ->). unfold mean. rewrite !seq_length, sum_mod by exact Hn. rewrite num_of_mul.
  pose proof (num_of_neq n Hn). assert (num_of q <> 0) by (apply num_of_neq; nia). field. split; assumption.
Qed.
Lemma mean_nth (H : nat -> Qc) (w : list nat) : mean (fun i => H (nth i w 0%nat)) (seq 0 (length w)) = mean H w.
Proof.
  rewrite <- (mean_map H (fun i => nth i w 0%nat)). f_equal. apply (nth_ext _ _ (nth 0 w 0%nat) 0%nat); [rewrite map_length, seq_length; reflexivity|].
  intros i Hi. rewrite map_length, seq_length in Hi. rewrite (map_nth (fun i => nth i w 0%nat) _ 0%nat), seq_nth by exact Hi. reflexivity.
Qed.
(** one draw from the candidates [w]: each candidate has the same weight *)
Lemma mean_draw M K (w : list nat) (F : list nat -> Qc) (H : nat -> list nat -> Qc) : fair M (length w) -> w <> [] ->
  (forall x l, F (x :: l) = H (nth (Nat.modulo x (length w)) w 0%nat) l) ->
  mean F (draws M (S K)) = mean (fun x => mean (H x) (draws M K)) w.
Proof.
  intros [HM Hd] Hw E. assert (L : (0 < length w)%nat) by (destruct w; [congruence | cbn [length]; lia]).
  rewrite mean_draws by exact HM. rewrite (mean_ext _ (fun x => (fun j => mean (H (nth j w 0%nat)) (draws M K)) (Nat.modulo x (length w)))).
  - etransitivity; [apply (mean_mod (fun j => mean (H (nth j w 0%nat)) (draws M K)) (length w) M L HM (Hd _ L (le_n _)))|]. apply (mean_nth (fun y => mean (H y) (draws M K))).
  - intros x _. apply mean_ext. intros l _. apply E.
Qed.
(** the mean of a quantity that is 0 for all but one candidate *)
Lemma mean_one (f : nat -> Qc) (w : list nat) x : NoDup w -> In x w -> (forall y, In y w -> y <> x -> f y = 0) -> mean f w = 1 / num_of (length w) * f x.
Proof.
  intros N I Z. unfold mean. assert (E : qsumf f w = f x).
  { clear - N I Z. induction w as [|a w IH]; [contradiction|]. rewrite qsumf_cons. inversion_clear N as [|? ? N1 N2]. destruct I as [->|I].
    - rewrite (qsumf_zero f w); [ring|]. intros y Hy. apply Z; [right; exact Hy | intros ->; contradiction].
    - rewrite (Z a); [|left; reflexivity | intros ->; contradiction]. rewrite IH; [ring | exact N2 | exact I|]. intros y Hy. apply Z. right; exact Hy. }
  rewrite E. unfold Qcdiv. ring.
Qed.
