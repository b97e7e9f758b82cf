(** Order facts on extended numbers. *)
From Verif Require Import QcTac Num.

Definition ok (a : num) : Prop := a <> NaN.
Definition nle (a b : num) : Prop := nleb a b = true.
Definition nlt (a b : num) : Prop := nltb a b = true.

Ltac nsolve :=
  repeat match goal with a : num |- _ => destruct a end;
  unfold ok, nle, nlt, nleb, nltb, neqb, nmin, nmax in *; simpl in *;
  unfold nleb, nltb, neqb in *; simpl in *;
  repeat rewrite ?qleb_le, ?qleb_gt, ?qltb_lt, ?qltb_ge, ?qeqb_eq, ?qeqb_neq in *;
  try congruence; auto; try (left; reflexivity); try (right; reflexivity); try solve [intros; qlra].

Lemma nle_Fin a b : nle (Fin a) (Fin b) <-> a <= b.
Proof. unfold nle; simpl; apply qleb_le. Qed.
Lemma nlt_Fin a b : nlt (Fin a) (Fin b) <-> a < b.
Proof. unfold nlt; simpl; apply qltb_lt. Qed.
Lemma nle_refl a : ok a -> nle a a.
Proof. nsolve. Qed.
Lemma nle_trans a b c : nle a b -> nle b c -> nle a c.
Proof. nsolve. Qed.
Lemma nlt_le a b : nlt a b -> nle a b.
Proof. nsolve. Qed.
Lemma nlt_le_trans a b c : nlt a b -> nle b c -> nlt a c.
Proof. nsolve. Qed.
Lemma nle_lt_trans a b c : nle a b -> nlt b c -> nlt a c.
Proof. nsolve. Qed.
Lemma nlt_trans a b c : nlt a b -> nlt b c -> nlt a c.
Proof. nsolve. Qed.
Lemma nlt_irrefl a : ~ nlt a a.
Proof. intro H. nsolve. Qed.
Lemma nlt_not_le a b : nlt a b -> ~ nle b a.
Proof. intros H H'. nsolve. Qed.
Lemma nle_antisym a b : nle a b -> nle b a -> a = b.
Proof. nsolve. all: intros; f_equal; qlra. Qed.
Lemma nleb_false a b : ok a -> ok b -> nleb a b = false -> nlt b a.
Proof. nsolve. Qed.
Lemma nltb_false a b : ok a -> ok b -> nltb a b = false -> nle b a.
Proof. nsolve. Qed.
Lemma nle_lt_eq a b : nle a b -> nlt a b \/ a = b.
Proof.
  destruct a, b; try solve [nsolve]. rewrite nle_Fin, nlt_Fin. intros.
  destruct (Qclt_le_dec q q0) as [L|L]; [left; exact L | right; f_equal; qlra].
Qed.
Lemma nle_ok a b : nle a b -> ok a /\ ok b.
Proof. nsolve; split; congruence. Qed.
Lemma nlt_ok a b : nlt a b -> ok a /\ ok b.
Proof. nsolve; split; congruence. Qed.
Lemma neqb_eq a b : neqb a b = true -> a = b.
Proof. nsolve. Qed.
Lemma neqb_refl a : ok a -> neqb a a = true.
Proof. nsolve. Qed.
Lemma nle_total a b : ok a -> ok b -> nle a b \/ nlt b a.
Proof.
  intros A B. destruct (nleb a b) eqn:E; [left; exact E | right; apply nleb_false; assumption].
Qed.
Lemma Fin_inj a b : Fin a = Fin b -> a = b.
Proof. congruence. Qed.
Lemma nle_PInf a : ok a -> nle a PInf.
Proof. nsolve. Qed.
Lemma nmin_cases a b : ok a -> ok b -> (nmin a b = a /\ nle a b) \/ (nmin a b = b /\ nle b a).
Proof. 
  intros A B. unfold nmin. destruct a, b; try (exfalso; apply A; reflexivity); try (exfalso; apply B; reflexivity);
  simpl; try (left; split; [reflexivity | reflexivity]); try (right; split; [reflexivity | reflexivity]).
  destruct (qle_spec q q0); [left|right]; split; try reflexivity; apply nle_Fin; qlra.
Qed.
Lemma nmax_cases a b : ok a -> ok b -> (nmax a b = a /\ nle b a) \/ (nmax a b = b /\ nle a b).
Proof.
  intros A B. unfold nmax. destruct a, b; try (exfalso; apply A; reflexivity); try (exfalso; apply B; reflexivity);
  simpl; try (left; split; [reflexivity | reflexivity]); try (right; split; [reflexivity | reflexivity]).
  destruct (qle_spec q q0); [right|left]; split; try reflexivity; apply nle_Fin; qlra.
Qed.
Lemma ok_Fin q : ok (Fin q).
Proof. unfold ok; congruence. Qed.
Lemma ok_PInf : ok PInf.
Proof. unfold ok; congruence. Qed.
#[global] Hint Resolve ok_Fin ok_PInf : core.
