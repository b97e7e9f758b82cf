(** The exact values returned by [get_value_stepwise] and [intersect_stepwise]. *)
From Verif Require Import QcTac Num NumFacts ModelBase ModelCurves ListFacts Spec CurveFacts IntersectFacts.

Lemma value_negative x f : nltb x (Fin 0) = true -> get_value_stepwise x f = None.
Proof. intro H. unfold get_value_stepwise. rewrite H. reflexivity. Qed.

Lemma value_exact x f v : nleb (Fin 0) x = true ->
  (get_value_stepwise x f = Some v <-> exists i, StepAt f x i v).
Proof. exact (get_value_iff f x v). Qed.

Lemma ordinate_exact f g k x i j u w v :
  f <> [] -> g <> [] -> ends_sorted f -> ends_sorted g -> decreasing f -> increasing g ->
  intersect_stepwise f g k = Ok (Some x, Some i, Some j, v) ->
  StepAt f x i (Fin u) -> StepAt g x j (Fin w) ->
  (is_end f x /\ is_end g x -> v = Fin (w * k + (1 - k) * u)) /\
  (is_end f x /\ ~ is_end g x -> v = Fin w) /\
  (~ is_end f x /\ is_end g x -> v = Fin u).
Proof.
  intros Nf Ng Hf Hg Df Ig E Su Sw.
  destruct (intersect_spec f g Hf Hg Df Ig Nf Ng k) as
    [(x' & i' & u' & j' & w' & E' & _ & _ & Su' & Sw')|(xm & i' & u' & j' & w' & E' & _)];
    rewrite E in E'; [|discriminate E'].
  assert (x' = x /\ i' = i /\ j' = j /\ v = ordinate f g (Some x') w' u' k) as (-> & -> & -> & ->) by (repeat split; congruence).
  destruct (StepAt_fun _ _ _ _ _ _ Su Su') as [_ <-]. destruct (StepAt_fun _ _ _ _ _ _ Sw Sw') as [_ <-].
  clear E E'. unfold ordinate. pose proof (mem_col_iff f x Hf) as Mf. pose proof (mem_col_iff g x Hg) as Mg.
  destruct (mem_col (Some x) f), (mem_col (Some x) g); cbn [andb];
    (split; [|split]); intros [A B];
    try (apply Mf in A; discriminate A); try (apply Mg in B; discriminate B);
    try (exfalso; apply A; apply Mf; reflexivity); try (exfalso; apply B; apply Mg; reflexivity);
    reflexivity.
Qed.

(** without a crossing the ordinate is taken at the end of the common domain *)
Lemma ordinate_none f g k v :
  f <> [] -> g <> [] -> ends_sorted f -> ends_sorted g -> decreasing f -> increasing g ->
  intersect_stepwise f g k = Ok (None, None, None, v) ->
  exists xm i u j w, nleb (Fin 0) xm = true /\
    (forall x, nleb (Fin 0) x = true -> (nleb x xm = true <-> both_defined f g x)) /\
    StepAt f xm i u /\ StepAt g xm j w /\
    v = nadd (nmul w (Fin k)) (nmul (Fin (1 - k)) u).
Proof.
  intros Nf Ng Hf Hg Df Ig E.
  destruct (intersect_spec f g Hf Hg Df Ig Nf Ng k) as
    [(x' & i' & u' & j' & w' & E' & _ & _ & Su' & Sw')|(xm & i' & u' & j' & w' & E' & _ & _ & Hd & H0 & Su & Sw)];
    rewrite E in E'; [discriminate E'|].
  injection E' as ->. exists xm, i', u', j', w'. auto.
Qed.
