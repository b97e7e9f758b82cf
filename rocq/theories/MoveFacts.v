(** The intersection of two curves depends only on the order of their abscissae. *)
From Verif Require Import QcTac Num NumFacts ListFacts ModelBase ModelCurves ModelRound.

Section Move.
  (** [P x y]: the abscissa [x] is moved to [y] *)
  Variable P : num -> num -> Prop.
  Hypothesis P0 : P (Fin 0) (Fin 0).
  Hypothesis Pleb : forall x x' y y', P x x' -> P y y' -> nleb x' y' = nleb x y.
  Hypothesis Pltb : forall x x' y y', P x x' -> P y y' -> nltb x' y' = nltb x y.
  Hypothesis Peqb : forall x x' y y', P x x' -> P y y' -> neqb x' y' = neqb x y.
  Hypothesis Pnan : forall x x', P x x' -> x <> NaN /\ x' <> NaN.
  Definition moved (f f' : curve) : Prop := Forall2 (fun p p' => P (fst p) (fst p') /\ snd p = snd p') f f'.

  Lemma m_fst f f' : moved f f' -> Forall2 P (map fst f) (map fst f').
  Proof. induction 1 as [|p p' f f' [H _] _ IH]; constructor; assumption. Qed.
  Lemma m_mem x x' l l' : P x x' -> Forall2 P l l' -> nmem x' l' = nmem x l.
  Proof. intros Hx. unfold nmem. induction 1 as [|y y' l l' Hy _ IH]; [reflexivity|]. cbn [existsb]. rewrite IH, (Peqb _ _ _ _ Hx Hy). reflexivity. Qed.
  Lemma m_dedup l l' : Forall2 P l l' -> Forall2 P (ndedup l) (ndedup l').
  Proof. induction 1 as [|y y' l l' Hy Hl IH]; [constructor|]. cbn [ndedup]. rewrite (m_mem _ _ _ _ Hy Hl). destruct (nmem y l); [exact IH | constructor; assumption]. Qed.
  Lemma m_insert x x' l l' : P x x' -> Forall2 P l l' -> Forall2 P (ninsert x l) (ninsert x' l').
  Proof.
    intros Hx. induction 1 as [|y y' l l' Hy Hl IH]; cbn [ninsert]; [repeat constructor; exact Hx|]. rewrite (Pleb _ _ _ _ Hx Hy).
    destruct (nleb x y); repeat constructor; assumption.
  Qed.
  Lemma m_sort l l' : Forall2 P l l' -> Forall2 P (nsort l) (nsort l').
  Proof. unfold nsort. induction 1 as [|y y' l l' Hy Hl IH]; cbn [fold_right]; [constructor|]. apply m_insert; assumption. Qed.
  Lemma m_filter x x' l l' : P x x' -> Forall2 P l l' -> Forall2 P (filter (fun y => nleb y x) l) (filter (fun y => nleb y x') l').
  Proof. intros Hx. induction 1 as [|y y' l l' Hy Hl IH]; cbn [filter]; [constructor|]. rewrite (Pleb _ _ _ _ Hy Hx). destruct (nleb y x); [constructor; assumption | exact IH]. Qed.
  Lemma m_max x x' y y' : P x x' -> P y y' -> P (nmax x y) (nmax x' y').
  Proof. intros Hx Hy. destruct (Pnan _ _ Hx), (Pnan _ _ Hy). unfold nmax. rewrite (Pleb _ _ _ _ Hx Hy). destruct x, x', y, y'; try congruence; destruct (nleb _ _); assumption. Qed.
  Lemma m_min x x' y y' : P x x' -> P y y' -> P (nmin x y) (nmin x' y').
  Proof. intros Hx Hy. destruct (Pnan _ _ Hx), (Pnan _ _ Hy). unfold nmin. rewrite (Pleb _ _ _ _ Hx Hy). destruct x, x', y, y'; try congruence; destruct (nleb _ _); assumption. Qed.
  Lemma m_fold l l' : Forall2 P l l' -> forall x x', P x x' -> P (fold_left nmax l x) (fold_left nmax l' x').
  Proof. induction 1 as [|y y' l l' Hy _ IH]; intros x x' Hx; cbn [fold_left]; [exact Hx|]. apply IH, m_max; assumption. Qed.
  Lemma m_search x x' f f' : P x x' -> moved f f' -> step_search x' f' = step_search x f.
  Proof. intro Hx. induction 1 as [|[y v] [y' v'] f f' [Hy Hv] _ IH]; [reflexivity|]. cbn [fst snd step_search] in *. subst v'. rewrite (Pleb _ _ _ _ Hx Hy), IH. reflexivity. Qed.
  Lemma m_value x x' f f' : P x x' -> moved f f' -> get_value_stepwise x' f' = get_value_stepwise x f.
  Proof. intros Hx Hf. unfold get_value_stepwise. rewrite (Pltb _ _ _ _ Hx P0), (m_search _ _ _ _ Hx Hf). reflexivity. Qed.
  Lemma m_pos x x' f f' : P x x' -> moved f f' -> argmax_bool (map (fun p => nleb x' (fst p)) f') = argmax_bool (map (fun p => nleb x (fst p)) f).
  Proof. intros Hx Hf. f_equal. induction Hf as [|p p' f f' [Hy _] _ IH]; [reflexivity|]. cbn [map]. rewrite (Pleb _ _ _ _ Hx Hy), IH. reflexivity. Qed.
  Lemma m_nth f f' i : moved f f' -> option_map snd (nth_error f' i) = option_map snd (nth_error f i).
  Proof. intro H. revert i. induction H as [|p p' f f' [_ E] _ IH]; intros [|i]; try reflexivity; [cbn; rewrite E; reflexivity | apply IH]. Qed.
  Definition Popt (a b : option num) : Prop := match a, b with Some x, Some x' => P x x' | None, None => True | _, _ => False end.
  Lemma m_scan f f' g g' xs xs' : moved f f' -> moved g g' -> Forall2 P xs xs' -> forall a a', Popt a a' ->
    match scan (map (fun x => (x, get_value_stepwise x f, get_value_stepwise x g)) xs) a, scan (map (fun x => (x, get_value_stepwise x f', get_value_stepwise x g')) xs') a' with
    | Ok y, Ok y' => Popt y y' | Err e, Err e' => e = e' | _, _ => False end.
  Proof.
    intros Hf Hg. induction 1 as [|x x' xs xs' Hx Hxs IH]; intros a a' Ha; [exact Ha|]. destruct Hxs as [|z z' zs zs' Hz Hzs]; [exact Ha|].
    cbn [map scan] in *. rewrite (m_value _ _ _ _ Hx Hf), (m_value _ _ _ _ Hx Hg), (m_value _ _ _ _ Hz Hf), (m_value _ _ _ _ Hz Hg) in *.
    destruct (opt_gt (get_value_stepwise x f) (get_value_stepwise x g)) as [[]|]; cbn [bind]; [|apply IH, Ha|reflexivity].
    destruct (opt_lt (get_value_stepwise z f) (get_value_stepwise z g)) as [[]|]; cbn [bind]; [|apply IH, Ha|reflexivity]. apply IH. exact Hx.
  Qed.
  Lemma m_rev l l' : Forall2 P l l' -> Forall2 P (rev l) (rev l').
  Proof. induction 1 as [|x x' l l' Hx _ IH]; cbn [rev]; [constructor|]. apply Forall2_app; [exact IH | repeat constructor; exact Hx]. Qed.
  Lemma m_last f f' xs xs' : moved f f' -> Forall2 P xs xs' -> value_at_last xs' f' = value_at_last xs f.
  Proof. intros Hf Hx. unfold value_at_last. destruct (m_rev _ _ Hx) as [|y y' l l' Hy _]; [reflexivity|]. rewrite (m_value _ _ _ _ Hy Hf). reflexivity. Qed.
  Lemma m_piece f f' xs xs' i : moved f f' -> Forall2 P xs xs' -> piece_value i xs' f' = piece_value i xs f.
  Proof.
    intros Hf Hx. destruct i as [i|]; cbn [piece_value]; [|apply m_last; assumption]. pose proof (m_nth f f' i Hf) as N.
    destruct (nth_error f' i) as [[a v]|], (nth_error f i) as [[a' v']|]; cbn in N; try discriminate; [|reflexivity]. injection N as ->. reflexivity.
  Qed.
  Lemma m_colmax f f' : moved f f' -> match col_max f, col_max f' with Ok x, Ok x' => P x x' | Err e, Err e' => e = e' | _, _ => False end.
  Proof. intro H. unfold col_max. destruct (m_fst _ _ H) as [|x x' l l' Hx Hl]; [reflexivity|]. apply m_fold; assumption. Qed.
  Lemma m_xs f f' g g' x x' : moved f f' -> moved g g' -> P x x' -> Forall2 P (common_xs f g x) (common_xs f' g' x').
  Proof. intros Hf Hg Hx. unfold common_xs. apply m_sort, m_filter; [exact Hx|]. apply m_dedup, Forall2_app; apply m_fst; assumption. Qed.
  Lemma m_col x x' f f' : Popt x x' -> moved f f' -> mem_col x' f' = mem_col x f.
  Proof. intros Hx Hf. destruct x as [x|], x' as [x'|]; try destruct Hx; [|reflexivity]. cbn [mem_col]. apply m_mem; [exact Hx | apply m_fst, Hf]. Qed.
  Theorem moved_intersect (R : rounding) f f' g g' k : moved f f' -> moved g g' ->
    match intersect_stepwise_r R f g k, intersect_stepwise_r R f' g' k with
    | Ok (x, i, j, v), Ok (x', i', j', v') => Popt x x' /\ i' = i /\ j' = j /\ v' = v
    | Err e, Err e' => e = e'
    | _, _ => False
    end.
  Proof.
    intros Hf Hg. unfold intersect_stepwise_r. pose proof (m_colmax _ _ Hf) as Mf. pose proof (m_colmax _ _ Hg) as Mg.
    destruct (col_max f) as [fm|e], (col_max f') as [fm'|e']; cbn [bind]; try destruct Mf; [|reflexivity].
    destruct (col_max g) as [gm|e], (col_max g') as [gm'|e']; cbn [bind]; try destruct Mg; [|reflexivity].
    pose proof (m_xs _ _ _ _ _ _ Hf Hg (m_min _ _ _ _ Mf Mg)) as Hx. set (xs := common_xs f g _) in *. set (xs' := common_xs f' g' _) in *.
    pose proof (m_scan f f' g g' xs xs' Hf Hg Hx None None I) as Hs.
    destruct (scan _ None) as [a|e]; destruct (scan _ None) as [a'|e']; cbn [bind]; try contradiction; [|exact Hs].
    assert (E : forall h h', moved h h' -> option_map (fun x => argmax_bool (map (fun p => nleb x (fst p)) h')) a' = option_map (fun x => argmax_bool (map (fun p => nleb x (fst p)) h)) a).
    { intros h h' Hh. destruct a as [x|], a' as [x'|]; try destruct Hs; [|reflexivity]. cbn [option_map]. f_equal. apply m_pos; assumption. }
    rewrite (E _ _ Hf), (E _ _ Hg), (m_piece _ _ _ _ _ Hf Hx), (m_piece _ _ _ _ _ Hg Hx), (m_col _ _ _ _ Hs Hf), (m_col _ _ _ _ Hs Hg).
    destruct (piece_value _ xs g) as [[gv|]|]; cbn [bind]; try reflexivity; destruct (piece_value _ xs f) as [[fv|]|]; cbn [bind]; try reflexivity.
    split; [exact Hs|]. split; [reflexivity|]. split; [reflexivity|]. destruct a, a'; try destruct Hs; reflexivity.
  Qed.
End Move.
