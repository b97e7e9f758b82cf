(** A linear programming solver (Fourier-Motzkin elimination), proved to satisfy [solver_ok]: the
    assumption on pulp made in the statements about the statistics is satisfiable, and examples can be
    computed with it. *)
From Verif Require Import QcTac ModelBase ModelStats ListFacts AllocFacts.

(** unknowns: the variables of the program and the value of the objective *)
Definition unk := option var.
Definition unk_eqb (x y : unk) : bool :=
  match x, y with None, None => true | Some v, Some w => var_eqb v w | _, _ => false end.
Lemma unk_eqb_eq x y : unk_eqb x y = true <-> x = y.
Proof.
  destruct x as [[a b]|], y as [[c e]|]; simpl; try (split; congruence). unfold var_eqb. simpl.
  rewrite andb_true_iff, !Nat.eqb_eq. split; [intros [-> ->]; reflexivity | intros [= -> ->]; auto].
Qed.
Lemma unk_eqb_refl x : unk_eqb x x = true.
Proof. apply unk_eqb_eq. reflexivity. Qed.
Lemma unk_eqb_neq x y : x <> y -> unk_eqb x y = false.
Proof. intro H. destruct (unk_eqb x y) eqn:E; [apply unk_eqb_eq in E; contradiction | reflexivity]. Qed.

Definition lin := list (unk * Qc).
Definition env := unk -> Qc.
Definition eval (a : env) (l : lin) : Qc := qsumf (fun e => snd e * a (fst e)) l.
Definition coeff (v : unk) (l : lin) : Qc := qsumf snd (filter (fun e => unk_eqb (fst e) v) l).
Definition remove (v : unk) (l : lin) : lin := filter (fun e => negb (unk_eqb (fst e) v)) l.
Definition scale (c : Qc) (l : lin) : lin := map (fun e => (fst e, c * snd e)) l.
(** [l <= b] *)
Definition cons1 := (lin * Qc)%type.
Definition holds (a : env) (c : cons1) : Prop := eval a (fst c) <= snd c.
Definition sat (a : env) (s : list cons1) : Prop := forall c, In c s -> holds a c.
Definition upd (a : env) (v : unk) (x : Qc) : env := fun w => if unk_eqb w v then x else a w.

Lemma eval_split a v l : eval a l = coeff v l * a v + eval a (remove v l).
Proof.
  unfold eval, coeff, remove. rewrite (qsumf_filter_split (fun e => snd e * a (fst e)) (fun e => unk_eqb (fst e) v) l). f_equal.
  rewrite <- qsumf_scale_r. apply qsumf_ext. intros e He. apply filter_In in He. destruct He as [_ He]. apply unk_eqb_eq in He. rewrite He. reflexivity.
Qed.
Lemma eval_upd a v x l : eval (upd a v x) (remove v l) = eval a (remove v l).
Proof.
  apply qsumf_ext. intros e He. apply filter_In in He. destruct He as [_ He]. apply negb_true_iff in He. unfold upd. rewrite He. reflexivity.
Qed.
Lemma eval_app a l1 l2 : eval a (l1 ++ l2) = eval a l1 + eval a l2.
Proof. apply qsumf_app. Qed.
Lemma eval_scale a c l : eval a (scale c l) = c * eval a l.
Proof. unfold eval, scale. rewrite qsumf_map, <- qsumf_scale. apply qsumf_ext. intros e _. simpl. ring. Qed.

(** the constraints solved for [v]: form and bound of the rest, divided by the absolute coefficient *)
Definition rest (v : unk) (c : cons1) : cons1 :=
  let k := / qabs (coeff v (fst c)) in (scale k (remove v (fst c)), k * snd c).
Definition uppers (v : unk) (s : list cons1) : list cons1 := map (rest v) (filter (fun c => qltb 0 (coeff v (fst c))) s).
Definition lowers (v : unk) (s : list cons1) : list cons1 := map (rest v) (filter (fun c => qltb (coeff v (fst c)) 0) s).
Definition others (v : unk) (s : list cons1) : list cons1 :=
  map (fun c => (remove v (fst c), snd c)) (filter (fun c => qeqb (coeff v (fst c)) 0) s).
Definition combine2 (u l : cons1) : cons1 := (fst u ++ fst l, snd u + snd l).
Definition elim (v : unk) (s : list cons1) : list cons1 :=
  others v s ++ flat_map (fun u => map (combine2 u) (lowers v s)) (uppers v s).
(** bounds on [v]: [v <= ub a u] for uppers, [lb a l <= v] for lowers *)
Definition slack (a : env) (c : cons1) : Qc := snd c - eval a (fst c).
Definition qminl (x : Qc) (l : list Qc) : Qc := fold_right qmin x l.
Definition qmaxl (x : Qc) (l : list Qc) : Qc := fold_right qmax x l.
Definition pick (v : unk) (s : list cons1) (a : env) : Qc :=
  match map (fun c => - slack a c) (lowers v s) with
  | x :: l => qmaxl x l
  | [] => match map (slack a) (uppers v s) with x :: l => qminl x l | [] => 0 end
  end.

Lemma qmaxl_in x l : In (qmaxl x l) (x :: l).
Proof. induction l as [|y l IH]; [left; reflexivity|]. simpl. destruct (qmax_case y (qmaxl x l)) as [[-> _]|[-> _]]; simpl in *; tauto. Qed.
Lemma qmaxl_ge x l y : In y (x :: l) -> y <= qmaxl x l.
Proof.
  induction l as [|z l IH]; simpl; [intros [->|[]]; apply Qcle_refl|]. intros [->|[->|H]].
  - eapply Qcle_trans; [apply IH; left; reflexivity | apply qmax_r].
  - apply qmax_l.
  - eapply Qcle_trans; [apply IH; right; exact H | apply qmax_r].
Qed.
Lemma qminl_le x l y : In y (x :: l) -> qminl x l <= y.
Proof.
  induction l as [|z l IH]; simpl; [intros [->|[]]; apply Qcle_refl|]. intros [->|[->|H]].
  - eapply Qcle_trans; [apply qmin_r | apply IH; left; reflexivity].
  - apply qmin_l.
  - eapply Qcle_trans; [apply qmin_r | apply IH; right; exact H].
Qed.
Lemma qminl_in x l : In (qminl x l) (x :: l).
Proof. induction l as [|y l IH]; [left; reflexivity|]. simpl. destruct (qmin_case y (qminl x l)) as [[-> _]|[-> _]]; simpl in *; tauto. Qed.

Lemma lin1 (w x y z : Qc) : 0 <= w -> w = x - y - z -> z <= x - y. Proof. intros; qlra. Qed.
Lemma lin2 (w x y z : Qc) : 0 <= w -> w = x - y - z -> z + y <= x. Proof. intros; qlra. Qed.
Lemma lin3 (w x y z : Qc) : 0 <= w -> w = x - y + z -> - (x - y) <= z. Proof. intros; qlra. Qed.
Lemma lin4 (x y z : Qc) : x <= y - z -> 0 <= y - z - x. Proof. intros; qlra. Qed.
Lemma lin5 (x y z : Qc) : - (y - z) <= x -> 0 <= x + (y - z). Proof. intros; qlra. Qed.
Lemma lin6 (x y z : Qc) : x + y <= z -> 0 <= z - (x + y). Proof. intros; qlra. Qed.
Lemma inv_one k : 0 < k -> k * / k = 1.
Proof. intro P. apply Qcmult_inv_r. intro Z. rewrite Z in P. revert P. apply Qcle_not_lt, Qcle_refl. Qed.

Lemma slack_pos a v c : 0 < coeff v (fst c) -> (holds a c <-> a v <= slack a (rest v c)).
Proof.
  intro H. unfold holds, slack, rest. cbn [fst snd]. rewrite qabs_pos by (apply Qclt_le_weak, H). rewrite eval_scale, (eval_split a v (fst c)).
  set (k := coeff v (fst c)) in *. pose proof (qinv_pos k H) as Hi. pose proof (inv_one k H) as E. set (e := eval a (remove v (fst c))). set (j := / k) in *.
  split; intro L.
  - apply (lin1 (j * (snd c - (k * a v + e)))); [apply qmult_nonneg; [apply Qclt_le_weak, Hi | apply lin6, L]|].
    transitivity (j * snd c - j * e - (k * j) * a v); [ring | rewrite E; ring].
  - apply (lin2 (k * (j * snd c - j * e - a v))); [apply qmult_nonneg; [apply Qclt_le_weak, H | apply lin4, L]|].
    transitivity ((k * j) * (snd c - e) - k * a v); [ring | rewrite E; ring].
Qed.
Lemma slack_neg a v c : coeff v (fst c) < 0 -> (holds a c <-> - slack a (rest v c) <= a v).
Proof.
  intro H. unfold holds, slack, rest. cbn [fst snd]. rewrite qabs_neg by (apply Qclt_le_weak, H). rewrite eval_scale, (eval_split a v (fst c)).
  set (k := coeff v (fst c)) in *. assert (H' : 0 < - k) by qlra. pose proof (qinv_pos (- k) H') as Hi. pose proof (inv_one (- k) H') as E.
  set (e := eval a (remove v (fst c))). set (j := / - k) in *.
  split; intro L.
  - apply (lin3 (j * (snd c - (k * a v + e)))); [apply qmult_nonneg; [apply Qclt_le_weak, Hi | apply lin6, L]|].
    transitivity (j * snd c - j * e + (- k * j) * a v); [ring | rewrite E; ring].
  - apply (lin2 (- k * (a v + (j * snd c - j * e)))); [apply qmult_nonneg; [apply Qclt_le_weak, H' | apply lin5, L]|].
    transitivity ((- k * j) * (snd c - e) - k * a v); [ring | rewrite E; ring].
Qed.
Lemma div_bound k b z : 0 < k -> k * z <= b -> z <= / k * b.
Proof.
  intros P H. apply Qcle_trans with (/ k * (k * z)); [rewrite Qcmult_assoc, (Qcmult_comm (/ k)), (inv_one k P), Qcmult_1_l; apply Qcle_refl|].
  apply qmult_le_l; [apply Qclt_le_weak, qinv_pos, P | exact H].
Qed.
Lemma slack_upd a v x c : slack (upd a v x) (rest v c) = slack a (rest v c).
Proof. unfold slack, rest. cbn [fst snd]. rewrite !eval_scale, eval_upd. reflexivity. Qed.

Lemma elim_sound a v s : sat a s -> sat a (elim v s).
Proof.
  intros H c Hc. apply in_app_iff in Hc. destruct Hc as [Hc|Hc].
  - apply in_map_iff in Hc. destruct Hc as (c0 & <- & Hc). apply filter_In in Hc. destruct Hc as [Hc Z]. apply qeqb_eq in Z.
    specialize (H c0 Hc). unfold holds in *. rewrite (eval_split a v), Z, Qcmult_0_l, Qcplus_0_l in H. exact H.
  - apply in_flat_map in Hc. destruct Hc as (u & Hu & Hc). apply in_map_iff in Hc. destruct Hc as (l & <- & Hl).
    apply in_map_iff in Hu, Hl. destruct Hu as (cu & <- & Hu). destruct Hl as (cl & <- & Hl). apply filter_In in Hu, Hl.
    destruct Hu as [Hu Pu]. destruct Hl as [Hl Pl]. apply (proj1 (qltb_lt _ _)) in Pu. apply (proj1 (qltb_lt _ _)) in Pl.
    pose proof (proj1 (slack_pos a v cu Pu) (H cu Hu)) as A. pose proof (proj1 (slack_neg a v cl Pl) (H cl Hl)) as B.
    unfold holds, combine2. cbn [fst snd]. rewrite eval_app. unfold slack in *. qlra.
Qed.

Lemma pick_ok a v s : sat a (elim v s) ->
  (forall u, In u (uppers v s) -> pick v s a <= slack a u) /\ (forall l, In l (lowers v s) -> - slack a l <= pick v s a).
Proof.
  intro H.
  assert (UL : forall u l, In u (uppers v s) -> In l (lowers v s) -> - slack a l <= slack a u).
  { intros u l Hu Hl. assert (I : In (combine2 u l) (elim v s)).
    { apply in_app_iff. right. apply in_flat_map. exists u. split; [exact Hu | apply in_map, Hl]. }
    specialize (H _ I). unfold holds, combine2 in H. cbn [fst snd] in H. rewrite eval_app in H. unfold slack. qlra. }
  unfold pick. destruct (map (fun c => - slack a c) (lowers v s)) as [|x xs] eqn:EL.
  - apply map_eq_nil in EL. rewrite EL. split; [|intros l []]. intros u Hu.
    destruct (map (slack a) (uppers v s)) as [|y ys] eqn:EU; [apply map_eq_nil in EU; rewrite EU in Hu; destruct Hu|].
    apply qminl_le. rewrite <- EU. apply in_map, Hu.
  - split.
    + intros u Hu. pose proof (qmaxl_in x xs) as I. rewrite <- EL in I. apply in_map_iff in I. destruct I as (l & E & Hl).
      change (fold_right qmax x xs) with (qmaxl x xs). rewrite <- E. apply UL; assumption.
    + intros l Hl. apply qmaxl_ge. rewrite <- EL. apply in_map_iff. eauto.
Qed.
Lemma elim_complete a v s : sat a (elim v s) -> sat (upd a v (pick v s a)) s.
Proof.
  intros H c Hc. destruct (pick_ok a v s H) as [PU PL]. set (x := pick v s a) in *.
  assert (Ev : upd a v x v = x) by (unfold upd; rewrite unk_eqb_refl; reflexivity).
  destruct (qlt_spec 0 (coeff v (fst c))) as [P|P].
  - apply (slack_pos _ v c P). rewrite Ev, slack_upd. apply PU. apply in_map, filter_In. split; [exact Hc | apply qltb_lt, P].
  - destruct (qlt_spec (coeff v (fst c)) 0) as [N|N].
    + apply (slack_neg _ v c N). rewrite Ev, slack_upd. apply PL. apply in_map, filter_In. split; [exact Hc | apply qltb_lt, N].
    + assert (Z : coeff v (fst c) = 0) by qlra. unfold holds. rewrite (eval_split _ v), Z, eval_upd, Qcmult_0_l, Qcplus_0_l.
      assert (I : In (remove v (fst c), snd c) (elim v s)).
      { apply in_app_iff. left. apply in_map_iff. exists c. split; [reflexivity|]. apply filter_In. split; [exact Hc | apply qeqb_eq, Z]. }
      exact (H _ I).
Qed.

(** variables that may occur *)
Definition over (vs : list unk) (s : list cons1) : Prop := forall c e, In c s -> In e (fst c) -> In (fst e) vs.
Lemma elim_over v vs s : over (v :: vs) s -> over vs (elim v s).
Proof.
  intros H.
  assert (R : forall c e, In c s -> In e (remove v (fst c)) -> In (fst e) vs).
  { intros c e Hc He. apply filter_In in He. destruct He as [He N]. destruct (H c e Hc He) as [E|]; [|assumption].
    rewrite <- E, unk_eqb_refl in N. discriminate. }
  assert (RS : forall c e, In c s -> In e (fst (rest v c)) -> In (fst e) vs).
  { intros c e Hc He. apply in_map_iff in He. destruct He as (e' & <- & He). exact (R c e' Hc He). }
  intros c e Hc He. apply in_app_iff in Hc. destruct Hc as [Hc|Hc].
  - apply in_map_iff in Hc. destruct Hc as (c0 & <- & Hc). apply filter_In in Hc. eapply R; [apply Hc | exact He].
  - apply in_flat_map in Hc. destruct Hc as (u & Hu & Hc). apply in_map_iff in Hc. destruct Hc as (l & <- & Hl).
    apply in_map_iff in Hu, Hl. destruct Hu as (cu & <- & Hu). destruct Hl as (cl & <- & Hl). apply filter_In in Hu, Hl.
    cbn [combine2 fst] in He. apply in_app_iff in He. destruct He as [He|He]; eapply RS; [apply Hu | exact He | apply Hl | exact He].
Qed.

(** the largest possible value of the last unknown *)
Definition tops (s : list cons1) : list Qc :=
  map (fun c => / coeff None (fst c) * snd c) (filter (fun c => qltb 0 (coeff None (fst c))) s).
Definition best (s : list cons1) : option Qc :=
  match tops s with
  | [] => None
  | x :: l => Some (qminl x l)
  end.
Definition holdsb (z : Qc) (c : cons1) : bool := qleb (coeff None (fst c) * z) (snd c).

Fixpoint fm (vs : list var) (s : list cons1) : option env :=
  match vs with
  | [] => match best s with
          | None => None
          | Some z => if forallb (holdsb z) s then Some (fun _ => z) else None
          end
  | v :: r => match fm r (elim (Some v) s) with
              | None => None
              | Some a => Some (upd a (Some v) (pick (Some v) s a))
              end
  end.

Lemma eval_none a l : (forall e, In e l -> fst e = None) -> eval a l = coeff None l * a None.
Proof.
  intro H. rewrite (eval_split a None l). unfold remove. rewrite filter_none; [change (eval a []) with (0 : Qc); ring|].
  intros e He. apply negb_false_iff, unk_eqb_eq, H, He.
Qed.
Lemma fm_sat vs : forall s a, over (map Some vs ++ [None]) s -> fm vs s = Some a -> sat a s.
Proof.
  induction vs as [|v vs IH]; intros s a O E; cbn [fm] in E.
  - destruct (best s) as [z|]; [|discriminate]. destruct (forallb (holdsb z) s) eqn:F; [|discriminate]. injection E as <-.
    intros c Hc. rewrite forallb_forall in F. specialize (F c Hc). apply qleb_le in F. unfold holds. rewrite eval_none; [exact F|].
    intros e He. destruct (O c e Hc He) as [En|[]]. exact (eq_sym En).
  - destruct (fm vs (elim (Some v) s)) as [b|] eqn:E'; [|discriminate]. injection E as <-. apply elim_complete, (IH _ _ (elim_over _ _ _ O) E').
Qed.
(** the value of the objective is the largest possible *)
Lemma fm_max vs : forall s a, over (map Some vs ++ [None]) s -> fm vs s = Some a -> forall b, sat b s -> b None <= a None.
Proof.
  induction vs as [|v vs IH]; intros s a O E b Hb; cbn [fm] in E.
  - unfold best in E. destruct (tops s) as [|x l] eqn:EM; unfold tops in EM; [discriminate|]. destruct (forallb _ s); [|discriminate]. injection E as <-.
    pose proof (qminl_in x l) as I. rewrite <- EM in I. apply in_map_iff in I. destruct I as (c & E & Hc). rewrite <- E. apply filter_In in Hc.
    destruct Hc as [Hc P]. apply (proj1 (qltb_lt _ _)) in P. specialize (Hb c Hc). unfold holds in Hb.
    rewrite eval_none in Hb by (intros e He; destruct (O c e Hc He) as [En|[]]; exact (eq_sym En)).
    exact (div_bound _ _ _ P Hb).
  - destruct (fm vs (elim (Some v) s)) as [b'|] eqn:E'; [|discriminate]. injection E as <-. unfold upd. cbn [unk_eqb].
    apply (IH _ _ (elim_over _ _ _ O) E'). apply elim_sound, Hb.
Qed.
(** without a solution the objective is unbounded wherever the constraints can be satisfied *)
Lemma fm_none vs : forall s, over (map Some vs ++ [None]) s -> fm vs s = None ->
  forall b, sat b s -> exists b', sat b' s /\ b None < b' None.
Proof.
  induction vs as [|v vs IH]; intros s O E b Hb; cbn [fm] in E.
  - assert (EV : forall c a, In c s -> eval a (fst c) = coeff None (fst c) * a None).
    { intros c a Hc. apply eval_none. intros e He. destruct (O c e Hc He) as [En|[]]. exact (eq_sym En). }
    unfold best in E. destruct (tops s) as [|x l] eqn:EM; unfold tops in EM.
    + exists (fun _ => b None + 1). split; [|qlra]. intros c Hc. specialize (Hb c Hc). unfold holds in *. rewrite EV in * by exact Hc.
      assert (N : coeff None (fst c) <= 0).
      { apply qltb_ge. apply map_eq_nil in EM. destruct (qltb 0 (coeff None (fst c))) eqn:Q; [|reflexivity].
        assert (I : In c (filter (fun c => qltb 0 (coeff None (fst c))) s)) by (apply filter_In; auto). rewrite EM in I. destruct I. }
      cbv beta. qnra.
    + exfalso. destruct (forallb (holdsb (qminl x l)) s) eqn:F; [discriminate|].
      assert (T : forallb (holdsb (qminl x l)) s = true); [|congruence].
      assert (LB : b None <= qminl x l).
      { pose proof (qminl_in x l) as I. rewrite <- EM in I. apply in_map_iff in I. destruct I as (c & Ec & Hc). rewrite <- Ec. apply filter_In in Hc.
        destruct Hc as [Hc P]. apply (proj1 (qltb_lt _ _)) in P. specialize (Hb c Hc). unfold holds in Hb. rewrite EV in Hb by exact Hc.
        exact (div_bound _ _ _ P Hb). }
      apply forallb_forall. intros c Hc. apply qleb_le. specialize (Hb c Hc). unfold holds in Hb. rewrite EV in Hb by exact Hc.
      destruct (qlt_spec 0 (coeff None (fst c))) as [P|P].
      * assert (I : In (/ coeff None (fst c) * snd c) (x :: l)).
        { rewrite <- EM. apply in_map_iff. exists c. split; [reflexivity|]. apply filter_In. split; [exact Hc | apply qltb_lt, P]. }
        pose proof (qminl_le x l _ I) as M. set (k := coeff None (fst c)) in *.
        apply Qcle_trans with (k * (/ k * snd c)); [apply qmult_le_l; [apply Qclt_le_weak, P | exact M]|].
        rewrite Qcmult_assoc, (inv_one k P), Qcmult_1_l. apply Qcle_refl.
      * qnra.
  - destruct (fm vs (elim (Some v) s)) as [b'|] eqn:E'; [discriminate|].
    destruct (IH _ (elim_over _ _ _ O) E' b (elim_sound b (Some v) s Hb)) as (b' & S' & L). exists (upd b' (Some v) (pick (Some v) s b')).
    split; [apply elim_complete, S' | exact L].
Qed.

(** ** The program as a system: variables nonnegative, constraints, objective at least the last unknown *)
Definition neg1 : Qc := - (1).
Definition system (p : lp) : list cons1 :=
  map (fun v => ([(Some v, neg1)], 0)) (lp_vars p) ++
  map (fun c => (map (fun v => (Some v, 1)) (fst c), snd c)) (lp_cons p) ++
  [((None, 1) :: map (fun vc => (Some (fst vc), - snd vc)) (lp_obj p), 0)].
(** without repetitions, to keep the elimination small *)
Definition var_dec (v w : var) : {v = w} + {v <> w}.
Proof. destruct v as [a b], w as [c e]. destruct (Nat.eq_dec a c), (Nat.eq_dec b e); [left; congruence | right; congruence ..]. Defined.
Definition occurring (p : lp) : list var :=
  nodup var_dec (lp_vars p ++ flat_map fst (lp_cons p) ++ map fst (lp_obj p)).
Definition fm_solver : solver := fun p =>
  match fm (occurring p) (system p) with Some a => Some (fun v => a (Some v)) | None => None end.

Lemma eval_cons a e l : eval a (e :: l) = snd e * a (fst e) + eval a l.
Proof. exact (qsumf_cons (fun e => snd e * a (fst e)) e l). Qed.
Lemma eval_neg a v : eval a [(Some v, neg1)] = - a (Some v).
Proof. rewrite eval_cons. change (eval a []) with (0 : Qc). cbn [fst snd]. unfold neg1. ring. Qed.
Lemma eval_head a l : eval a ((None, 1) :: l) = a None + eval a l.
Proof. rewrite eval_cons. cbn [fst snd]. ring. Qed.
Lemma eval_ones a l : eval a (map (fun v => (Some v, 1)) l) = qsumf (fun v => a (Some v)) l.
Proof. unfold eval. rewrite qsumf_map. apply qsumf_ext. intros v _. cbn [fst snd]. ring. Qed.
Lemma eval_obj a l : eval a (map (fun vc => (Some (fst vc), - snd vc)) l) = - qsumf (fun vc => snd vc * a (Some (fst vc))) l.
Proof. unfold eval. rewrite qsumf_map, <- qsumf_opp. apply qsumf_ext. intros v _. cbn [fst snd]. ring. Qed.
Lemma system_sat p a : sat a (system p) <-> lp_feasible p (fun v => a (Some v)) /\ a None <= lp_value p (fun v => a (Some v)).
Proof.
  unfold system, lp_feasible, lp_value. split.
  - intro H. assert (H' : forall c, In c (system p) -> holds a c) by exact H. clear H. unfold system in H'. split; [split|].
    + intros v Hv. assert (I : holds a ([(Some v, neg1)], 0)) by (apply H', in_app_iff; left; apply in_map_iff; eauto).
      unfold holds in I. cbn [fst snd] in I. rewrite eval_neg in I. qlra.
    + intros c Hc. assert (I : holds a (map (fun v => (Some v, 1)) (fst c), snd c)).
      { apply H', in_app_iff. right. apply in_app_iff. left. apply in_map_iff. exists c. auto. }
      unfold holds in I. cbn [fst snd] in I. rewrite eval_ones in I. exact I.
    + assert (I : holds a ((None, 1) :: map (fun vc => (Some (fst vc), - snd vc)) (lp_obj p), 0)).
      { apply H', in_app_iff. right. apply in_app_iff. right. left. reflexivity. }
      unfold holds in I. cbn [fst snd] in I. rewrite eval_head, eval_obj in I. qlra.
  - intros [[H1 H2] H3] c Hc. apply in_app_iff in Hc. destruct Hc as [Hc|Hc]; [|apply in_app_iff in Hc; destruct Hc as [Hc|[<-|[]]]].
    + apply in_map_iff in Hc. destruct Hc as (v & <- & Hv). specialize (H1 v Hv). unfold holds. cbn [fst snd]. rewrite eval_neg. qlra.
    + apply in_map_iff in Hc. destruct Hc as (c0 & <- & Hc). specialize (H2 c0 Hc). unfold holds. cbn [fst snd]. rewrite eval_ones. exact H2.
    + unfold holds. cbn [fst snd]. rewrite eval_head, eval_obj. qlra.
Qed.
Lemma system_over p : over (map Some (occurring p) ++ [None]) (system p).
Proof.
  assert (K : forall v, In v (lp_vars p ++ flat_map fst (lp_cons p) ++ map fst (lp_obj p)) -> In (Some v) (map Some (occurring p) ++ [None])).
  { intros v Hv. apply in_app_iff. left. apply in_map. apply nodup_In, Hv. }
  intros c e Hc He. unfold system in Hc. rewrite !in_app_iff in Hc. destruct Hc as [Hc|[Hc|[<-|[]]]].
  - apply in_map_iff in Hc. destruct Hc as (v & <- & Hv). destruct He as [<-|[]]. apply K, in_app_iff. auto.
  - apply in_map_iff in Hc. destruct Hc as (c0 & <- & Hc). cbn [fst] in He. apply in_map_iff in He. destruct He as (v & <- & Hv).
    apply K. rewrite !in_app_iff. right. left. apply in_flat_map. eauto.
  - cbn [fst] in He. destruct He as [<-|He]; [apply in_app_iff; right; left; reflexivity|]. apply in_map_iff in He. destruct He as (vc & <- & Hv).
    apply K. rewrite !in_app_iff. right. right. apply in_map, Hv.
Qed.

Theorem fm_solver_ok : solver_ok fm_solver.
Proof.
  intros p (a0 & F0 & O0). unfold fm_solver.
  set (lift := fun (a : assignment) z (u : unk) => match u with Some v => a v | None => z end).
  assert (L : forall a z, lp_feasible p a -> z <= lp_value p a -> sat (lift a z) (system p)).
  { intros a z Ha Hz. apply system_sat. split; assumption. }
  destruct (fm (occurring p) (system p)) as [a|] eqn:E.
  - exists (fun v => a (Some v)). split; [reflexivity|].
    pose proof (proj1 (system_sat p a) (fm_sat _ _ _ (system_over p) E)) as [Fa Va]. split; [exact Fa|].
    intros a' Fa'. eapply Qcle_trans; [|exact Va].
    exact (fm_max _ _ _ (system_over p) E (lift a' (lp_value p a')) (L a' _ Fa' (Qcle_refl _))).
  - exfalso. destruct (fm_none _ _ (system_over p) E (lift a0 (lp_value p a0)) (L a0 _ F0 (Qcle_refl _))) as (b & Sb & Lb).
    apply system_sat in Sb. destruct Sb as [Fb Vb]. specialize (O0 _ Fb). cbn [lift] in Lb. qlra.
Qed.
