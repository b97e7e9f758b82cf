(** The attributes sampled for the merged bids can be any combination of those of the members. *)
From Verif Require Import QcTac Num ModelBase ModelMerge ListFacts.

(** an oracle that makes the choices [cb], [ct] and [cd] for the three attributes of group [g] *)
Definition chooser (cb ct cd : nat -> nat) (k : nat) : nat :=
  match Nat.modulo k 3 with O => cb (Nat.div k 3) | Datatypes.S O => ct (Nat.div k 3) | _ => cd (Nat.div k 3) end.
Lemma chooser_at cb ct cd g : chooser cb ct cd (3 * g) = cb g /\ chooser cb ct cd (3 * g + 1) = ct g /\ chooser cb ct cd (3 * g + 2) = cd g.
Proof.
  unfold chooser.
  assert (H : forall i, (i < 3)%nat -> Nat.modulo (3 * g + i) 3 = i /\ Nat.div (3 * g + i) 3 = g).
  { intros i L. rewrite (Nat.add_comm (3 * g) i), (Nat.mul_comm 3 g), Nat.mod_add, Nat.div_add by lia. rewrite Nat.mod_small, Nat.div_small by lia. split; lia. }
  destruct (H 0%nat) as [A0 B0]; [lia|]. destruct (H 1%nat) as [A1 B1]; [lia|]. destruct (H 2%nat) as [A2 B2]; [lia|]. rewrite Nat.add_0_r in A0, B0.
  rewrite A0, A1, A2, B0, B1, B2. repeat split.
Qed.

(** row [r] stands for [rows] and takes its attributes from the chosen members *)
Definition takes (cb ct cd : nat) (r : row) (rows : df) : Prop :=
  exists xb xt xd, nth_error rows (Nat.modulo cb (length rows)) = Some xb /\ nth_error rows (Nat.modulo ct (length rows)) = Some xt /\
    nth_error rows (Nat.modulo cd (length rows)) = Some xd /\ buying r = buying xb /\ time r = time xt /\ divisible r = divisible xd.
Lemma sample_map {A} smp k (f : row -> A) rows x d : nth_error rows (Nat.modulo (smp k) (length rows)) = Some x -> sample smp k (map f rows) d = f x.
Proof. intro E. unfold sample. rewrite map_length. apply (map_nth_error f) in E. apply nth_error_nth, E. Qed.
Lemma chosen {A} (rows : list A) c : rows <> [] -> exists x, nth_error rows (Nat.modulo c (length rows)) = Some x.
Proof.
  intro N. destruct (nth_error rows (Nat.modulo c (length rows))) as [x|] eqn:E; [eauto|]. apply nth_error_None in E.
  assert (length rows <> 0%nat) by (destruct rows; [congruence | discriminate]). pose proof (Nat.mod_upper_bound c (length rows) H). lia.
Qed.
Lemma new_id_nonempty l c u c' : new_id l c = Ok (u, c') -> l <> [].
Proof. destruct l; [discriminate | discriminate]. Qed.

Lemma groups_take prec cb ct cd side keys : forall g cnt l g' cnt', merge_groups prec (chooser cb ct cd) side keys g cnt = Ok (l, g', cnt') ->
  g' = (g + length l)%nat /\
  forall i r m, nth_error l i = Some (r, m) -> exists rows, map lbl rows = m /\ incl rows side /\ takes (cb (g + i)%nat) (ct (g + i)%nat) (cd (g + i)%nat) r rows.
Proof.
  induction keys as [|k keys IH]; intros g cnt l g' cnt' E; cbn [merge_groups] in E.
  - injection E as <- <- <-. split; [cbn; lia|]. intros [|i] r m H; discriminate H.
  - set (rows := filter _ side) in E. destruct (new_id (map user rows) cnt) as [[u c1]|] eqn:N; [|discriminate E]. cbn [bind] in E.
    destruct (merge_groups prec _ side keys (Datatypes.S g) c1) as [[[rest g1] c2]|] eqn:M; [|discriminate E]. cbn [bind] in E. injection E as <- <- <-.
    destruct (IH _ _ _ _ _ M) as [L T]. split; [cbn [length]; lia|]. intros [|i] r m H; cbn [nth_error] in H.
    + injection H as <- <-. exists rows. split; [reflexivity|]. split; [intros x Hx; apply filter_In in Hx; tauto|].
      replace (cb (g + 0)%nat) with (cb g) by (f_equal; lia). replace (ct (g + 0)%nat) with (ct g) by (f_equal; lia). replace (cd (g + 0)%nat) with (cd g) by (f_equal; lia).
      assert (NE : rows <> []) by (apply new_id_nonempty in N; destruct rows; [destruct N; reflexivity | discriminate]).
      destruct (chosen rows (cb g) NE) as (xb & Xb), (chosen rows (ct g) NE) as (xt & Xt), (chosen rows (cd g) NE) as (xd & Xd).
      destruct (chooser_at cb ct cd g) as (C1 & C2 & C3). exists xb, xt, xd. split; [exact Xb|]. split; [exact Xt|]. split; [exact Xd|]. cbn [buying time divisible].
      split; [apply (sample_map (chooser cb ct cd) (3 * g)); rewrite C1; exact Xb|].
      split; [apply (sample_map (chooser cb ct cd) (3 * g + 1)); rewrite C2; exact Xt | apply (sample_map (chooser cb ct cd) (3 * g + 2)); rewrite C3; exact Xd].
    + rewrite <- Nat.add_succ_comm. apply T, H.
Qed.
Theorem any_sample prec d cnt cb ct cd nd mp cnt' : merge_same_price prec (chooser cb ct cd) d cnt = Ok (nd, mp, cnt') ->
  length mp = length nd /\
  forall g r m, nth_error nd g = Some r -> nth_error mp g = Some m -> exists rows, map lbl rows = m /\ incl rows d /\ takes (cb g) (ct g) (cd g) r rows.
Proof.
  unfold merge_same_price. intro E. set (c0 := new_player_id _ _) in E.
  destruct (merge_groups prec (chooser cb ct cd) (buyers d) _ 0 c0) as [[[mb g1] c1]|] eqn:M1; [|discriminate E]. cbn [bind] in E.
  destruct (merge_groups prec (chooser cb ct cd) (sellers d) _ g1 c1) as [[[ms g2] c2]|] eqn:M2; [|discriminate E]. cbn [bind] in E. injection E as <- <- <-.
  destruct (groups_take _ _ _ _ _ _ _ _ _ _ _ M1) as [L1 T1]. destruct (groups_take _ _ _ _ _ _ _ _ _ _ _ M2) as [_ T2]. cbn in L1. subst g1.
  split; [rewrite !map_length; reflexivity|]. intros g r m H1 H2. rewrite nth_error_map in H1, H2.
  destruct (nth_error (mb ++ ms) g) as [[r' m']|] eqn:X; [|discriminate H1]. cbn [option_map fst snd] in H1, H2. injection H1 as <-. injection H2 as <-.
  destruct (Nat.lt_ge_cases g (length mb)) as [L|L].
  - rewrite nth_error_app1 in X by exact L. destruct (T1 g r' m' X) as (rows & R1 & R2 & R3). exists rows. split; [exact R1|]. split; [|exact R3].
    intros x Hx. apply R2 in Hx. apply filter_In in Hx. tauto.
  - rewrite nth_error_app2 in X by exact L. destruct (T2 _ r' m' X) as (rows & R1 & R2 & R3). replace (length mb + (g - length mb))%nat with g in R3 by lia.
    exists rows. split; [exact R1|]. split; [|exact R3]. intros x Hx. apply R2 in Hx. apply filter_In in Hx. tauto.
Qed.
