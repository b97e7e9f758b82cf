(** [Market.run('huang')] with infinite and NaN prices: nobody gets more than the bid, NaN bids are left out, too large demands at any price. *)
From Verif Require Import QcTac Num NumFacts ListFacts ModelBase ModelHuang ModelMerge ModelAny ModelWild ModelWildMarket Spec SpecWild SpecWildMarket MergeFacts WildCap WildTop WildMarket.

Lemma w_iloc_ok d rs : w_positions d -> (forall x, In x rs -> In x d) -> w_iloc d (map w_lbl rs) = Ok rs.
Proof.
  intro P. induction rs as [|x rs IH]; intro H; [reflexivity|]. cbn [map w_iloc].
  assert (E : nth_error d (w_lbl x) = Some x).
  { destruct (In_nth_error d x (H x (or_introl eq_refl))) as (i & E). assert (L : w_lbl x = i); [|rewrite L; exact E].
    assert (M : nth_error (map w_lbl d) i = Some (w_lbl x)) by (rewrite nth_error_map, E; reflexivity). rewrite P in M.
    assert (Hi : (i < length d)%nat) by (apply nth_error_Some; congruence). rewrite (nth_error_nth' _ 0%nat) in M by (rewrite seq_length; exact Hi).
    rewrite seq_nth in M by exact Hi. injection M as M. cbn in M. auto. }
  rewrite E, IH by (intros y Hy; apply H; right; exact Hy). reflexivity.
Qed.
Definition share (t : atrans Qc num) (tot : Qc) (x : wrow) : atrans Qc num := mkATrans (w_lbl x) (x_qty t * (w_qty x / tot)) (x_price t) (x_source t) (x_active t).
Lemma combine_map {A B C} (f : A -> B) (h : B * A -> C) (l : list A) : map h (combine (map f l) l) = map (fun x => h (f x, x)) l.
Proof. induction l as [|x l IH]; [reflexivity|]. cbn. rewrite IH. reflexivity. Qed.
Lemma w_split_one_ok d mp t rs : w_positions d -> nth_error mp (x_bid t) = Some (map w_lbl rs) -> (forall x, In x rs -> In x d) -> 0 < qsumf w_qty rs ->
  w_split_one d mp t = Ok (map (share t (qsumf w_qty rs)) rs).
Proof.
  intros P E H Z. unfold w_split_one. rewrite E, (w_iloc_ok d rs P H). cbn [bind]. rewrite qsum_map_f.
  destruct (qeq_spec (qsumf w_qty rs) 0) as [C|C]; [exfalso; qlra|]. rewrite combine_map. reflexivity.
Qed.
Lemma share_sum t rs : 0 < qsumf w_qty rs -> qsumf x_qty (map (share t (qsumf w_qty rs)) rs) = x_qty t.
Proof.
  intro H. assert (G : forall l tot, tot <> 0 -> qsumf x_qty (map (share t tot) l) = x_qty t * (qsumf w_qty l / tot)).
  { intros l tot Ht. induction l as [|x l IH]; [cbn; field; exact Ht|]. cbn [map]. rewrite !qsumf_cons, IH. cbn [share x_qty]. field. exact Ht. }
  assert (N : qsumf w_qty rs <> 0) by (intro C; rewrite C in H; qlra). rewrite G by exact N. field. exact N.
Qed.
Lemma qdiv_le a b c : 0 < c -> 0 <= b -> 0 <= a -> a <= c -> 0 <= a * (b / c) /\ a * (b / c) <= b.
Proof.
  intros Hc Hb Ha L. assert (Z : 0 <= b / c).
  { unfold Qcdiv. apply qmult_nonneg; [exact Hb|]. assert (U : / c * c = 1) by (field; intro C; rewrite C in Hc; qlra).
    destruct (qle_spec 0 (/ c)) as [A|A]; [exact A|]. exfalso. assert (K := Qcmult_lt_compat_r _ _ c Hc A). rewrite U, Qcmult_0_l in K. qlra. }
  split; [apply qmult_nonneg; assumption|]. replace b with (c * (b / c)) at 2 by (field; intro C; rewrite C in Hc; qlra).
  assert (K := Qcmult_le_compat_r _ _ (b / c) L Z). exact K.
Qed.

Section Run.
  Variable S : wsorter.
  Variable smp : nat -> nat.
  Variable cnt : Z.
  Variable d : wdf.
  Hypothesis HP : w_positions d.
  Hypothesis Hq : w_qty_pos d.
  Hypothesis Hb : priced true d.
  Hypothesis Hs : priced false d.

  Lemma keys_some side x : In x side -> w_price x <> NaN -> w_side_keys 5 side <> [].
  Proof.
    intros Hx N C. assert (I : In (n_round 5 (w_price x)) (w_side_keys 5 side)); [|rewrite C in I; contradiction].
    apply n_keys_In. split; [apply in_map_iff; eauto|]. destruct (w_price x); cbn; congruence.
  Qed.
  (** both sides are present after merging, so that the auction is run on the merged table *)
  Lemma run_is : exists mb ms, Forall2 (went (w_buyers d) true) (w_side_keys 5 (w_buyers d)) mb /\ Forall2 (went (w_sellers d) false) (w_side_keys 5 (w_sellers d)) ms /\
    map w_lbl (map fst (mb ++ ms)) = seq 0 (length (mb ++ ms)) /\ mb <> [] /\ ms <> [] /\
    w_run_huang S smp cnt d = ('(ts, ex) <- w_huang S (map fst (mb ++ ms)) ;; ts' <- w_split d (map snd (mb ++ ms)) ts ;; Ok (ts', ex)).
  Proof.
    destruct (w_merge_ok smp d cnt) as (mb & ms & c & E & Fb & Fs & Lb). exists mb, ms. split; [exact Fb|]. split; [exact Fs|]. split; [exact Lb|].
    assert (Nb : mb <> []).
    { destruct Hb as (x & Hx & Bx & Nx). intros ->. inversion Fb as [K|]. symmetry in K. revert K. apply (keys_some _ x); [apply filter_In; auto | exact Nx]. }
    assert (Ns : ms <> []).
    { destruct Hs as (x & Hx & Bx & Nx). intros ->. inversion Fs as [K|]. symmetry in K. revert K. apply (keys_some _ x); [apply filter_In; rewrite Bx; auto | exact Nx]. }
    split; [exact Nb|]. split; [exact Ns|]. unfold w_run_huang. rewrite E. cbn [bind]. unfold w_merged_run.
    rewrite (m_buyers d mb ms Fb Fs), !map_length, app_length.
    assert (L : match map fst (mb ++ ms) with [r] => w_buying r | _ => false end = false) by (destruct mb as [|? [|]], ms; cbn; congruence).
    rewrite L. destruct (Nat.eqb_spec (length mb) 0) as [C|C]; [destruct mb; [congruence | discriminate]|].
    destruct (Nat.eqb_spec (length mb) (length mb + length ms)) as [D|D]; [destruct ms; [congruence | cbn in D; lia]|]. reflexivity.
  Qed.

  (** too much is wanted at any price *)
  Theorem run_flood : offered (filter not_nan d) < wanted_at_any_price d -> w_run_huang S smp cnt d = Ok ([], None).
  Proof.
    intro H. destruct run_is as (mb & ms & Fb & Fs & _ & _ & _ & ->).
    rewrite flood_none; [reflexivity | intros x Hx; apply Qclt_le_weak, (m_qty_pos d mb ms Fb Fs Hq x Hx)|].
    rewrite (m_wanted_any d mb ms Fb Fs), (m_offered d mb ms Fb Fs). exact H.
  Qed.

  (** ** What the run guarantees *)
  Definition part_ok (b : bool) (t : atrans Qc num) : Prop :=
    exists x, In x d /\ w_buying x = b /\ x_bid t = w_lbl x /\ 0 <= x_qty t /\ x_qty t <= w_qty x /\ respects (round_row x) t.
  Lemma split_side mb ms b l : Forall2 (went (w_buyers d) true) (w_side_keys 5 (w_buyers d)) mb -> Forall2 (went (w_sellers d) false) (w_side_keys 5 (w_sellers d)) ms ->
    map w_lbl (map fst (mb ++ ms)) = seq 0 (length (mb ++ ms)) ->
    (forall t, In t l -> exists r, In r (map fst (mb ++ ms)) /\ w_buying r = b /\ x_bid t = w_lbl r /\ 0 <= x_qty t /\ x_qty t <= w_qty r /\ respects r t) ->
    exists l', w_split d (map snd (mb ++ ms)) l = Ok l' /\ qsumf x_qty l' = qsumf x_qty l /\ forall t, In t l' -> part_ok b t.
  Proof.
    intros Fb Fs Lb. induction l as [|t l IH]; intro H; [exists []; repeat split; intros t []|].
    destruct IH as (l' & E & Es & Ei); [intros u Hu; apply H; right; exact Hu|].
    destruct (H t (or_introl eq_refl)) as (r & Hr & Br & Lr & Q0 & Q1 & Rr).
    assert (P' : w_positions (map fst (mb ++ ms))) by (unfold w_positions; rewrite Lb, map_length; reflexivity).
    destruct (m_row_in mb ms r Hr) as (i & E1 & rows & E2).
    assert (Li : w_lbl r = i).
    { assert (M : nth_error (map w_lbl (map fst (mb ++ ms))) i = Some (w_lbl r)) by (rewrite nth_error_map, E1; reflexivity). rewrite P' in M.
      assert (Hi : (i < length (map fst (mb ++ ms)))%nat) by (apply nth_error_Some; congruence). rewrite (nth_error_nth' _ 0%nat) in M by (rewrite seq_length; exact Hi).
      rewrite seq_nth in M by exact Hi. injection M as M. cbn in M. auto. }
    destruct (m_row d mb ms Fb Fs i r rows E1 E2) as (rs & -> & Ne & Hin & Hqr & Hn & _).
    assert (Pos : 0 < qsumf w_qty rs) by (rewrite <- Hqr; apply (m_qty_pos d mb ms Fb Fs Hq r Hr)).
    rewrite <- Li, <- Lr in E2. cbn [w_split]. rewrite (w_split_one_ok d _ t rs HP E2 (fun x Hx => proj1 (Hin x Hx)) Pos), E. cbn [bind].
    exists (map (share t (qsumf w_qty rs)) rs ++ l'). split; [reflexivity|]. split; [rewrite qsumf_app, share_sum, Es, qsumf_cons by exact Pos; reflexivity|].
    intros u Hu. apply in_app_or in Hu. destruct Hu as [Hu|Hu]; [|apply Ei, Hu]. apply in_map_iff in Hu. destruct Hu as (x & <- & Hx).
    destruct (Hin x Hx) as (I1 & I2 & I3). exists x. split; [exact I1|]. split; [congruence|]. split; [reflexivity|]. cbn [share x_qty].
    rewrite Hqr in Q1. destruct (qdiv_le (x_qty t) (w_qty x) (qsumf w_qty rs) Pos (Qclt_le_weak _ _ (Hq x I1)) Q0 Q1) as [J1 J2]. split; [exact J1|]. split; [exact J2|].
    unfold respects in *. cbn [round_row w_buying w_price share x_price]. rewrite I2, I3. exact Rr.
  Qed.
  Lemma w_split_app mp l1 l2 l1' l2' : w_split d mp l1 = Ok l1' -> w_split d mp l2 = Ok l2' -> w_split d mp (l1 ++ l2) = Ok (l1' ++ l2').
  Proof.
    revert l1'. induction l1 as [|t l1 IH]; intros l1' E1 E2; cbn [w_split app] in *; [injection E1 as <-; exact E2|].
    destruct (w_split_one d mp t) as [a|e]; [|discriminate]. cbn [bind] in *. destruct (w_split d mp l1) as [b|e]; [|discriminate]. cbn [bind] in E1. injection E1 as <-.
    rewrite (IH b eq_refl E2). cbn [bind]. rewrite app_assoc. reflexivity.
  Qed.
  Lemma round_nonneg p : nltb p (Fin 0) = false -> nltb (n_round 5 p) (Fin 0) = false.
  Proof.
    destruct p as [q| | |]; cbn [n_round nltb]; try (intro; assumption). intro H. destruct (qlt_spec q 0) as [A|A]; [discriminate H|].
    assert (K := np_round_nonneg 5 q A). destruct (qlt_spec (np_round 5 q) 0) as [B|B]; [exfalso; qlra | reflexivity].
  Qed.
  Theorem run_fair : (forall x, In x d -> w_buying x = false -> nltb (w_price x) (Fin 0) = false) ->
    exists ss bs e, w_run_huang S smp cnt d = Ok (ss ++ bs, e) /\ qsumf x_qty ss = qsumf x_qty bs /\
      (forall t, In t ss -> part_ok false t) /\ (forall t, In t bs -> part_ok true t).
  Proof.
    intro Hpr. destruct run_is as (mb & ms & Fb & Fs & Lb & _ & _ & ->).
    assert (Hq' : w_qty_nonneg (map fst (mb ++ ms))) by (intros x Hx; apply Qclt_le_weak, (m_qty_pos d mb ms Fb Fs Hq x Hx)).
    destruct (w_no_error S _ Hq') as (ts & e & E).
    destruct (w_fair S _ Hq' ts e E) as (ss & bs & -> & Sum & Hss & Hbs).
    { intros r Hr Br. destruct (m_row_in mb ms r Hr) as (i & E1 & rows & E2). destruct (m_row d mb ms Fb Fs i r rows E1 E2) as (rs & _ & Ne & Hin & _).
      destruct rs as [|x rs]; [congruence|]. destruct (Hin x (or_introl eq_refl)) as (I1 & I2 & I3). rewrite <- I3. apply round_nonneg, Hpr; [exact I1 | congruence]. }
    destruct (split_side mb ms false ss Fb Fs Lb) as (ss' & E1 & S1 & P1); [intros t Ht; destruct (Hss t Ht) as (x & K); exists x; exact K|].
    destruct (split_side mb ms true bs Fb Fs Lb) as (bs' & E2 & S2 & P2); [intros t Ht; destruct (Hbs t Ht) as (x & K); exists x; exact K|].
    rewrite E. cbn [bind]. rewrite (w_split_app _ _ _ _ _ E1 E2). cbn [bind]. exists ss', bs', e. split; [reflexivity|]. split; [congruence|]. auto.
  Qed.
End Run.
