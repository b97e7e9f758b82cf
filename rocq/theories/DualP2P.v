(** The peer to peer mechanism on the mirror image of a market. *)
From Verif Require Import QcTac Num ModelBase ModelHuang ModelP2P ListFacts Spec SpecTrade SpecP2P SpecDual P2PSchedule DualFacts.

Definition swap (p : nat * nat) : nat * nat := (snd p, fst p).

Section DualP2P.
  Variables (M : Qc) (d : df) (c : Qc).
  Hypothesis Hu : NoDup (map lbl d).
  Notation d' := (map (flip M) d).
  Notation fm := (flip_meeting M d).
  Definition Mir (tl tl' : list trans) : Prop := Permutation tl' (map fm tl).

  Lemma same_row x y : In x d -> In y d -> lbl x = lbl y -> x = y.
  Proof. intros. apply (NoDup_map_in lbl d); auto. Qed.
  Lemma agreed_is x y t : In x d -> In y d -> t_bid t = lbl x -> t_source t = Z.of_nat (lbl y) ->
    agreed d t = if buying x then qleb (price y) (price x) else qleb (price x) (price y).
  Proof.
    intros Hx Hy Ex Ey. unfold agreed. set (v := if buying x then _ else _). destruct (existsb _ d) eqn:E.
    - apply existsb_exists in E. destruct E as (x0 & I & E). apply existsb_exists in E. destruct E as (y0 & J & E).
      apply andb_true_iff in E. destruct E as [E V]. apply andb_true_iff in E. destruct E as [E1 E2]. apply Nat.eqb_eq in E1. apply Z.eqb_eq in E2.
      rewrite Ex in E1. rewrite Ey in E2. apply Nat2Z.inj in E2. rewrite (same_row x0 x I Hx E1), (same_row y0 y J Hy E2) in V. unfold v. rewrite V. reflexivity.
    - destruct v eqn:V; [|reflexivity]. rewrite <- E. apply existsb_exists. exists x. split; [exact Hx|]. apply existsb_exists. exists y. split; [exact Hy|].
      rewrite Ex, Ey, Nat.eqb_refl, Z.eqb_refl. exact V.
  Qed.
  Lemma fm_bid t : t_bid (fm t) = t_bid t.
  Proof. unfold flip_meeting. destruct (agreed d t); reflexivity. Qed.
  Lemma fm_qty t : t_qty (fm t) = t_qty t.
  Proof. unfold flip_meeting. destruct (agreed d t); reflexivity. Qed.
  Lemma mir_traded i tl tl' : Mir tl tl' -> traded_by i tl' = traded_by i tl.
  Proof.
    intro H. unfold traded_by. rewrite (qsumf_perm _ _ _ (filter_perm _ _ _ H)). rewrite filter_map, qsumf_map.
    rewrite (filter_ext (fun t => Nat.eqb (t_bid (fm t)) i) (fun t => Nat.eqb (t_bid t) i)) by (intro t; rewrite fm_bid; reflexivity).
    apply qsumf_ext. intros t _. apply fm_qty.
  Qed.
  Lemma mir_rest x tl tl' : Mir tl tl' -> rest (flip M x) tl' = rest x tl.
  Proof. intro H. unfold rest. cbn [flip qty lbl]. rewrite (mir_traded _ _ _ H). reflexivity. Qed.
  Lemma mir_deal x y tl tl' : In x d -> In y d -> buying x = true -> buying y = false -> Mir tl tl' ->
    Mir (tl ++ deal c x y tl) (tl' ++ deal (1 - c) (flip M y) (flip M x) tl').
  Proof.
    intros Hx Hy Bx By H. unfold Mir. rewrite map_app. apply Permutation_app; [exact H|].
    unfold deal. rewrite !(mir_rest _ _ _ H). cbn [flip price lbl].
    assert (A : forall q p a, agreed d (mkTrans (lbl x) q p (Z.of_nat (lbl y)) a) = qleb (price y) (price x)).
    { intros. rewrite (agreed_is x y) by (assumption || reflexivity). rewrite Bx. reflexivity. }
    assert (B : forall q p a, agreed d (mkTrans (lbl y) q p (Z.of_nat (lbl x)) a) = qleb (price y) (price x)).
    { intros. rewrite (agreed_is y x) by (assumption || reflexivity). rewrite By. reflexivity. }
    assert (E : qleb (M - price x) (M - price y) = qleb (price y) (price x)) by (destruct (qle_spec (M - price x) (M - price y)), (qle_spec (price y) (price x)); try reflexivity; exfalso; qlra).
    rewrite E. destruct (qleb (price y) (price x)) eqn:L; cbv zeta; cbn [map]; unfold flip_meeting; rewrite A, B; unfold flip_trans; cbn [t_bid t_qty t_price t_source t_active].
    - rewrite (qmin_comm (rest y tl)). replace ((M - price y) * (1 - c) + (1 - (1 - c)) * (M - price x)) with (M - (price x * c + (1 - c) * price y)) by ring. apply perm_swap.
    - apply perm_swap.
  Qed.
  Lemma mir_deals tl L tl1 : Deals d c tl L tl1 -> forall tl', Mir tl tl' -> exists tl1', Deals d' (1 - c) tl' (map swap L) tl1' /\ Mir tl1 tl1'.
  Proof.
    induction 1 as [tl|tl x y L tl1 Hx Hy Bx By H IH]; intros tl' Mi; [exists tl'; split; [constructor | exact Mi]|].
    destruct (IH _ (mir_deal x y tl tl' Hx Hy Bx By Mi)) as (tl1' & D & Mi'). exists tl1'. split; [|exact Mi']. cbn [map swap fst snd].
    apply (Deals_cons d' (1 - c) tl' (flip M y) (flip M x)); [apply in_map, Hy | apply in_map, Hx | cbn [flip buying]; rewrite By; reflexivity | cbn [flip buying]; rewrite Bx; reflexivity | exact D].
  Qed.
  Lemma swap_swap p : swap (swap p) = p.
  Proof. destruct p. reflexivity. Qed.
  Lemma swap_in p L : In (swap p) (map swap L) <-> In p L.
  Proof.
    split; [|apply in_map]. intro H. apply in_map_iff in H. destruct H as (q & E & I). rewrite <- (swap_swap p), <- E, swap_swap. exact I.
  Qed.
  Lemma mir_may met tl tl' p : Mir tl tl' -> (may_meet d met tl p <-> may_meet d' (map swap met) tl' (swap p)).
  Proof.
    intro H. split.
    - intros (x & y & Hx & Hy & Bx & By & E & N & Z). exists (flip M y), (flip M x). split; [apply in_map, Hy|]. split; [apply in_map, Hx|]. cbn [flip buying lbl].
      split; [rewrite By; reflexivity|]. split; [rewrite Bx; reflexivity|]. split; [rewrite E; reflexivity|]. split; [rewrite swap_in; exact N|].
      fold (flip M x) (flip M y). rewrite !(mir_rest _ _ _ H). destruct Z as [->|[Z1 Z2]]; [left; reflexivity | right; auto].
    - intros (y1 & x1 & Hy & Hx & By & Bx & E & N & Z). apply in_map_iff in Hy, Hx. destruct Hy as (y & <- & Hy). destruct Hx as (x & <- & Hx).
      exists x, y. split; [exact Hx|]. split; [exact Hy|]. cbn [flip buying lbl] in By, Bx, E. rewrite swap_in in N.
      split; [destruct (buying x); [reflexivity | discriminate Bx]|]. split; [destruct (buying y); [discriminate By | reflexivity]|].
      split; [destruct p as [a b]; unfold swap in E; cbn [fst snd] in E; congruence|]. split; [exact N|].
      rewrite !(mir_rest _ _ _ H) in Z. destruct Z as [Z|[Z1 Z2]]; [left; exact (map_eq_nil _ _ Z) | right; auto].
  Qed.
  Lemma swap_flat L : Permutation (flat_map (fun p => [fst p; snd p]) (map swap L)) (flat_map (fun p => [fst p; snd p]) L).
  Proof. induction L as [|[a b] L IH]; [constructor|]. cbn [map flat_map swap fst snd app]. etransitivity; [apply perm_swap|]. constructor. constructor. exact IH. Qed.
  Lemma mir_round met tl tl' T : Mir tl tl' -> Round d met tl T -> Round d' (map swap met) tl' (map swap T).
  Proof.
    intros H R. destruct R as [R1 R2 R3 R4]. split.
    - intro E. apply map_eq_nil in E. contradiction.
    - apply (Permutation_NoDup (Permutation_sym (swap_flat T)) R2).
    - intros p Hp. rewrite <- (swap_swap p) in Hp. apply (proj1 (swap_in (swap p) T)) in Hp. rewrite <- (swap_swap p). apply (mir_may _ _ _ _ H). apply R3, Hp.
    - intros p Hp. rewrite <- (swap_swap p) in Hp. apply (mir_may _ _ _ _ H) in Hp. destruct (R4 _ Hp) as (q & Q & C). exists (swap q). split; [apply swap_in, Q|].
      destruct p, q. unfold swap in *. cbn [fst snd] in *. tauto.
  Qed.
  Lemma concat_swap gtl : concat (map (map swap) gtl) = map swap (concat gtl).
  Proof. induction gtl as [|g gtl IH]; [reflexivity|]. cbn [map concat]. rewrite IH, map_app. reflexivity. Qed.
  Lemma mir_schedule gtl tl : Schedule d c gtl tl -> exists tl', Schedule d' (1 - c) (map (map swap) gtl) tl' /\ Mir tl tl'.
  Proof.
    induction 1 as [|gtl tl T tl1 H IH (x & X & P) R D]; [exists []; split; constructor|].
    destruct IH as (tl' & H' & Mi). destruct (mir_deals _ _ _ D tl' Mi) as (tl1' & D' & Mi1). exists tl1'. split; [|exact Mi1].
    rewrite map_app. cbn [map]. apply (Sch_round d' (1 - c) (map (map swap) gtl) tl' (map swap T)); [exact H' | | | exact D'].
    - exists (flip M x). split; [apply in_map, X|]. rewrite (mir_rest _ _ _ Mi). exact P.
    - rewrite concat_swap. apply (mir_round _ _ _ _ Mi R).
  Qed.
  Lemma mir_stopped gtl tl tl' : Mir tl tl' -> Stopped d gtl tl -> Stopped d' (map (map swap) gtl) tl'.
  Proof.
    intros H [S|S].
    - left. intros x Hx. apply in_map_iff in Hx. destruct Hx as (x0 & <- & Hx). rewrite (mir_rest _ _ _ H). apply S, Hx.
    - right. intros p Hp. rewrite concat_swap in Hp. rewrite <- (swap_swap p) in Hp. apply (mir_may _ _ _ _ H) in Hp. exact (S _ Hp).
  Qed.
End DualP2P.

Theorem p2p_flip M d c r tm gtl : map lbl d = seq 0 (length d) -> qty_nonneg d -> p2p_random d c r = Ok (tm, XP2P gtl) ->
  exists r' tm', p2p_random (map (flip M) d) (1 - c) r' = Ok (tm', XP2P (map (map swap) gtl)) /\ Permutation (tm_trans tm') (map (flip_meeting M d) (tm_trans tm)).
Proof.
  intros Hl Hq E. destruct (p2p_is_schedule d c Hl Hq r tm _ E) as (g & Eg & H & S). injection Eg as <-.
  assert (Hu : NoDup (map lbl d)) by (rewrite Hl; apply seq_NoDup).
  destruct (mir_schedule M d c Hu gtl _ H) as (tl' & H' & Mi). pose proof (mir_stopped M d gtl _ _ Mi S) as S'.
  destruct (p2p_reaches (map (flip M) d) (1 - c)) with (gtl := map (map swap) gtl) (tl := tl') as (r' & tm' & E' & <-); [rewrite flip_lbl, map_length; exact Hl | apply flip_nonneg, Hq | exact H' | exact S'|].
  exists r', tm'. auto.
Qed.
