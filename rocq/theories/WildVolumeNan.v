(** Peer to peer trading with NaN prices: for who meets and how much is traded, only comparisons of a seller with a buyer matter. *)
From Verif Require Import QcTac Num NumFacts ListFacts ModelBase ModelHuang ModelP2P ModelMarket ModelStats ModelAny ModelWild ModelWildMarket ModelWildP2P ModelWildVolume
  Spec SpecAlloc SpecAny SpecAnyRel SpecWild SpecWildMarket SpecWildP2P SpecWildVolume LPFacts AnyRel AnyLast IeeeAny WildStats WildP2P WildVolume.

Section Sides.
  Context {P Q X P' X' : Type}.
  Variables (o : ops P Q X) (o' : ops P' Q X').
  Hypothesis Hnone : o_none o' = o_none o.
  Hypothesis Hmin : forall x y, o_min o' x y = o_min o x y.
  Hypothesis Hsub : forall x y, o_sub o' x y = o_sub o x y.
  Hypothesis Hpos : forall x, o_pos o' x = o_pos o x.
  Hypothesis His0 : forall x, o_is0 o' x = o_is0 o x.
  Hypothesis Hmore : forall x, o_more o' x = o_more o x.
  Variables (d : list (arow P Q)) (d' : list (arow P' Q)).
  Hypothesis Hd : Forall2 (fun x x' => a_lbl x' = a_lbl x /\ a_qty x' = a_qty x /\ a_buying x' = a_buying x) d d'.
  Hypothesis Hle : forall b s pb p0 pb' p0', In (b, s) (a_pairs d) -> nth_error (map a_price d) b = Some pb -> nth_error (map a_price d) s = Some p0 ->
    nth_error (map a_price d') b = Some pb' -> nth_error (map a_price d') s = Some p0' -> o_le o' p0' pb' = o_le o p0 pb.
  Notation like := (Forall2 (same_trans eq (fun _ _ => True))).

  Lemma side_labels (f : bool -> bool) : map a_lbl (filter (fun x => f (a_buying x)) d') = map a_lbl (filter (fun x => f (a_buying x)) d).
  Proof. clear Hle. induction Hd as [|x x' l l' (E1 & E2 & E3) H IH]; [reflexivity|]. cbn [filter]. rewrite E3. destruct (f (a_buying x)); cbn [map]; rewrite IH by exact H; congruence. Qed.
  Lemma side_buyers : a_buyers d' = a_buyers d.
  Proof. exact (side_labels (fun b => b)). Qed.
  Lemma side_sellers : a_sellers d' = a_sellers d.
  Proof. exact (side_labels negb). Qed.
  Lemma side_pairs : a_pairs d' = a_pairs d.
  Proof. unfold a_pairs. rewrite side_buyers, side_sellers. reflexivity. Qed.
  Lemma side_length : length d' = length d.
  Proof. clear Hle. induction Hd; cbn; auto. Qed.
  Lemma side_qty : map a_qty d' = map a_qty d.
  Proof. clear Hle. induction Hd as [|x x' l l' (E1 & E2 & E3) H IH]; [reflexivity|]. cbn [map]. rewrite IH by exact H. congruence. Qed.
  Lemma side_price i : match nth_error (map a_price d) i, nth_error (map a_price d') i with Some _, Some _ => True | None, None => True | _, _ => False end.
  Proof. clear Hle. revert i. induction Hd as [|x x' l l' E H IH]; intros [|i]; cbn; auto. exact (IH H i). Qed.

  Lemma side_trade p q T T' : In p (a_pairs d) -> like T T' ->
    fst (a_trade o' (map a_price d') (q, T') p) = fst (a_trade o (map a_price d) (q, T) p) /\
    like (snd (a_trade o (map a_price d) (q, T) p)) (snd (a_trade o' (map a_price d') (q, T') p)).
  Proof.
    destruct p as [b s]. intros I HT. unfold a_trade. pose proof (side_price b) as Kb. pose proof (side_price s) as Ks.
    destruct (nth_error (map a_price d) b) as [pb|] eqn:Eb, (nth_error (map a_price d') b) as [pb'|] eqn:Eb'; try contradiction; [|auto].
    destruct (nth_error (map a_price d) s) as [p0|] eqn:Es, (nth_error (map a_price d') s) as [p0'|] eqn:Es'; try contradiction; [|auto].
    rewrite (Hle b s pb p0 pb' p0' I Eb Es Eb' Es'). destruct (o_le o p0 pb); cbn [fst snd]; rewrite ?Hnone, ?Hmin, ?Hsub, ?Hpos.
    - split; [rewrite ?Hsub; reflexivity|]. apply Forall2_app; [exact HT|]. constructor; [|constructor; [|constructor]]; constructor; cbn [x_bid x_qty x_price x_source x_active]; rewrite ?Hsub, ?Hpos; auto.
    - split; [reflexivity|]. apply Forall2_app; [exact HT|]. constructor; [|constructor; [|constructor]]; constructor; cbn [x_bid x_qty x_price x_source x_active]; auto.
  Qed.
  Lemma side_trades L : (forall p, In p L -> In p (a_pairs d)) -> forall q T T', like T T' ->
    fst (fold_left (a_trade o' (map a_price d')) L (q, T')) = fst (fold_left (a_trade o (map a_price d)) L (q, T)) /\
    like (snd (fold_left (a_trade o (map a_price d)) L (q, T))) (snd (fold_left (a_trade o' (map a_price d')) L (q, T'))).
  Proof.
    induction L as [|p L IH]; intros H q T T' HT; [split; [reflexivity | exact HT]|]. cbn [fold_left].
    destruct (side_trade p q T T' (H p (or_introl eq_refl)) HT) as [H1 H2]. destruct (a_trade o _ _ p) as [q1 T1]. destruct (a_trade o' _ _ p) as [q1' T1']. cbn [fst snd] in H1, H2. subst q1'.
    apply IH; [intros z Hz; apply H; right; exact Hz | exact H2].
  Qed.
  Lemma side_next ps q a : a_next o' d' ps q a = a_next o d ps q a.
  Proof.
    unfold a_next. rewrite side_buyers, side_sellers, Hnone. assert (E : forall b, o_is0 o' (nth b q (o_none o)) = o_is0 o (nth b q (o_none o))) by (intro; apply His0). rewrite !(filter_ext _ _ E). reflexivity.
  Qed.
  Lemma side_loop r fuel : forall k a tmp q T T' g, like T T' ->
    same_result eq (fun _ _ => True) (a_loop o fuel d (a_pairs d) (map a_price d) r k a tmp q T g) (a_loop o' fuel d' (a_pairs d) (map a_price d') r k a tmp q T' g).
  Proof.
    induction fuel as [|fuel IH]; intros k a tmp q T T' g HT; cbn [a_loop]; rewrite Hmore; destruct (o_more o q && existsb (fun b => b) tmp); simpl; auto.
    destruct (pick_round (length (a_pairs d)) (a_pairs d) r k a tmp []) as [[[L a'] k']|e] eqn:E; cbn [bind]; [|reflexivity].
    assert (I : forall p, In p L -> In p (a_pairs d)) by (apply (pick_incl _ _ _ _ _ _ _ _ _ _ E); intros p []).
    destruct (side_trades L I q T T' HT) as [H1 H2]. destruct (fold_left (a_trade o _) L (q, T)) as [q1 T1]. destruct (fold_left (a_trade o' _) L (q, T')) as [q1' T1']. cbn [fst snd] in H1, H2. subst q1'.
    rewrite side_next. apply IH; assumption.
  Qed.
  Theorem any_sides r : same_result eq (fun _ _ => True) (a_run o d r) (a_run o' d' r).
  Proof. unfold a_run. rewrite side_pairs, side_length, side_qty. destruct (forallb _ _); [|reflexivity]. apply side_loop. constructor. Qed.
End Sides.

Theorem p2p_capped c c' d P r : w_positions d -> beyond P d ->
  match w_p2p c d r, p2p_random (map (cap_nan P) d) c' r with
  | Ok (T, g), Ok (tm, XP2P g') => Forall2 same_but_price T (tm_trans tm) /\ g = g'
  | Err e, Err e' => e = e'
  | _, _ => False
  end.
Proof.
  intros HP [H0 Hb]. rewrite last_exact. unfold w_p2p.
  assert (K : same_result eq (fun _ _ => True) (a_run (ops_w c) (map arow_w d) r) (a_run (ops_q c') (map arow_of (map (cap_nan P) d)) r)).
  { apply any_sides; try reflexivity.
    - clear. induction d; simpl; constructor; auto.
    - intros b s pb p0 pb' p0' I Eb Es Eb' Es'.
      assert (J : exists x y, In x d /\ In y d /\ w_buying x = true /\ w_buying y = false /\ b = w_lbl x /\ s = w_lbl y).
      { unfold a_pairs in I. apply in_flat_map in I. destruct I as (i & Hi & I). apply in_map_iff in I. destruct I as (j & Ej & Hj). injection Ej as -> ->.
        unfold a_buyers, a_sellers in Hi, Hj. apply in_map_iff in Hi, Hj. destruct Hi as (u & <- & Hu), Hj as (v & <- & Hv). apply filter_In in Hu, Hv. destruct Hu as [Hu Bu], Hv as [Hv Bv].
        apply in_map_iff in Hu, Hv. destruct Hu as (x & <- & Hx), Hv as (y & <- & Hy). exists x, y. apply negb_true_iff in Bv. auto 10. }
      destruct J as (x & y & Hx & Hy & Bx & By & -> & ->). rewrite !map_map in Eb', Es'. rewrite map_map in Eb, Es.
      rewrite (map_nth_error _ _ _ (at_position d HP x Hx)) in Eb. rewrite (map_nth_error _ _ _ (at_position d HP x Hx)) in Eb'.
      rewrite (map_nth_error _ _ _ (at_position d HP y Hy)) in Es. rewrite (map_nth_error _ _ _ (at_position d HP y Hy)) in Es'.
      injection Eb as <-. injection Es as <-. injection Eb' as <-. injection Es' as <-.
      apply (cap_nan_le P x y H0); auto; intros q E; [exact (Hb x q Hx E) | exact (Hb y q Hy E)]. }
  unfold SpecAnyRel.same_result in K. destruct (a_run (ops_w c) _ r) as [[T g]|e], (a_run (ops_q c') _ r) as [[T' g']|e']; try contradiction; [|congruence].
  destruct K as [F <-]. cbn [tm_trans]. split; [|reflexivity]. induction F as [|t t' T T' [B Q' Pp S A] F IH]; [constructor|]. cbn [map]. constructor; [|exact IH]. unfold same_but_price, trans_of. cbn. auto.
Qed.
Theorem half_any sv c d r T g x : w_positions d -> w_qty_nonneg d -> solver_ok sv -> w_p2p c d r = Ok (T, g) -> w_percentage sv d T = Ok (Some x) -> 1 / qz 2 <= x.
Proof.
  intros HP Hq Hs E Ex. destruct (some_beyond d) as (P & Hb). pose proof (p2p_capped c c d P r HP Hb) as K. rewrite E in K.
  destruct (p2p_random (map (cap_nan P) d) c r) as [[tm ex]|] eqn:E'; [|contradiction]. destruct ex as [ | | |g'|]; try contradiction. destruct K as [F _].
  assert (Et : map t_qty (tm_trans tm) = map x_qty T) by (clear - F; induction F as [|t u T U (_ & H & _) _ IH]; [reflexivity | cbn [map]; congruence]).
  rewrite (percentage_cap P d HP Hb sv T (tm_trans tm) Et) in Ex.
  eapply (p2p_half_percentage sv (map (cap_nan P) d) c r tm); eauto.
  - rewrite cap_nan_lbl, map_length. exact HP.
  - intros z Hz. apply in_map_iff in Hz. destruct Hz as (w & <- & Hw). apply Hq, Hw.
Qed.
