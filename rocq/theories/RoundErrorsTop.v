(** What the helper functions raise in rounded arithmetic, and how the rounded merge samples. *)
From Coq Require Import Permutation Sorted.
From Verif Require Import QcTac Num NumFacts ListFacts ModelBase ModelCurves ModelHuang ModelMuda ModelMerge ModelMarket ModelP2P ModelRound ModelRoundMarket
  Spec SpecErrors SpecRoundErrors UpdateFacts RoundFacts RoundMuda MudaHalf SplitFees GridTop ErrorFacts MergeSample.

Section Helpers.
  Variable R : rounding.
  Variable A : adder R.

  Lemma somes_removed (l : list (option Qc)) i v : nth_error l i = Some (Some v) -> Permutation (somes l) (v :: somes (set_nth i None l)).
  Proof.
    revert i; induction l as [|o l IH]; intros [|i] H; cbn [nth_error] in H; try discriminate.
    - injection H as ->. apply Permutation_refl.
    - specialize (IH i H). destruct o as [x|]; cbn; [|exact IH]. apply perm_trans with (x :: v :: somes (set_nth i None l)); [apply perm_skip, IH | apply perm_swap].
  Qed.
  Lemma sorted_head_min (v : Qc) a l l' : StronglySorted Qcle (a :: l) -> Permutation (a :: l) (v :: l') -> (forall x, In x (v :: l') -> v <= x) -> a = v /\ Permutation l l'.
  Proof.
    intros Hs Hp Hm. assert (E : a = v).
    { apply StronglySorted_inv in Hs. destruct Hs as [_ F]. rewrite Forall_forall in F.
      assert (L1 : v <= a) by (apply Hm; apply (Permutation_in a Hp); left; reflexivity).
      assert (Iv : In v (a :: l)) by (apply (Permutation_in v (Permutation_sym Hp)); left; reflexivity).
      destruct Iv as [->|Iv]; [reflexivity|]. specialize (F v Iv). qlra. }
    subst v. split; [reflexivity|]. exact (Permutation_cons_inv Hp).
  Qed.
  Lemma loop_r_used fuel : forall q gap N i v l, N = length (somes q) -> (N < fuel)%nat -> nanargmin q = Some (i, v) ->
    StronglySorted Qcle l -> Permutation l (somes q) ->
    (used_up R gap l -> uq_loop_r R fuel q gap N i v = Err ValueError) /\
    (~ used_up R gap l -> exists q' gap' N', uq_loop_r R fuel q gap N i v = Ok (q', gap', N') /\ length q' = length q).
  Proof.
    induction fuel as [|fuel IH]; intros q gap N i v l HN Hf Hm Hs Hp; [lia|]. cbn [uq_loop_r].
    destruct (nanargmin_some _ _ _ Hm) as [Hi Hmin]. pose proof (somes_removed q i v Hi) as Hr.
    destruct l as [|a l]; [apply Permutation_nil in Hp; rewrite Hp in Hr; apply Permutation_nil in Hr; discriminate Hr|].
    assert (Hp' : Permutation (a :: l) (v :: somes (set_nth i None q))) by (eapply perm_trans; eassumption).
    destruct (sorted_head_min v a l (somes (set_nth i None q)) Hs Hp') as [-> Hl].
    { intros x Hx. apply Hmin. apply (Permutation_in x (Permutation_sym Hr)), Hx. }
    assert (EN : N = length (v :: l)) by (rewrite HN; symmetry; apply Permutation_length, Hp). apply StronglySorted_inv in Hs. destruct Hs as [Hs _].
    destruct (qlt_spec v (R (gap / qnat N))) as [L|L].
    - destruct (nanargmin (set_nth i None q)) as [[i' v']|] eqn:Hm'.
      + assert (Len : (N - 1)%nat = length (somes (set_nth i None q))) by (rewrite <- (Permutation_length Hl), EN; cbn [length]; lia).
        destruct (IH (set_nth i None q) (R (gap - v)) (N - 1)%nat i' v' l Len ltac:(cbn [length] in EN; lia) Hm' Hs Hl) as [H1 H2]. split.
        * intro U. inversion U; subst. apply H1. assumption.
        * intro U. destruct H2 as (q' & g' & N' & E & Lq).
          { intro U'. apply U. constructor; [rewrite <- EN; exact L | exact U']. }
          exists q', g', N'. split; [exact E|]. rewrite Lq. apply set_nth_length.
      + apply nanargmin_none in Hm'. rewrite Hm' in Hl. apply Permutation_sym, Permutation_nil in Hl. subst l. split; [reflexivity|].
        intro U. destruct U. constructor; [rewrite <- EN; exact L | constructor].
    - split; [|intros _; exists q, gap, N; split; reflexivity]. intro U. inversion U; subst. exfalso.
      match goal with H : v < _ |- _ => rewrite <- EN in H; qlra end.
  Qed.
  Theorem update_r_raises Q gap l : StronglySorted Qcle l -> Permutation l Q ->
    (used_up R gap l -> update_quantity_r R Q gap = Err ValueError) /\
    (~ used_up R gap l -> exists Q', update_quantity_r R Q gap = Ok Q' /\ length Q' = length Q).
  Proof.
    intros Hs Hp. unfold update_quantity_r. destruct (nanargmin (map Some Q)) as [[i v]|] eqn:Hm.
    - destruct (loop_r_used (Datatypes.S (length Q)) (map Some Q) gap (length Q) i v l) as [H1 H2]; auto; try (rewrite somes_map_Some; auto).
      split; [intro U; rewrite (H1 U); reflexivity|]. intro U. destruct (H2 U) as (q' & g' & N' & E & Lq). rewrite E. cbn [bind]. rewrite map_length in Lq.
      destruct q' as [|o q']; cbn [map].
      + exfalso. destruct Q; [discriminate Hm | discriminate Lq].
      + eexists. split; [reflexivity|]. cbn [map length]. rewrite !map_length. exact Lq.
    - apply nanargmin_none in Hm. rewrite somes_map_Some in Hm. subst Q. apply Permutation_sym, Permutation_nil in Hp. subst l.
      split; [reflexivity | intro U; destruct U; constructor].
  Qed.

  (** ** MUDA *)
  Theorem cut_r_raises d x : (d = [] -> get_trading_bids_r R A d x = Err IndexError) /\ (d <> [] -> exists r, get_trading_bids_r R A d x = Ok r).
  Proof.
    split; [intros ->; unfold get_trading_bids_r; cbn [map firstn length]; destruct (qltb x _); reflexivity|]. intro N. unfold get_trading_bids_r.
    set (i := if qltb x _ then _ else _). assert (L : (i < length d)%nat).
    { assert (Lc : forall l : list bool, l <> [] -> (argmax_bool l < length l)%nat).
      { intros l Hl. apply argmax_bool_bound. exact Hl. }
      unfold i. destruct (qltb x _); [|destruct d; [congruence | cbn [length]; lia]].
      set (l := map _ _). assert (E : length l = length d) by (unfold l; rewrite map_length, cumsum_len, map_length; reflexivity).
      rewrite <- E. apply Lc. intro Z. rewrite Z in E. destruct d; [congruence | discriminate E]. }
    destruct (nth_error d i) as [r|] eqn:Er; [|apply nth_error_None in Er; lia]. destruct (qltb _ (qty r)); eauto.
  Qed.
  Theorem charge_r_raises ls li Q p us fees :
    ((forall u, In u us -> in_range (length fees) u) -> exists fees', charge_users_r R A ls li Q p us fees = Ok fees' /\ length fees' = length fees /\
       forall i, (i < length fees)%nat ->
         ((forall u, In u us -> entry (length fees) u <> i) -> nth i fees' 0 = nth i fees 0) /\
         (forall l1 u l2, us = l1 ++ u :: l2 -> entry (length fees) u = i -> (forall w, In w l2 -> entry (length fees) w <> i) ->
            nth i fees' 0 = compute_fee_r R A (indexed ls) li u Q p)) /\
    (forall u, In u us -> ~ in_range (length fees) u -> charge_users_r R A ls li Q p us fees = Err IndexError).
  Proof.
    revert fees; induction us as [|u us IH]; intro fees; cbn [charge_users_r].
    - split; [intros _|intros u []]. exists fees. split; [reflexivity|]. split; [reflexivity|]. intros i Hi. split; [reflexivity|]. intros [|? ?] ? ? E; discriminate.
    - destruct (set_fee_full fees u (compute_fee_r R A (indexed ls) li u Q p)) as [S1 S2]. split.
      + intro H. destruct (S1 (H u (or_introl eq_refl))) as [E L]. rewrite E. cbn [bind]. set (fees1 := set_nth (entry (length fees) u) _ fees).
        assert (L1 : length fees1 = length fees) by apply set_nth_length. destruct (IH fees1) as [B _]. rewrite L1 in B.
        destruct B as (fees' & E' & L' & N); [intros w Hw; apply H; right; exact Hw|]. exists fees'. split; [exact E'|]. split; [exact L'|].
        intros i Hi. destruct (N i Hi) as [N1 N2]. split.
        * intro Hn. rewrite N1 by (intros w Hw; apply Hn; right; exact Hw). unfold fees1. apply set_nth_other, Hn. left. reflexivity.
        * intros [|w l1] u' l2 Eu Ei Hl; cbn [app] in Eu; injection Eu as -> ->.
          -- rewrite N1 by exact Hl. unfold fees1. rewrite Ei. apply set_nth_same, Hi.
          -- apply (N2 l1 u' l2 eq_refl Ei Hl).
      + intros w Hw Hr. destruct (Z_lt_dec u (- Z.of_nat (length fees))) as [Lu|Lu]; [rewrite S2 by (unfold in_range; lia); reflexivity|].
        destruct (Z_lt_dec u (Z.of_nat (length fees))) as [Lv|Lv]; [|rewrite S2 by (unfold in_range; lia); reflexivity].
        destruct S1 as [E L]; [unfold in_range; lia|]. rewrite E. cbn [bind]. destruct Hw as [->|Hw]; [exfalso; apply Hr; unfold in_range; lia|].
        destruct (IH (set_nth (entry (length fees) u) (compute_fee_r R A (indexed ls) li u Q p) fees)) as [_ B]. rewrite set_nth_length in B. exact (B w Hw Hr).
  Qed.

  (** ** P2P *)
  Theorem p2p_r_labels d c r x y : In x d -> In y d -> buying x = true -> buying y = false -> (length d <= lbl x \/ length d <= lbl y)%nat ->
    p2p_random_r R A d c r = Err IndexError.
  Proof.
    intros Hx Hy Bx By L. unfold p2p_random_r. replace (forallb _ (all_pairs d)) with false; [reflexivity|]. symmetry. apply Bool.not_true_iff_false. intro F. rewrite forallb_forall in F.
    assert (I : In (lbl x, lbl y) (all_pairs d)).
    { unfold all_pairs. apply in_flat_map. exists x. split; [apply filter_In; auto|]. apply in_map_iff. exists y. split; [reflexivity|]. apply filter_In. rewrite By. auto. }
    specialize (F _ I). apply andb_true_iff in F. cbn [fst snd] in F. destruct F as [F1 F2]. apply Nat.ltb_lt in F1, F2. lia.
  Qed.

  (** ** Splitting *)
  Lemma some_inj (a b : df) : map Some a = map Some b -> a = b.
  Proof. revert b; induction a as [|x l IH]; intros [|y l'] E; try discriminate; [reflexivity|]. injection E as -> E. f_equal. apply IH, E. Qed.
  Lemma split_one_r_err d mp t e : split_one_r R A d mp t = Err e <-> split_fails_r R A d mp t e.
  Proof.
    unfold split_one_r. split.
    - destruct (nth_error mp (t_bid t)) as [rows|] eqn:En; [|intro H; injection H as <-; constructor; exact En].
      destruct (iloc d rows) as [rs|e'] eqn:Ei; cbn [bind].
      2:{ intro H. injection H as <-. destruct (iloc_err _ _ _ Ei) as [-> (i & Hi & L)]. econstructor; eassumption. }
      pose proof (iloc_nth _ _ _ Ei) as Nr. destruct (qeq_spec (A (map qty rs)) 0) as [Z|Z]; [|discriminate]. destruct rows as [|i rows]; [discriminate|].
      intro H. injection H as <-. apply (sfr_nan R A d mp t (i :: rows) rs En Nr); [discriminate | exact Z].
    - intros [En|rows i En Hi L|rows rs En Nr Hne Hz]; rewrite En.
      + reflexivity.
      + destruct (iloc d rows) as [rs|e'] eqn:Ei; cbn [bind].
        * exfalso. pose proof (proj1 (iloc_ok d rows) (ex_intro _ rs Ei) i Hi). lia.
        * destruct (iloc_err _ _ _ Ei) as [-> _]. reflexivity.
      + assert (Hin : forall i, In i rows -> (i < length d)%nat).
        { intros i Hi. apply nth_error_Some. intro Z. apply (in_map (nth_error d)) in Hi. rewrite Nr, Z in Hi. apply in_map_iff in Hi. destruct Hi as (? & ? & _). discriminate. }
        destruct (proj2 (iloc_ok d rows) Hin) as (rs' & Ei). pose proof (iloc_nth _ _ _ Ei) as Nr'. rewrite Ei. cbn [bind].
        assert (rs' = rs) by (apply some_inj; rewrite <- Nr'; exact Nr).
        subst rs'. rewrite (proj2 (qeqb_eq _ _) Hz). destruct rows; [congruence | reflexivity].
  Qed.
  Theorem split_r_raises d mp tm e : split_transactions_r R A tm d mp = Err e <->
    exists l1 t l2, tm_trans tm = l1 ++ t :: l2 /\ (forall t', In t' l1 -> forall e', ~ split_fails_r R A d mp t' e') /\ split_fails_r R A d mp t e.
  Proof.
    unfold split_transactions_r. generalize tm_init. generalize (tm_trans tm). intro ts.
    induction ts as [|t ts IH]; intro acc; cbn [split_list_r].
    - split; [discriminate | intros ([|t0 l0] & t1 & l2 & E & _); discriminate].
    - destruct (split_one_r R A d mp t) as [l|e0] eqn:E0; cbn [bind].
      + rewrite IH. assert (Nt : forall e', ~ split_fails_r R A d mp t e') by (intros e' H; apply split_one_r_err in H; congruence). split.
        * intros (l1 & t' & l2 & -> & H1 & H2). exists (t :: l1), t', l2. split; [reflexivity|]. split; [|exact H2]. intros t'' [<-|H]; auto.
        * intros ([|t0 l1] & t' & l2 & E & H1 & H2); cbn [app] in E; injection E as -> ->; [exfalso; exact (Nt _ H2)|].
          exists l1, t', l2. split; [reflexivity|]. split; [intros; apply H1; right; assumption | exact H2].
      + pose proof E0 as F0. apply split_one_r_err in F0. split.
        * intro H. injection H as <-. exists [], t, ts. split; [reflexivity|]. split; [intros ? [] | exact F0].
        * intros ([|t0 l1] & t' & l2 & E & H1 & H2); cbn [app] in E; injection E as -> ->.
          -- apply split_one_r_err in H2. congruence.
          -- exfalso. exact (H1 t0 (or_introl eq_refl) _ F0).
  Qed.

  (** ** Merging *)
  Variable G : adder R.
  Lemma groups_take_r prec cb ct cd side keys : forall g cnt l g' cnt', merge_groups_r R G prec (chooser cb ct cd) side keys g cnt = Ok (l, g', cnt') ->
    g' = (g + length l)%nat /\
    forall i r m, nth_error l i = Some (r, m) -> exists rows, map lbl rows = m /\ incl rows side /\ takes (cb (g + i)%nat) (ct (g + i)%nat) (cd (g + i)%nat) r rows.
  Proof.
    induction keys as [|k keys IH]; intros g cnt l g' cnt' E; cbn [merge_groups_r] in E.
    - injection E as <- <- <-. split; [cbn; lia|]. intros [|i] r m H; discriminate H.
    - set (rows := filter _ side) in E. destruct (new_id (map user rows) cnt) as [[u c1]|] eqn:N; [|discriminate E]. cbn [bind] in E.
      destruct (merge_groups_r R G prec _ side keys (Datatypes.S g) c1) as [[[rest g1] c2]|] eqn:M; [|discriminate E]. cbn [bind] in E. injection E as <- <- <-.
      destruct (IH _ _ _ _ _ M) as [L T]. split; [cbn [length]; lia|]. intros [|i] r m H; cbn [nth_error] in H.
      + injection H as <- <-. exists rows. split; [reflexivity|]. split; [intros x Hx; apply filter_In in Hx; tauto|].
        replace (cb (g + 0)%nat) with (cb g) by (f_equal; lia). replace (ct (g + 0)%nat) with (ct g) by (f_equal; lia). replace (cd (g + 0)%nat) with (cd g) by (f_equal; lia).
        assert (NE : rows <> []) by (apply new_id_nonempty in N; destruct rows; [destruct N; reflexivity | discriminate]).
        destruct (chosen rows (cb g) NE) as (xb & Xb), (chosen rows (ct g) NE) as (xt & Xt), (chosen rows (cd g) NE) as (xd & Xd).
        destruct (chooser_at cb ct cd g) as (C1 & C2 & C3). exists xb, xt, xd. split; [exact Xb|]. split; [exact Xt|]. split; [exact Xd|]. cbn [buying time divisible].
        split; [apply (sample_map (chooser cb ct cd) (3 * g)); rewrite C1; exact Xb|].
        split; [apply (sample_map (chooser cb ct cd) (3 * g + 1)); rewrite C2; exact Xt | apply (sample_map (chooser cb ct cd) (3 * g + 2)); rewrite C3; exact Xd].
      + rewrite <- Nat.add_succ_comm. apply T, H.
  Qed.
  Theorem any_sample_r prec d cnt cb ct cd nd mp cnt' : merge_same_price_r R G prec (chooser cb ct cd) d cnt = Ok (nd, mp, cnt') ->
    length mp = length nd /\
    forall g r m, nth_error nd g = Some r -> nth_error mp g = Some m -> exists rows, map lbl rows = m /\ incl rows d /\ takes (cb g) (ct g) (cd g) r rows.
  Proof.
    unfold merge_same_price_r. intro E. set (c0 := new_player_id _ _) in E.
    destruct (merge_groups_r R G prec (chooser cb ct cd) (buyers d) _ 0 c0) as [[[mb g1] c1]|] eqn:M1; [|discriminate E]. cbn [bind] in E.
    destruct (merge_groups_r R G prec (chooser cb ct cd) (sellers d) _ g1 c1) as [[[ms g2] c2]|] eqn:M2; [|discriminate E]. cbn [bind] in E. injection E as <- <- <-.
    destruct (groups_take_r _ _ _ _ _ _ _ _ _ _ _ M1) as [L1 T1]. destruct (groups_take_r _ _ _ _ _ _ _ _ _ _ _ M2) as [_ T2]. cbn in L1. subst g1.
    split; [rewrite !map_length; reflexivity|]. intros g r m H1 H2. rewrite nth_error_map in H1, H2.
    destruct (nth_error (mb ++ ms) g) as [[r' m']|] eqn:X; [|discriminate H1]. cbn [option_map fst snd] in H1, H2. injection H1 as <-. injection H2 as <-.
    destruct (Nat.lt_ge_cases g (length mb)) as [L|L].
    - rewrite nth_error_app1 in X by exact L. destruct (T1 g r' m' X) as (rows & R1 & R2 & R3). exists rows. split; [exact R1|]. split; [|exact R3].
      intros x Hx. apply R2 in Hx. apply filter_In in Hx. tauto.
    - rewrite nth_error_app2 in X by exact L. destruct (T2 _ r' m' X) as (rows & R1 & R2 & R3). replace (length mb + (g - length mb))%nat with g in R3 by lia.
      exists rows. split; [exact R1|]. split; [|exact R3]. intros x Hx. apply R2 in Hx. apply filter_In in Hx. tauto.
  Qed.
End Helpers.

Theorem intersect_r_raises R f g k : (forall x, In x (abscissae f g) -> ok x) ->
  (f = [] \/ g = [] -> intersect_stepwise_r R f g k = Err ValueError) /\
  (f <> [] -> g <> [] -> (exists x, In x (abscissae f g) /\ nlt x (Fin 0)) -> intersect_stepwise_r R f g k = Err TypeError) /\
  (f <> [] -> g <> [] -> (forall x, In x (abscissae f g) -> nle (Fin 0) x) -> exists r, intersect_stepwise_r R f g k = Ok r).
Proof.
  intro H. destruct (intersect_full f g k H) as (H1 & H2 & H3). pose proof (intersect_r_indices R f g k) as I. split; [|split].
  - intro C. rewrite (H1 C) in I. destruct (intersect_stepwise_r R f g k) as [[[[? ?] ?] ?]|e]; [destruct I | rewrite I; reflexivity].
  - intros F G C. rewrite (H2 F G C) in I. destruct (intersect_stepwise_r R f g k) as [[[[? ?] ?] ?]|e]; [destruct I | rewrite I; reflexivity].
  - intros F G C. destruct (H3 F G C) as (r & E). rewrite E in I. destruct (intersect_stepwise_r R f g k) as [x|e]; [eauto | destruct r as [[[? ?] ?] ?]; destruct I].
Qed.
