(** Facts about the peer to peer mechanism in rounded arithmetic. *)
From Verif Require Import QcTac Num ModelBase ModelHuang ModelP2P ModelRound ListFacts StoreFacts Spec SpecTrade SpecRound
  TradeFacts P2PFacts P2PTrades RoundFacts.

Section Step.
  Variable R : rounding.
  Definition step_r (prices q : list Qc) (bs : nat * nat) : list Qc := fst (trade_pair_r R 0 prices (q, tm_init) bs).
  Lemma trade_pair_r_fst c prices q tm bs : fst (trade_pair_r R c prices (q, tm) bs) = step_r prices q bs.
  Proof. destruct bs as [b s]. unfold step_r, trade_pair_r. destruct (qleb _ _); reflexivity. Qed.
  Definition after_r (prices q : list Qc) (L : list (nat * nat)) : list Qc := fold_left (step_r prices) L q.
  Lemma fold_trade_r_fst c prices L : forall q tm, fst (fold_left (trade_pair_r R c prices) L (q, tm)) = after_r prices q L.
  Proof.
    induction L as [|p L IH]; intros q tm; [reflexivity|]. cbn [fold_left].
    destruct (trade_pair_r R c prices (q, tm) p) as [q' tm'] eqn:E. rewrite IH.
    pose proof (trade_pair_r_fst c prices q tm p) as H. rewrite E in H. cbn [fst] in H. unfold after_r. cbn [fold_left]. rewrite <- H. reflexivity.
  Qed.
  Lemma step_r_get prices q b s i : b <> s -> (b < length q)%nat -> (s < length q)%nat ->
    get (step_r prices q (b, s)) i =
      if qleb (get prices s) (get prices b) && (Nat.eqb b i || Nat.eqb s i) then R (get q i - qmin (get q b) (get q s)) else get q i.
  Proof.
    intros N Lb Ls. unfold step_r, trade_pair_r, get.
    destruct (qleb (nth s prices 0) (nth b prices 0)); simpl; [|reflexivity].
    rewrite nth_set_nth by (rewrite set_nth_len; exact Ls). rewrite !nth_set_nth by exact Lb.
    replace (Nat.eqb b s) with false by (symmetry; apply Nat.eqb_neq; exact N).
    destruct (Nat.eqb b i) eqn:Eb, (Nat.eqb s i) eqn:Es; simpl; try reflexivity.
    - apply Nat.eqb_eq in Eb, Es. congruence.
    - apply Nat.eqb_eq in Eb. subst. reflexivity.
    - apply Nat.eqb_eq in Es. subst. reflexivity.
  Qed.
  Lemma step_r_len prices q p : length (step_r prices q p) = length q.
  Proof. destruct p as [b s]. unfold step_r, trade_pair_r. destruct (qleb _ _); simpl; rewrite ?set_nth_len; reflexivity. Qed.
  Lemma after_r_len prices L : forall q, length (after_r prices q L) = length q.
  Proof. induction L as [|p L IH]; intro q; [reflexivity|]. unfold after_r in *. simpl. rewrite IH. apply step_r_len. Qed.

  (** the quantities stay nonnegative machine numbers and never grow *)
  Lemma step_r_nonneg prices q p i : good_pair (length q) p -> (forall j, 0 <= get q j /\ machine R (get q j)) ->
    0 <= get (step_r prices q p) i /\ machine R (get (step_r prices q p) i) /\ get (step_r prices q p) i <= get q i.
  Proof.
    destruct p as [b s]. intros (N & Lb & Ls) H. simpl in *. rewrite step_r_get by assumption.
    pose proof (qmin_l (get q b) (get q s)). pose proof (qmin_r (get q b) (get q s)).
    destruct (H b) as [Hb Mb]. destruct (H s) as [Hs Ms]. destruct (H i) as [Hi Mi].
    pose proof (qmin_glb _ _ 0 Hb Hs).
    destruct (qleb _ _); simpl; [|repeat split; [exact Hi | exact Mi | qlra]].
    destruct (Nat.eqb b i) eqn:Eb; simpl.
    - apply Nat.eqb_eq in Eb; subst. repeat split; [apply rnd_nonneg; qlra | apply rnd_machine | apply rnd_le; [exact Mi | qlra]].
    - destruct (Nat.eqb s i) eqn:Es; simpl; [|repeat split; [exact Hi | exact Mi | qlra]].
      apply Nat.eqb_eq in Es; subst. repeat split; [apply rnd_nonneg; qlra | apply rnd_machine | apply rnd_le; [exact Mi | qlra]].
  Qed.
  Lemma after_r_all prices L : forall q, (forall p, In p L -> good_pair (length q) p) -> (forall j, 0 <= get q j /\ machine R (get q j)) ->
    forall i, 0 <= get (after_r prices q L) i /\ machine R (get (after_r prices q L) i) /\ get (after_r prices q L) i <= get q i.
  Proof.
    induction L as [|p L IH]; intros q Hg H i; unfold after_r in *; simpl; [split; [apply H | split; [apply H | qlra]]|].
    assert (G : good_pair (length q) p) by (apply Hg; left; reflexivity).
    destruct (IH (step_r prices q p)) with (i := i) as (X & Y & Z).
    - intros p' Hp'. rewrite step_r_len. apply Hg. right; exact Hp'.
    - intro j. destruct (step_r_nonneg prices q p j G H) as (X & Y & _). auto.
    - destruct (step_r_nonneg prices q p i G H) as (_ & _ & W). split; [exact X|]. split; [exact Y|]. qlra.
  Qed.
  Lemma after_r_nonneg prices L q : (forall p, In p L -> good_pair (length q) p) -> (forall j, 0 <= get q j /\ machine R (get q j)) ->
    forall i, 0 <= get (after_r prices q L) i.
  Proof. intros Hg H i. apply after_r_all; assumption. Qed.
  Lemma after_r_other prices L i : forall q, (forall p, In p L -> good_pair (length q) p) -> ~ In i (bids_of L) ->
    get (after_r prices q L) i = get q i.
  Proof.
    induction L as [|[b s] L IH]; intros q Hg H; [reflexivity|]. unfold after_r in *. simpl in *.
    rewrite IH; [|intros p' Hp'; rewrite step_r_len; apply Hg; right; exact Hp' | tauto].
    destruct (Hg (b, s) (or_introl eq_refl)) as (N & Lb & Ls). simpl in *.
    rewrite step_r_get by assumption.
    replace (Nat.eqb b i) with false by (symmetry; apply Nat.eqb_neq; tauto).
    replace (Nat.eqb s i) with false by (symmetry; apply Nat.eqb_neq; tauto).
    rewrite andb_false_r. reflexivity.
  Qed.
  Lemma after_r_app prices q L1 L2 : after_r prices q (L1 ++ L2) = after_r prices (after_r prices q L1) L2.
  Proof. apply fold_left_app. Qed.
End Step.

(** ** The whole run *)
Section Loop.
  Variables (rd : rounding) (A : adder rd) (d : df) (c : Qc) (r : nat -> nat).
  Hypothesis Hl : map lbl d = seq 0 (length d).
  Hypothesis Hq : qty_nonneg d.
  Hypothesis Hm : machine_qty rd d.
  Let ps := all_pairs d.
  Let prices := map price d.
  Let q0 := map qty d.

  Lemma q0_machine i : 0 <= get q0 i /\ machine rd (get q0 i).
  Proof.
    split; [apply q0_nonneg, Hq|]. unfold get, q0. destruct (Nat.lt_ge_cases i (length d)) as [L|L].
    - assert (In (nth i (map qty d) 0) (map qty d)) by (apply nth_In; rewrite map_length; exact L).
      apply in_map_iff in H. destruct H as (x & <- & Hx). apply Hm, Hx.
    - rewrite nth_overflow by (rewrite map_length; exact L). apply machine_0.
  Qed.
  (** what is known about the rounds played so far *)
  Record rounds_r (gtl : list (list (nat * nat))) : Prop := {
    rr_pairs : forall p, In p (concat gtl) -> In p ps;
    rr_nodup : NoDup (concat gtl);
    rr_match : forall T, In T gtl -> T <> [] /\ NoDup (bids_of T);
    rr_pos : qty_pos d -> forall L1 b s L2, concat gtl = L1 ++ (b, s) :: L2 ->
       0 < get (after_r rd prices q0 L1) b /\ 0 < get (after_r rd prices q0 L1) s }.

  Definition final_r (gtl : list (list (nat * nat))) : Prop :=
    forall b s, In (b, s) ps -> In (b, s) (concat gtl) \/
      get (after_r rd prices q0 (concat gtl)) b = 0 \/ get (after_r rd prices q0 (concat gtl)) s = 0.

  Lemma p2p_loop_r_spec fuel : forall k active tmp q tm gtl,
    length active = length ps -> length tmp = length ps -> (cnt active <= fuel)%nat ->
    rounds_r gtl -> q = after_r rd prices q0 (concat gtl) ->
    tm = snd (fold_left (trade_pair_r rd c prices) (concat gtl) (q0, tm_init)) ->
    (forall i p, nth_error ps i = Some p -> (bget active i = true <-> ~ In p (concat gtl))) ->
    (forall i p, nth_error ps i = Some p -> bget tmp i = true ->
       bget active i = true /\ (qty_pos d -> 0 < get q (fst p) /\ 0 < get q (snd p))) ->
    (forall i p, nth_error ps i = Some p -> bget active i = true -> bget tmp i = false ->
       get q (fst p) = 0 \/ get q (snd p) = 0) ->
    exists gtl', p2p_loop_r rd A fuel d ps c prices r k active tmp q tm gtl =
        Ok (snd (fold_left (trade_pair_r rd c prices) (concat gtl') (q0, tm_init)), gtl') /\
      rounds_r gtl' /\ final_r gtl'.
  Proof.
    induction fuel as [|fuel IH]; intros k active tmp q tm gtl La Lt Hc R Eq Etm Ha Ht Hz.
    - (* no active pair: the loop stops *)
      assert (N : existsb (fun b => b) tmp = false).
      { apply not_true_iff_false. intro H. apply existsb_bget in H. destruct H as (i & Hi).
        assert (L : (i < length ps)%nat) by (rewrite <- Lt; apply bget_len, Hi).
        destruct (nth_error ps i) as [p|] eqn:Ep; [|apply nth_error_None in Ep; lia].
        destruct (Ht i p Ep Hi) as [Hai _].
        assert (In true (filter (fun b => b) active)).
        { apply filter_In. split; [|reflexivity]. rewrite <- Hai. apply nth_In, bget_len, Hai. }
        unfold cnt in Hc. destruct (filter (fun b => b) active); [contradiction | simpl in Hc; lia]. }
      simpl. rewrite N, andb_false_r. exists gtl. split; [congruence|]. split; [exact R|].
      intros b s Hin. apply In_nth_error in Hin. destruct Hin as (i & Hi).
      destruct (bget active i) eqn:Ai.
      + right. destruct (bget tmp i) eqn:Ti; [|rewrite <- Eq; apply (Hz i (b, s) Hi Ai Ti)].
        exfalso. apply not_true_iff_false in N. apply N. apply existsb_bget. eauto.
      + left. destruct (in_dec (fun x y : nat * nat => ltac:(decide equality; apply Nat.eq_dec)) (b, s) (concat gtl)) as [I|I]; [exact I|].
        apply (Ha i (b, s) Hi) in I. congruence.
    - assert (Qn : forall i, 0 <= get q i).
      { intro i. rewrite Eq. apply (after_r_nonneg rd prices (concat gtl) q0); [|apply q0_machine].
        intros p Hp. unfold q0. rewrite map_length. apply pair_good; [exact Hl|]; apply R, Hp. }
      cbn [p2p_loop_r]. destruct (qlt_spec 0 (A q)) as [S0|S0]; simpl andb.
      2:{ (* everything is traded *)
        exists gtl. split; [congruence|]. split; [exact R|].
        intros b s Hin. right. left. rewrite <- Eq. unfold get.
        destruct (Nat.lt_ge_cases b (length q)) as [L|L]; [|apply nth_overflow; exact L].
        assert (I : In (nth b q 0) q) by (apply nth_In; exact L).
        assert (Qm : forall i, machine rd (get q i)).
        { intro i. rewrite Eq. apply after_r_all; [|apply q0_machine].
          intros p Hp. unfold q0. rewrite map_length. apply pair_good; [exact Hl|]; apply R, Hp. }
        assert (Hs : nth b q 0 <= A q).
        { apply (sums_ge rd q (A q) (asum_ok rd A q)); [|exact I].
          intros x Hx. apply In_nth with (d := 0) in Hx. destruct Hx as (j & _ & <-). split; [apply Qn | apply Qm]. }
        specialize (Qn b). unfold get in Qn. qlra. }
      destruct (existsb (fun b => b) tmp) eqn:Ex.
      2:{ exists gtl. split; [congruence|]. split; [exact R|].
        intros b s Hin. apply In_nth_error in Hin. destruct Hin as (i & Hi).
        destruct (bget active i) eqn:Ai.
        - right. destruct (bget tmp i) eqn:Ti; [|rewrite <- Eq; apply (Hz i (b, s) Hi Ai Ti)].
          exfalso. apply not_true_iff_false in Ex. apply Ex. apply existsb_bget. eauto.
        - left. destruct (in_dec (fun x y : nat * nat => ltac:(decide equality; apply Nat.eq_dec)) (b, s) (concat gtl)) as [I|I]; [exact I|].
          apply (Ha i (b, s) Hi) in I. congruence. }
      destruct (pick_round_spec ps (ps_NoDup d Hl) (pair_ne d Hl) r (length ps) k active tmp [] La Lt) as
        (T & active' & k' & Ek & A1 & A2 & A3 & A4 & A5 & _).
      { rewrite <- Lt. apply cnt_le. }
      simpl app in Ek. rewrite Ek. cbn [bind].
      destruct (fold_left (trade_pair_r rd c prices) T (q, tm)) as [q' tm'] eqn:Ef.
      assert (Ec : concat (gtl ++ [T]) = concat gtl ++ T) by (rewrite concat_app; simpl; rewrite app_nil_r; reflexivity).
      assert (Efst : fold_left (trade_pair_r rd c prices) (concat gtl) (q0, tm_init) = (q, tm)).
      { rewrite (surjective_pairing (fold_left _ _ _)). rewrite fold_trade_r_fst. congruence. }
      assert (Eq' : q' = after_r rd prices q0 (concat (gtl ++ [T]))).
      { rewrite Ec, after_r_app, <- Eq, <- (fold_trade_r_fst rd c prices T q tm), Ef. reflexivity. }
      assert (Etm' : tm' = snd (fold_left (trade_pair_r rd c prices) (concat (gtl ++ [T])) (q0, tm_init))).
      { rewrite Ec, fold_left_app, Efst, Ef. reflexivity. }
      assert (TP : forall p, In p T -> In p ps /\ ~ In p (concat gtl) /\ (qty_pos d -> 0 < get q (fst p) /\ 0 < get q (snd p))).
      { intros p Hp. destruct (A2 p Hp) as (x & Hx & Hxt). destruct (Ht x p Hx Hxt) as [H1 H2].
        split; [eapply nth_error_In; eauto|]. split; [apply (Ha x p Hx), H1 | exact H2]. }
      assert (NT : NoDup T).
      { clear - A3. induction T as [|p T IHT]; [constructor|]. simpl in A3. inversion_clear A3 as [|? ? N1 N2]. inversion_clear N2 as [|? ? N3 N4].
        constructor; [|auto]. intro I. apply N1. right. unfold bids_of. apply in_flat_map. exists p. simpl; auto. }
      assert (R' : rounds_r (gtl ++ [T])).
      { constructor.
        - intros p. rewrite Ec, in_app_iff. intros [H|H]; [apply R, H | apply TP, H].
        - rewrite Ec. clear - NT TP R. pose proof (rr_nodup _ R) as N.
          revert N TP. generalize (concat gtl). intros l N TP.
          induction l as [|a l IHl]; simpl; [exact NT|]. inversion_clear N as [|? ? N1 N2]. constructor.
          + intro I. apply in_app_or in I. destruct I as [I|I]; [contradiction|]. apply (TP a I). left; reflexivity.
          + apply IHl; auto. intros p Hp. destruct (TP p Hp) as (B1 & B2 & B3). repeat split; auto; try (apply B3; assumption).
            intro I. apply B2. right; exact I.
        - intros T' H. apply in_app_or in H. destruct H as [H|[<-|[]]]; [apply (rr_match _ R T' H)|].
          split; [|exact A3]. apply A5. apply existsb_bget. exact Ex.
        - intros Hpos L1 b s L2. rewrite Ec. intro E.
          assert (Sp : (exists M, concat gtl = L1 ++ (b, s) :: M) \/ (exists T1 T2, L1 = concat gtl ++ T1 /\ T = T1 ++ (b, s) :: T2)).
          { clear - E. revert L1 E. generalize (concat gtl). induction l as [|a l IHl]; intros [|x L1] E; simpl in *.
            - right. exists [], L2. auto.
            - right. exists (x :: L1), L2. auto.
            - left. injection E as -> E. exists l. reflexivity.
            - injection E as -> E. destruct (IHl L1 E) as [(M & ->)|(T1 & T2 & -> & ->)]; [left; exists M; reflexivity|].
              right. exists T1, T2. auto. }
          destruct Sp as [(M & EM)|(T1 & T2 & -> & ET)]; [exact (rr_pos _ R Hpos L1 b s M EM)|].
          rewrite after_r_app, <- Eq.
          destruct (TP (b, s)) as (_ & _ & P); [rewrite ET; apply in_or_app; right; left; reflexivity|].
          specialize (P Hpos). simpl in P.
          assert (G1 : forall p, In p T1 -> good_pair (length q) p).
          { intros p Hp. rewrite Eq, after_r_len. unfold q0. rewrite map_length. apply pair_good; [exact Hl|]. apply TP. rewrite ET. apply in_or_app; left; exact Hp. }
          assert (Nb : ~ In b (bids_of T1) /\ ~ In s (bids_of T1)).
          { rewrite ET in A3. unfold bids_of in A3. rewrite flat_map_app in A3. simpl in A3.
            pose proof (NoDup_remove_2 _ _ _ A3) as N1. pose proof (NoDup_remove_1 _ _ _ A3) as N2.
            pose proof (NoDup_remove_2 _ _ _ N2) as N3. split; intro I; [apply N1 | apply N3]; apply in_or_app; left; exact I. }
          rewrite !after_r_other by tauto. exact P. }
      assert (Ha' : forall i p, nth_error ps i = Some p -> (bget active' i = true <-> ~ In p (concat (gtl ++ [T])))).
      { intros i p Hi. rewrite (A4 i p Hi), (Ha i p Hi), Ec, in_app_iff. tauto. }
      assert (Sub : forall i, bget active' i = true -> bget active i = true).
      { intros i Hi. assert (L : (i < length ps)%nat) by (rewrite <- A1; apply bget_len, Hi).
        destruct (nth_error ps i) as [p|] eqn:Ep; [|apply nth_error_None in Ep; lia]. apply (A4 i p Ep) in Hi. tauto. }
      assert (Hc' : (cnt active' <= fuel)%nat).
      { assert (NE : T <> []) by (apply A5, existsb_bget, Ex). destruct T as [|p0 T0]; [congruence|].
        destruct (A2 p0 (or_introl eq_refl)) as (x & Hx & Hxt). destruct (Ht x p0 Hx Hxt) as [Hxa _].
        assert (Hxf : bget active' x = false).
        { apply not_true_iff_false. intro H. apply (A4 x p0 Hx) in H. destruct H as [_ H]. apply H. left; reflexivity. }
        pose proof (cnt_lt active active' x ltac:(lia) Sub Hxa Hxf). lia. }
      assert (Qn' : forall i, 0 <= get q' i).
      { intro i. rewrite Eq'. apply (after_r_nonneg rd prices _ q0); [|apply q0_machine].
        intros p Hp. unfold q0. rewrite map_length. apply pair_good; [exact Hl|]; apply R', Hp. }
      assert (Lnt : length (next_tmp d ps q' active') = length ps).
      { destruct (nth_error ps 0) as [p|] eqn:Ep.
        - apply (next_tmp_get d r q' active' 0%nat p A1 Ep).
        - unfold next_tmp. apply nth_error_None in Ep.
          assert (Fl : forall l a, length a = length ps -> length (fold_left (fun a i => mask_and a (pairs_row ps i)) l a) = length ps).
          { induction l as [|x l IHl]; intros a H; simpl; [exact H|]. apply IHl. rewrite mask_and_len; rewrite ?pairs_row_len; auto. }
          apply Fl, A1. }
      apply (IH k' active' (next_tmp d ps q' active') q' tm' (gtl ++ [T])); auto.
      + intros i p Hi Htmp. destruct (next_tmp_get d r q' active' i p A1 Hi) as [E1 _]. fold ps in E1. rewrite E1 in Htmp.
        apply andb_true_iff in Htmp. destruct Htmp as [Htmp T3]. apply andb_true_iff in Htmp. destruct Htmp as [T1 T2].
        split; [exact T1|]. intros _. apply negb_true_iff in T2, T3. apply qeqb_neq in T2, T3.
        pose proof (Qn' (fst p)). pose proof (Qn' (snd p)). split.
        * destruct (Qclt_le_dec 0 (get q' (fst p))); [assumption|]. exfalso. apply T2. qlra.
        * destruct (Qclt_le_dec 0 (get q' (snd p))); [assumption|]. exfalso. apply T3. qlra.
      + intros i p Hi Hact Htmp. destruct (next_tmp_get d r q' active' i p A1 Hi) as [E1 _]. fold ps in E1. rewrite E1, Hact in Htmp. simpl in Htmp.
        destruct (qeqb (get q' (fst p)) 0) eqn:Q1; [left; apply qeqb_eq, Q1|]. simpl in Htmp.
        apply negb_false_iff in Htmp. right. apply qeqb_eq, Htmp.
  Qed.

  Theorem p2p_run_r : exists gtl, p2p_random_r rd A d c r =
      Ok (snd (fold_left (trade_pair_r rd c prices) (concat gtl) (q0, tm_init)), XP2P gtl) /\
      rounds_r gtl /\ final_r gtl.
  Proof.
    unfold p2p_random_r. fold ps prices q0.
    assert (Fb : forallb (fun p => Nat.ltb (fst p) (length d) && Nat.ltb (snd p) (length d)) ps = true).
    { apply forallb_forall. intros p Hp. destruct (pair_good d Hl p Hp) as (_ & L1 & L2).
      apply andb_true_iff. split; apply Nat.ltb_lt; assumption. }
    rewrite Fb.
    assert (Gt : forall i, (i < length ps)%nat -> bget (repeat true (length ps)) i = true).
    { intros i Hi. unfold bget. assert (In (nth i (repeat true (length ps)) false) (repeat true (length ps))) by (apply nth_In; rewrite repeat_length; exact Hi).
      apply repeat_spec in H. exact H. }
    destruct (p2p_loop_r_spec (length ps) 0%nat (repeat true (length ps)) (repeat true (length ps)) q0 tm_init []) as (gtl & E & R & F).
    - apply repeat_length.
    - apply repeat_length.
    - etransitivity; [apply cnt_le|]. rewrite repeat_length. lia.
    - constructor; simpl; try contradiction; [constructor|]. intros _ L1 b s L2 H. destruct L1; discriminate.
    - reflexivity.
    - reflexivity.
    - intros i p Hi. simpl. split; [auto|]. intros _. apply Gt. apply nth_error_Some. congruence.
    - intros i p Hi _. split; [apply Gt; apply nth_error_Some; congruence|]. intro Hpos.
      destruct p as [b s]. apply nth_error_In in Hi. apply pair_iff in Hi.
      destruct Hi as (x & y & H1 & H2 & _ & _ & <- & <-). simpl. pose proof (get_qty d Hl x H1) as G1; pose proof (get_qty d Hl y H2) as G2; fold q0 in G1, G2; rewrite G1, G2. split; apply Hpos; assumption.
    - intros i p Hi _ H. rewrite Gt in H; [discriminate|]. apply nth_error_Some. congruence.
    - rewrite E. cbn [bind]. exists gtl. auto.
  Qed.

  (** *** The transactions *)
  Definition in_step (q : list Qc) (tl : list trans) : Prop :=
    length q = length d /\ (forall j, 0 <= get q j /\ machine rd (get q j)) /\ forall x, In x d -> rest_r rd x tl = get q (lbl x).
  Lemma rest_r_app x tl tl' : rest_r rd x (tl ++ tl') =
    fold_left (fun a t => if Nat.eqb (t_bid t) (lbl x) then rd (a - t_qty t) else a) tl' (rest_r rd x tl).
  Proof. unfold rest_r. apply fold_left_app. Qed.
  Lemma deal_step q tm x y : in_step q (tm_trans tm) -> In x d -> In y d -> buying x = true -> buying y = false ->
    tm_trans (snd (trade_pair_r rd c prices (q, tm) (lbl x, lbl y))) = tm_trans tm ++ deal_r rd c x y (tm_trans tm) /\
    in_step (step_r rd prices q (lbl x, lbl y)) (tm_trans tm ++ deal_r rd c x y (tm_trans tm)).
  Proof.
    intros (Lq & Mq & Rq) Hx Hy Bx By.
    assert (Ip : In (lbl x, lbl y) ps) by (apply pair_iff; exists x, y; auto 10).
    pose proof (pair_good d Hl _ Ip) as Gp. destruct (Gp) as (N & Lb & Ls). simpl in N, Lb, Ls.
    pose proof (get_price d Hl x Hx) as Px. pose proof (get_price d Hl y Hy) as Py. fold prices in Px, Py. unfold get in Px, Py.
    assert (Ed : tm_trans (snd (trade_pair_r rd c prices (q, tm) (lbl x, lbl y))) = tm_trans tm ++ deal_r rd c x y (tm_trans tm)).
    { unfold trade_pair_r, deal_r. rewrite Px, Py, (Rq x Hx), (Rq y Hy). unfold get.
      destruct (qleb _ _); cbn [snd]; rewrite add_all_trans; reflexivity. }
    split; [exact Ed|]. rewrite <- Lq in Gp, Lb, Ls.
    split; [rewrite step_r_len; exact Lq|]. split.
    { intro j. destruct (step_r_nonneg rd prices q _ j Gp Mq) as (U & V & _). auto. }
    intros z Hz. rewrite rest_r_app, (Rq z Hz), step_r_get by assumption. unfold get in *. rewrite Px, Py.
    unfold deal_r. rewrite (Rq x Hx), (Rq y Hy). unfold get.
    assert (Z : forall w, In w d -> rd (nth (lbl w) q 0 - 0) = nth (lbl w) q 0).
    { intros w Hw. replace (nth (lbl w) q 0 - 0) with (nth (lbl w) q 0) by ring. apply Mq. }
    destruct (qleb (price y) (price x)); cbn [fold_left t_bid t_qty andb].
    - destruct (Nat.eqb (lbl x) (lbl z)) eqn:E1, (Nat.eqb (lbl y) (lbl z)) eqn:E2; cbn [orb]; try reflexivity.
      apply Nat.eqb_eq in E1, E2. congruence.
    - destruct (Nat.eqb (lbl x) (lbl z)), (Nat.eqb (lbl y) (lbl z)); rewrite ?Z by assumption; reflexivity.
  Qed.
  Lemma deals_fold L : forall q tm, in_step q (tm_trans tm) -> (forall p, In p L -> In p ps) ->
    Deals_r rd d c (tm_trans tm) L (tm_trans (snd (fold_left (trade_pair_r rd c prices) L (q, tm)))) /\
    in_step (after_r rd prices q L) (tm_trans (snd (fold_left (trade_pair_r rd c prices) L (q, tm)))).
  Proof.
    induction L as [|p L IH]; intros q tm I H; [split; [constructor | exact I]|].
    destruct p as [b s]. pose proof (proj1 (pair_iff d b s) (H _ (or_introl eq_refl))) as (x & y & Hx & Hy & Bx & By & <- & <-).
    destruct (deal_step q tm x y I Hx Hy Bx By) as [E S]. cbn [fold_left].
    destruct (trade_pair_r rd c prices (q, tm) (lbl x, lbl y)) as [q' tm'] eqn:Et. cbn [snd] in E.
    pose proof (trade_pair_r_fst rd c prices q tm (lbl x, lbl y)) as Ef. rewrite Et in Ef. cbn [fst] in Ef. subst q'.
    rewrite <- E in S. destruct (IH _ tm' S) as [D S']; [intros p Hp; apply H; right; exact Hp|].
    split; [|exact S']. rewrite E in D. apply Dr_cons; assumption.
  Qed.
  Lemma start : in_step q0 [].
  Proof.
    split; [apply map_length|]. split; [apply q0_machine|]. intros x Hx. unfold rest_r. simpl. symmetry. apply get_qty; assumption.
  Qed.

  Theorem p2p_rounded : exists tm gtl, p2p_random_r rd A d c r = Ok (tm, XP2P gtl) /\
    Deals_r rd d c [] (concat gtl) (tm_trans tm) /\ NoDup (concat gtl) /\
    (forall T, In T gtl -> T <> [] /\ NoDup (flat_map (fun p => [fst p; snd p]) T)) /\
    (forall x y, In x d -> In y d -> buying x = true -> buying y = false -> price y <= price x ->
       rest_r rd x (tm_trans tm) = 0 \/ rest_r rd y (tm_trans tm) = 0).
  Proof.
    destruct p2p_run_r as (gtl & E & R & F). exists (snd (fold_left (trade_pair_r rd c prices) (concat gtl) (q0, tm_init))), gtl.
    destruct (deals_fold (concat gtl) q0 tm_init start (rr_pairs _ R)) as [D (_ & _ & Rq)].
    split; [exact E|]. split; [exact D|]. split; [apply R|]. split; [apply R|].
    intros x y Hx Hy Bx By Hc. rewrite !Rq by assumption.
    assert (G : forall L p, (forall p, In p L -> In p ps) -> In p L -> good_pair (length q0) p).
    { intros L p H Hp. unfold q0. rewrite map_length. apply pair_good; [exact Hl | apply H, Hp]. }
    destruct (F (lbl x) (lbl y)) as [I|[Z|Z]]; auto; [apply pair_iff; exists x, y; auto 10|].
    apply in_split in I. destruct I as (L1 & L2 & EL).
    assert (EL' : concat gtl = (L1 ++ [(lbl x, lbl y)]) ++ L2) by (rewrite EL, <- app_assoc; reflexivity).
    pose proof (rr_pairs _ R) as HP.
    assert (H1 : forall p, In p (L1 ++ [(lbl x, lbl y)]) -> In p ps).
    { intros p Hp. apply HP. rewrite EL'. apply in_or_app. left; exact Hp. }
    assert (H2 : forall p, In p L2 -> In p ps) by (intros p Hp; apply HP; rewrite EL'; apply in_or_app; right; exact Hp).
    assert (K : forall i, get (after_r rd prices q0 (L1 ++ [(lbl x, lbl y)])) i = 0 -> get (after_r rd prices q0 (concat gtl)) i = 0).
    { intros i Hi. rewrite EL', after_r_app.
      destruct (after_r_all rd prices L2 (after_r rd prices q0 (L1 ++ [(lbl x, lbl y)]))) with (i := i) as (U & _ & V).
      - intros p Hp. rewrite after_r_len. apply (G L2); assumption.
      - intro j. destruct (after_r_all rd prices (L1 ++ [(lbl x, lbl y)]) q0 (fun p Hp => G _ p H1 Hp) q0_machine j) as (U & V & _). auto.
      - rewrite Hi in V. qlra. }
    cut (get (after_r rd prices q0 (L1 ++ [(lbl x, lbl y)])) (lbl x) = 0 \/ get (after_r rd prices q0 (L1 ++ [(lbl x, lbl y)])) (lbl y) = 0).
    { intros [Z|Z]; [left | right]; apply K, Z. }
    rewrite after_r_app. unfold after_r at 1 3. cbn [fold_left].
    destruct (G _ (lbl x, lbl y) H1) as (N & Lb & Ls); [apply in_or_app; right; left; reflexivity|]. simpl in N, Lb, Ls.
    rewrite !step_r_get by (rewrite ?after_r_len; assumption). rewrite !Nat.eqb_refl, orb_true_r. cbn [orb].
    pose proof (get_price d Hl x Hx) as Px. pose proof (get_price d Hl y Hy) as Py. fold prices in Px, Py.
    rewrite Px, Py, (proj2 (qleb_le _ _) Hc). cbn [andb].
    destruct (qmin_case (get (after_r rd prices q0 L1) (lbl x)) (get (after_r rd prices q0 L1) (lbl y))) as [[Em _]|[Em _]]; rewrite Em; [left | right];
      (match goal with |- rnd rd ?a = _ => replace a with 0 by ring end); apply rnd_zero.
  Qed.
End Loop.

(** ** Consequences of the meetings *)
Section Deals.
  Variables (R : rounding) (d : df) (c : Qc).
  Hypothesis Hu : labels_unique d.
  Hypothesis Hq : qty_nonneg d.
  Hypothesis Hm : machine_qty R d.

  Definition rests_ok (tl : list trans) : Prop := forall x, In x d -> 0 <= rest_r R x tl /\ machine R (rest_r R x tl) /\ rest_r R x tl <= qty x.
  Lemma row_eq x y : In x d -> In y d -> lbl x = lbl y -> x = y.
  Proof. intros. apply (NoDup_map_in lbl d); auto. Qed.

  (** in one meeting *)
  Lemma deal_cases x y tl : In x d -> In y d -> buying x = true -> buying y = false ->
    (price y <= price x /\ exists q p f1 f2, q = qmin (rest_r R x tl) (rest_r R y tl) /\
       p = R (R (price x * c) + R (R (1 - c) * price y)) /\
       deal_r R c x y tl = [mkTrans (lbl x) q p (Z.of_nat (lbl y)) f1; mkTrans (lbl y) q p (Z.of_nat (lbl x)) f2]) \/
    (price x < price y /\ deal_r R c x y tl =
       [mkTrans (lbl x) 0 0 (Z.of_nat (lbl y)) true; mkTrans (lbl y) 0 0 (Z.of_nat (lbl x)) true]).
  Proof.
    intros. unfold deal_r. destruct (qle_spec (price y) (price x)) as [L|L]; [left | right]; (split; [exact L|]); [|reflexivity].
    do 4 eexists. split; [reflexivity|]. split; reflexivity.
  Qed.
  Lemma rest_after_deal x y tl z : In x d -> In y d -> buying x = true -> buying y = false -> rests_ok tl -> In z d ->
    rest_r R z (tl ++ deal_r R c x y tl) =
      if qleb (price y) (price x) && (Nat.eqb (lbl x) (lbl z) || Nat.eqb (lbl y) (lbl z))
      then R (rest_r R z tl - qmin (rest_r R x tl) (rest_r R y tl)) else rest_r R z tl.
  Proof.
    intros Hx Hy Bx By Ho Hz. unfold rest_r at 1. rewrite fold_left_app. fold (rest_r R z tl). unfold deal_r.
    assert (Z : R (rest_r R z tl - 0) = rest_r R z tl).
    { replace (rest_r R z tl - 0) with (rest_r R z tl) by ring. apply Ho, Hz. }
    destruct (qleb _ _); cbn [fold_left t_bid t_qty andb].
    - destruct (Nat.eqb (lbl x) (lbl z)) eqn:E1, (Nat.eqb (lbl y) (lbl z)) eqn:E2; cbn [orb]; try reflexivity.
      apply Nat.eqb_eq in E1, E2. assert (x = y) by (apply row_eq; congruence). congruence.
    - destruct (Nat.eqb (lbl x) (lbl z)), (Nat.eqb (lbl y) (lbl z)); rewrite ?Z; reflexivity.
  Qed.
  Lemma rests_deal x y tl : In x d -> In y d -> buying x = true -> buying y = false -> rests_ok tl ->
    rests_ok (tl ++ deal_r R c x y tl).
  Proof.
    intros Hx Hy Bx By Ho z Hz. rewrite rest_after_deal by assumption.
    destruct (Ho z Hz) as (Z1 & Z2 & Z3). destruct (Ho x Hx) as (X1 & X2 & X3). destruct (Ho y Hy) as (Y1 & Y2 & Y3).
    pose proof (qmin_l (rest_r R x tl) (rest_r R y tl)). pose proof (qmin_r (rest_r R x tl) (rest_r R y tl)).
    pose proof (qmin_glb _ _ 0 X1 Y1).
    destruct (_ && _) eqn:Ec; [|auto]. apply andb_true_iff in Ec. destruct Ec as [_ Ec].
    assert (L : qmin (rest_r R x tl) (rest_r R y tl) <= rest_r R z tl).
    { apply orb_true_iff in Ec. destruct Ec as [Ec|Ec]; apply Nat.eqb_eq in Ec; apply row_eq in Ec; try assumption; subst z; assumption. }
    assert (R (rest_r R z tl - qmin (rest_r R x tl) (rest_r R y tl)) <= rest_r R z tl) by (apply rnd_le; [exact Z2 | qlra]).
    split; [apply rnd_nonneg; qlra|]. split; [apply rnd_machine | qlra].
  Qed.
  Lemma rests_nil : rests_ok [].
  Proof. intros x Hx. unfold rest_r. simpl. split; [apply Hq, Hx|]. split; [apply Hm, Hx | qlra]. Qed.
  Lemma rests_deals tl L tl' : Deals_r R d c tl L tl' -> rests_ok tl -> rests_ok tl'.
  Proof. induction 1; auto using rests_deal. Qed.

  (** the two transactions of a meeting *)
  Lemma deal_in x y tl t : In t (deal_r R c x y tl) ->
    (t_bid t = lbl x /\ t_source t = Z.of_nat (lbl y) \/ t_bid t = lbl y /\ t_source t = Z.of_nat (lbl x)) /\
    (price y <= price x -> t_qty t = qmin (rest_r R x tl) (rest_r R y tl) /\ t_price t = R (R (price x * c) + R (R (1 - c) * price y))) /\
    (price x < price y -> t_qty t = 0 /\ t_price t = 0).
  Proof.
    unfold deal_r. destruct (qle_spec (price y) (price x)) as [L|L]; intros [<-|[<-|[]]]; cbn [t_bid t_source t_qty t_price];
      (split; [auto|]); (split; intro; auto; exfalso; qlra).
  Qed.
  Lemma deals_in tl L tl' t : Deals_r R d c tl L tl' -> rests_ok tl -> In t tl' -> In t tl \/
    exists x y tl0, In x d /\ In y d /\ buying x = true /\ buying y = false /\ rests_ok tl0 /\ In t (deal_r R c x y tl0).
  Proof.
    induction 1 as [tl|tl x y L tl' Hx Hy Bx By HD IH]; intros Ho Ht; [left; exact Ht|].
    destruct (IH (rests_deal x y tl Hx Hy Bx By Ho) Ht) as [I|I]; [|right; exact I].
    apply in_app_or in I. destruct I as [I|I]; [left; exact I|]. right. exists x, y, tl. auto 10.
  Qed.

  Theorem deals_refer L tl : Deals_r R d c [] L tl -> refer d tl /\ forall t, In t tl -> 0 <= t_qty t.
  Proof.
    intro H. split; intros t Ht; (destruct (deals_in _ _ _ t H rests_nil Ht) as [[]|(x & y & tl0 & Hx & Hy & _ & _ & Ho & I)]);
      apply deal_in in I; destruct I as (D & P & N).
    - destruct D as [[D _]|[D _]]; [exists x | exists y]; auto.
    - destruct (Qclt_le_dec (price x) (price y)) as [G|G]; [destruct (N G) as [-> _]; qlra|].
      destruct (P G) as [-> _]. apply qmin_glb; apply Ho; assumption.
  Qed.
  Theorem deals_prices L tl t : Deals_r R d c [] L tl -> In t tl ->
    exists x y, In x d /\ In y d /\ buying x = true /\ buying y = false /\
      (t_bid t = lbl x /\ t_source t = Z.of_nat (lbl y) \/ t_bid t = lbl y /\ t_source t = Z.of_nat (lbl x)) /\
      (price y <= price x -> t_price t = R (R (price x * c) + R (R (1 - c) * price y))) /\
      (price x < price y -> t_qty t = 0 /\ t_price t = 0).
  Proof.
    intros H Ht. destruct (deals_in _ _ _ t H rests_nil Ht) as [[]|(x & y & tl0 & Hx & Hy & Bx & By & Ho & I)].
    apply deal_in in I. destruct I as (D & P & N). exists x, y. do 4 (split; [assumption|]). split; [exact D|].
    split; [intro G; apply (P G) | exact N].
  Qed.
  Theorem deals_balanced L tl : Deals_r R d c [] L tl -> bought d tl = sold d tl /\ Meetings L tl.
  Proof.
    assert (G : forall tl0 L tl', Deals_r R d c tl0 L tl' -> exists new, tl' = tl0 ++ new /\ bought d new = sold d new /\ Meetings L new).
    { induction 1 as [tl0|tl0 x y L0 tl' Hx Hy Bx By HD IH]; [exists []; rewrite app_nil_r; repeat split; constructor|].
      destruct IH as (new & -> & B & M). exists (deal_r R c x y tl0 ++ new). split; [rewrite app_assoc; reflexivity|].
      assert (S : exists q p f1 f2, deal_r R c x y tl0 = [mkTrans (lbl x) q p (Z.of_nat (lbl y)) f1; mkTrans (lbl y) q p (Z.of_nat (lbl x)) f2]).
      { destruct (deal_cases x y tl0 Hx Hy Bx By) as [(_ & q & p & f1 & f2 & _ & _ & E)|(_ & E)]; rewrite E; eauto 10. }
      destruct S as (q & p & f1 & f2 & ->). split.
      - change ([?a; ?b] ++ new) with ([a] ++ [b] ++ new). rewrite !bought_app, !sold_app, B.
        destruct (side_sums true d [mkTrans (lbl x) q p (Z.of_nat (lbl y)) f1] Hu) as [-> ->]; [intros t [<-|[]]; exists x; auto|].
        destruct (side_sums false d [mkTrans (lbl y) q p (Z.of_nat (lbl x)) f2] Hu) as [-> ->]; [intros t [<-|[]]; exists y; auto|].
        rewrite !qsumf_cons, !qsumf_nil. simpl. ring.
      - simpl. constructor; auto. }
    intro H. destruct (G _ _ _ H) as (new & -> & B & M). auto.
  Qed.

  (** *** Quantities: the sum of what a bid trades, up to the relative error of the subtractions *)
  Variable u : Qc.
  Hypothesis Hrel : rel_error R u.
  Lemma qabs_le_inv x a : qabs x <= a -> x <= a /\ - x <= a.
  Proof. unfold qabs. destruct (qle_spec 0 x); intro; split; qlra. Qed.
  Lemma rel_nonneg x : 0 <= x -> R x <= x + u * x /\ x - u * x <= R x.
  Proof.
    intro H. destruct Hrel as [_ G]. specialize (G x). unfold qabs at 2 in G. rewrite (proj2 (qleb_le _ _) H) in G.
    apply qabs_le_inv in G. destruct G. split; qlra.
  Qed.
  Definition close (x : row) (tl : list trans) : Prop :=
    traded_by (lbl x) tl <= qty x - rest_r R x tl + qnat (count_of x tl) * (u * qty x) /\
    qty x - rest_r R x tl - qnat (count_of x tl) * (u * qty x) <= traded_by (lbl x) tl.
  Lemma count_cons x t tl : count_of x (tl ++ [t]) = (count_of x tl + if Nat.eqb (t_bid t) (lbl x) then 1 else 0)%nat.
  Proof. unfold count_of. rewrite filter_app, app_length. cbn [filter]. destruct (Nat.eqb _ _); reflexivity. Qed.
  Lemma qnat_S n : qnat (n + 1) = qnat n + 1.
  Proof. unfold qnat. rewrite Nat2Z.inj_add. apply Qc_is_canon. rewrite this_plus, !this_qz. rewrite inject_Z_plus. reflexivity. Qed.
  Lemma traded_snoc i t tl : traded_by i (tl ++ [t]) = traded_by i tl + (if Nat.eqb (t_bid t) i then t_qty t else 0).
  Proof. rewrite traded_by_app, traded_by_cons. unfold traded_by at 2. simpl. rewrite qsumf_nil. ring. Qed.
  Lemma close_snoc x t tl : In x d -> close x tl -> 0 <= rest_r R x tl -> rest_r R x tl <= qty x ->
    (t_bid t = lbl x -> 0 <= t_qty t /\ t_qty t <= rest_r R x tl) -> close x (tl ++ [t]).
  Proof.
    intros Hx [U V] R0 R1 Hb. unfold close. rewrite traded_snoc, count_cons.
    unfold rest_r. rewrite !fold_left_app. fold (rest_r R x tl). cbn [fold_left].
    destruct (Nat.eqb (t_bid t) (lbl x)) eqn:E; [|rewrite Nat.add_0_r; split; qlra].
    apply Nat.eqb_eq in E. destruct (Hb E) as [Q0 Q1]. rewrite qnat_S.
    destruct (rel_nonneg (rest_r R x tl - t_qty t) ltac:(qlra)) as [G1 G2].
    assert (K : u * (rest_r R x tl - t_qty t) <= u * qty x) by (apply qmult_le_l; [apply Hrel | qlra]).
    replace ((qnat (count_of x tl) + 1) * (u * qty x)) with (qnat (count_of x tl) * (u * qty x) + u * qty x) by ring.
    revert U V G1 G2 K. generalize (u * (rest_r R x tl - t_qty t)) (u * qty x) (qnat (count_of x tl) * (u * qty x)) (R (rest_r R x tl - t_qty t)).
    intros. split; qlra.
  Qed.
  Lemma close_deal x y z tl : In x d -> In y d -> buying x = true -> buying y = false -> rests_ok tl -> In z d ->
    close z tl -> close z (tl ++ deal_r R c x y tl).
  Proof.
    intros Hx Hy Bx By Ho Hz Cz. destruct (Ho z Hz) as (Z1 & Z2 & Z3). destruct (Ho x Hx) as (X1 & X2 & X3). destruct (Ho y Hy) as (Y1 & Y2 & Y3).
    assert (S : exists q p f1 f2, deal_r R c x y tl = [mkTrans (lbl x) q p (Z.of_nat (lbl y)) f1; mkTrans (lbl y) q p (Z.of_nat (lbl x)) f2] /\
      0 <= q /\ q <= rest_r R x tl /\ q <= rest_r R y tl).
    { destruct (deal_cases x y tl Hx Hy Bx By) as [(_ & q & p & f1 & f2 & Eq & _ & E)|(_ & E)]; rewrite E.
      - exists q, p, f1, f2. split; [reflexivity|]. subst q. split; [apply qmin_glb; assumption|]. split; [apply qmin_l | apply qmin_r].
      - exists 0, 0, true, true. split; [reflexivity|]. repeat split; try assumption. qlra. }
    destruct S as (q & p & f1 & f2 & -> & Q0 & Q1 & Q2).
    change (tl ++ [?a; ?b]) with (tl ++ [a] ++ [b]). rewrite app_assoc.
    assert (Nxy : lbl x <> lbl y) by (intro E; apply row_eq in E; congruence).
    set (t1 := mkTrans (lbl x) q p (Z.of_nat (lbl y)) f1).
    assert (C1 : close z (tl ++ [t1])).
    { apply close_snoc; try assumption. cbn. intro E. apply row_eq in E; try assumption. subst z. auto. }
    assert (E1 : rest_r R z (tl ++ [t1]) = if Nat.eqb (lbl x) (lbl z) then R (rest_r R z tl - q) else rest_r R z tl).
    { unfold rest_r. rewrite fold_left_app. reflexivity. }
    apply close_snoc; try assumption.
    - rewrite E1. destruct (Nat.eqb (lbl x) (lbl z)) eqn:E; [|exact Z1]. apply Nat.eqb_eq in E. apply row_eq in E; try assumption. subst z.
      apply rnd_nonneg. qlra.
    - rewrite E1. destruct (Nat.eqb (lbl x) (lbl z)) eqn:E; [|exact Z3]. apply Nat.eqb_eq in E. apply row_eq in E; try assumption. subst z.
      apply Qcle_trans with (rest_r R x tl); [apply rnd_le; [exact Z2 | qlra] | exact Z3].
    - cbn. intro E. split; [exact Q0|]. rewrite E1. apply row_eq in E; try assumption. subst z.
      rewrite (proj2 (Nat.eqb_neq _ _) Nxy). exact Q2.
  Qed.
  Theorem deals_quantities L tl : Deals_r R d c [] L tl -> forall x, In x d -> close x tl.
  Proof.
    intros H x Hx. assert (G : forall tl0 L tl', Deals_r R d c tl0 L tl' -> rests_ok tl0 -> close x tl0 -> close x tl').
    { induction 1 as [tl0|tl0 a b L0 tl' Ha Hb Ba Bb HD IH]; intros Ho Hc; [exact Hc|].
      apply IH; [apply rests_deal; assumption | apply close_deal; assumption]. }
    apply (G _ _ _ H rests_nil). unfold close, rest_r, count_of, traded_by. simpl. rewrite qsumf_nil.
    assert (Z : qnat 0 * (u * qty x) = 0) by (replace (qnat 0) with 0 by (apply Qc_is_canon; reflexivity); ring).
    rewrite Z. split; qlra.
  Qed.
End Deals.

(** ** Prices *)
Section Prices.
  Variables (R : rounding) (pb ps : Qc).
  Hypothesis Mb : machine R pb.
  Hypothesis Ms : machine R ps.
  Hypothesis Hc : ps <= pb.
  (** at the middle the price stays between the ask and the bid *)
  Theorem price_half : halves R -> let p := R (R (pb * qf 1 2) + R (R (1 - qf 1 2) * ps)) in ps <= p /\ p <= pb.
  Proof.
    intros [M1 Mh] p. unfold p.
    assert (E : R (1 - qf 1 2) = qf 1 2).
    { replace (1 - qf 1 2) with (1 * qf 1 2) by (apply Qc_is_canon; reflexivity). rewrite (Mh 1 M1). apply Qc_is_canon; reflexivity. }
    rewrite E. rewrite (Mh pb Mb). replace (qf 1 2 * ps) with (ps * qf 1 2) by ring. rewrite (Mh ps Ms).
    assert (A1 : pb * qf 1 2 + ps * qf 1 2 <= pb).
    { assert (H : ps * qf 1 2 <= pb * qf 1 2) by (apply qmult_le_r; [discriminate | exact Hc]).
      assert (E2 : pb * qf 1 2 + pb * qf 1 2 = pb) by (replace (pb * qf 1 2 + pb * qf 1 2) with (pb * (qf 1 2 + qf 1 2)) by ring; replace (qf 1 2 + qf 1 2) with 1 by (apply Qc_is_canon; reflexivity); ring).
      revert H E2. generalize (pb * qf 1 2) (ps * qf 1 2). intros; qlra. }
    assert (A2 : ps <= pb * qf 1 2 + ps * qf 1 2).
    { assert (H : ps * qf 1 2 <= pb * qf 1 2) by (apply qmult_le_r; [discriminate | exact Hc]).
      assert (E2 : ps * qf 1 2 + ps * qf 1 2 = ps) by (replace (ps * qf 1 2 + ps * qf 1 2) with (ps * (qf 1 2 + qf 1 2)) by ring; replace (qf 1 2 + qf 1 2) with 1 by (apply Qc_is_canon; reflexivity); ring).
      revert H E2. generalize (pb * qf 1 2) (ps * qf 1 2). intros; qlra. }
    split; [apply rnd_ge; assumption | apply rnd_le; assumption].
  Qed.
  (** in general up to the relative error *)
  Theorem price_near (u c : Qc) : rel_error R u -> u <= 1 -> 0 <= ps -> 0 <= c -> c <= 1 ->
    let p := R (R (pb * c) + R (R (1 - c) * ps)) in
    ps * ((1 - u) * (1 - u) * (1 - u)) <= p /\ p <= pb * ((1 + u) * (1 + u) * (1 + u)).
  Proof.
    intros Hrel U1 P0 C0 C1 p. unfold p.
    assert (U0 : 0 <= u) by apply Hrel.
    assert (N : forall x, 0 <= x -> R x <= x * (1 + u) /\ x * (1 - u) <= R x).
    { intros x Hx. destruct (rel_nonneg R u Hrel x Hx). split; [replace (x * (1 + u)) with (x + u * x) by ring | replace (x * (1 - u)) with (x - u * x) by ring]; assumption. }
    assert (B0 : 0 <= pb) by qlra.
    assert (M : forall a b k, a <= b -> 0 <= k -> a * k <= b * k) by (intros; apply qmult_le_r; assumption).
    assert (D0 : 0 <= 1 - c) by qlra. assert (V0 : 0 <= 1 - u) by qlra. assert (W0 : 0 <= 1 + u) by qlra.
    destruct (N (pb * c) (qmult_nonneg _ _ B0 C0)) as [A1 A2].
    destruct (N (1 - c) D0) as [E1 E2]. pose proof (rnd_nonneg R _ D0) as E0.
    destruct (N (R (1 - c) * ps) (qmult_nonneg _ _ E0 P0)) as [G1 G2].
    pose proof (rnd_nonneg R _ (qmult_nonneg _ _ B0 C0)) as A0. pose proof (rnd_nonneg R _ (qmult_nonneg _ _ E0 P0)) as G0.
    destruct (N (R (pb * c) + R (R (1 - c) * ps)) ltac:(qlra)) as [S1 S2].
    pose proof (qmult_nonneg _ _ B0 C0) as BC. pose proof (qmult_nonneg _ _ D0 P0) as DP.
    split.
    - apply Qcle_trans with ((R (pb * c) + R (R (1 - c) * ps)) * (1 - u)); [|exact S2].
      replace (ps * ((1 - u) * (1 - u) * (1 - u))) with (ps * ((1 - u) * (1 - u)) * (1 - u)) by ring. apply M; [|exact V0].
      assert (L1 : ps * c * ((1 - u) * (1 - u)) <= R (pb * c)).
      { apply Qcle_trans with (pb * c * (1 - u)); [|exact A2].
        apply Qcle_trans with (ps * c * (1 - u)).
        - replace (ps * c * ((1 - u) * (1 - u))) with (ps * c * (1 - u) * (1 - u)) by ring.
          assert (T : 0 <= ps * c * (1 - u)) by (apply qmult_nonneg; [apply qmult_nonneg; assumption | exact V0]).
          pose proof (qmult_le_l (ps * c * (1 - u)) (1 - u) 1 T ltac:(qlra)) as K. rewrite Qcmult_1_r in K. exact K.
        - apply M; [apply M; assumption | exact V0]. }
      assert (L2 : ps * (1 - c) * ((1 - u) * (1 - u)) <= R (R (1 - c) * ps)).
      { apply Qcle_trans with (R (1 - c) * ps * (1 - u)); [|exact G2].
        replace (ps * (1 - c) * ((1 - u) * (1 - u))) with ((1 - c) * (1 - u) * ps * (1 - u)) by ring.
        apply M; [|exact V0]. apply M; [exact E2 | exact P0]. }
      replace (ps * ((1 - u) * (1 - u))) with (ps * c * ((1 - u) * (1 - u)) + ps * (1 - c) * ((1 - u) * (1 - u))) by ring.
      revert L1 L2. generalize (ps * c * ((1 - u) * (1 - u))) (ps * (1 - c) * ((1 - u) * (1 - u))). intros; qlra.
    - apply Qcle_trans with ((R (pb * c) + R (R (1 - c) * ps)) * (1 + u)); [exact S1|].
      replace (pb * ((1 + u) * (1 + u) * (1 + u))) with (pb * ((1 + u) * (1 + u)) * (1 + u)) by ring. apply M; [|exact W0].
      assert (L1 : R (pb * c) <= pb * c * ((1 + u) * (1 + u))).
      { apply Qcle_trans with (pb * c * (1 + u)); [exact A1|].
        replace (pb * c * ((1 + u) * (1 + u))) with (pb * c * (1 + u) * (1 + u)) by ring.
        assert (T : 0 <= pb * c * (1 + u)) by (apply qmult_nonneg; [exact BC | exact W0]).
        pose proof (qmult_le_l (pb * c * (1 + u)) 1 (1 + u) T ltac:(qlra)) as K. rewrite Qcmult_1_r in K. exact K. }
      assert (L2 : R (R (1 - c) * ps) <= pb * (1 - c) * ((1 + u) * (1 + u))).
      { apply Qcle_trans with (R (1 - c) * ps * (1 + u)); [exact G1|].
        replace (pb * (1 - c) * ((1 + u) * (1 + u))) with ((1 - c) * (1 + u) * pb * (1 + u)) by ring.
        apply M; [|exact W0]. apply Qcle_trans with ((1 - c) * (1 + u) * ps); [apply M; [exact E1 | exact P0]|].
        apply qmult_le_l; [|exact Hc]. apply qmult_nonneg; assumption. }
      replace (pb * ((1 + u) * (1 + u))) with (pb * c * ((1 + u) * (1 + u)) + pb * (1 - c) * ((1 + u) * (1 + u))) by ring.
      revert L1 L2. generalize (pb * c * ((1 + u) * (1 + u))) (pb * (1 - c) * ((1 + u) * (1 + u))). intros; qlra.
  Qed.
End Prices.
