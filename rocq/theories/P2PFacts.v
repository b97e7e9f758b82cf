(** Facts about [p2p_random], part 1: the loop. *)
From Verif Require Import QcTac Num ModelBase ModelHuang ModelP2P ListFacts StoreFacts Spec SpecTrade TradeFacts.

(** ** Boolean masks *)
Definition bget (a : list bool) (i : nat) : bool := nth i a false.
Definition cnt (a : list bool) : nat := length (filter (fun b => b) a).

Lemma where_true_In a x : In x (where_true a) <-> bget a x = true.
Proof.
  unfold where_true, bget.
  assert (G : forall l n, In x (map fst (filter snd (combine (seq n (length l)) l))) <-> (n <= x)%nat /\ nth (x - n) l false = true).
  { induction l as [|b l IH]; intro n; simpl.
    - split; [contradiction|]. intros [_ H]. destruct (x - n)%nat; discriminate.
    - destruct b; simpl; rewrite IH; clear IH.
      + split.
        * intros [<-|[L H]]; [split; [lia|]; rewrite Nat.sub_diag; reflexivity|].
          split; [lia|]. replace (x - n)%nat with (Datatypes.S (x - Datatypes.S n)) by lia. exact H.
        * intros [L H]. destruct (x - n)%nat as [|m] eqn:E; [left; lia|]. right. split; [lia|].
          replace (x - Datatypes.S n)%nat with m by lia. exact H.
      + split.
        * intros [L H]. split; [lia|]. replace (x - n)%nat with (Datatypes.S (x - Datatypes.S n)) by lia. exact H.
        * intros [L H]. destruct (x - n)%nat as [|m] eqn:E; [discriminate|]. split; [lia|].
          replace (x - Datatypes.S n)%nat with m by lia. exact H. }
  rewrite (G a 0%nat). rewrite Nat.sub_0_r. intuition lia.
Qed.
Lemma bget_len a x : bget a x = true -> (x < length a)%nat.
Proof.
  intro H. destruct (Nat.lt_ge_cases x (length a)) as [|L]; [assumption|]. unfold bget in H.
  rewrite nth_overflow in H by exact L. discriminate.
Qed.
Lemma mask_and_len a b : length a = length b -> length (mask_and a b) = length a.
Proof. intro H. unfold mask_and. rewrite map_length, combine_length. lia. Qed.
Lemma bget_mask a b i : length a = length b -> bget (mask_and a b) i = bget a i && bget b i.
Proof.
  unfold bget, mask_and. revert b i; induction a as [|x a IH]; intros [|y b] [|i] H; simpl in *; try discriminate; auto.
Qed.
Lemma pairs_row_len ps b : length (pairs_row ps b) = length ps.
Proof. apply map_length. Qed.
Lemma bget_row ps b i p : nth_error ps i = Some p -> bget (pairs_row ps b) i = negb (Nat.eqb (fst p) b || Nat.eqb (snd p) b).
Proof.
  intro H. unfold bget, pairs_row. revert i H; induction ps as [|q ps IH]; intros [|i] H; simpl in *; try discriminate.
  - injection H as ->. reflexivity.
  - apply IH, H.
Qed.
Lemma set_nth_len {A} i (v : A) l : length (set_nth i v l) = length l.
Proof. revert i; induction l as [|x l IH]; intros [|i]; simpl; auto. Qed.
Lemma nth_set_nth {A} i j (v : A) l d : (i < length l)%nat -> nth j (set_nth i v l) d = if Nat.eqb i j then v else nth j l d.
Proof. revert i j; induction l as [|x l IH]; intros [|i] [|j] H; simpl in *; try lia; auto. apply IH. lia. Qed.
Lemma bget_set a i j : (i < length a)%nat -> bget (set_nth i false a) j = bget a j && negb (Nat.eqb i j).
Proof.
  intro H. unfold bget. rewrite nth_set_nth by exact H. destruct (Nat.eqb i j); simpl; [rewrite andb_false_r | rewrite andb_true_r]; reflexivity.
Qed.
Lemma cnt_le a : (cnt a <= length a)%nat.
Proof. unfold cnt. induction a as [|b a IH]; simpl; [lia|]. destruct b; simpl; lia. Qed.
Lemma cnt_mono a b : length a = length b -> (forall i, bget b i = true -> bget a i = true) -> (cnt b <= cnt a)%nat.
Proof.
  unfold cnt. revert b; induction a as [|x a IH]; intros [|y b] L H; simpl in *; try discriminate; [lia|].
  assert (Hi : forall i, bget b i = true -> bget a i = true) by (intros i; apply (H (Datatypes.S i))).
  specialize (IH b ltac:(lia) Hi). specialize (H 0%nat). unfold bget in H. simpl in H.
  destruct x, y; simpl in *; try lia; specialize (H eq_refl); discriminate.
Qed.
Lemma cnt_lt a b i : length a = length b -> (forall j, bget b j = true -> bget a j = true) ->
  bget a i = true -> bget b i = false -> (cnt b < cnt a)%nat.
Proof.
  revert b i; induction a as [|x a IH]; intros [|y b] i L H Ha Hb; simpl in *; try discriminate; [destruct i; discriminate|].
  assert (Hi : forall i, bget b i = true -> bget a i = true) by (intros j; apply (H (Datatypes.S j))).
  assert (Hm : (cnt b <= cnt a)%nat) by (apply cnt_mono; [lia | exact Hi]).
  pose proof (H 0%nat) as H0. unfold bget in H0. simpl in H0.
  destruct i as [|i].
  - unfold bget in Ha, Hb. simpl in Ha, Hb. subst. unfold cnt in *. simpl. lia.
  - specialize (IH b i ltac:(lia) Hi Ha Hb). unfold cnt in *. destruct x, y; simpl in *; try lia; specialize (H0 eq_refl); discriminate.
Qed.
Lemma existsb_bget a : existsb (fun b => b) a = true <-> exists i, bget a i = true.
Proof.
  rewrite existsb_exists. split.
  - intros (b & H & ->). apply In_nth_error in H. destruct H as (i & H). exists i. unfold bget.
    apply nth_error_nth with (d := false) in H. exact H.
  - intros (i & H). exists true. split; [|reflexivity]. rewrite <- H. apply nth_In. apply bget_len, H.
Qed.

(** ** Picking the pairs of one round *)
Definition involves (b : nat) (p : nat * nat) : bool := Nat.eqb (fst p) b || Nat.eqb (snd p) b.
Definition bids_of (T : list (nat * nat)) : list nat := flat_map (fun p => [fst p; snd p]) T.

Lemma choose_in r k w : w <> [] -> In (choose r k w) w.
Proof. intro H. unfold choose. apply nth_In. apply Nat.mod_upper_bound. destruct w; [congruence | simpl; lia]. Qed.

Section Round.
  Variable ps : list (nat * nat).
  Hypothesis Hnd : NoDup ps.
  Hypothesis Hne : forall p, In p ps -> fst p <> snd p.

  Lemma pick_round_spec r fuel : forall k active tmp tr,
    length active = length ps -> length tmp = length ps -> (cnt tmp <= fuel)%nat ->
    exists T active' k', pick_round fuel ps r k active tmp tr = Ok (tr ++ T, active', k') /\
      length active' = length ps /\
      (forall p, In p T -> exists x, nth_error ps x = Some p /\ bget tmp x = true) /\
      NoDup (bids_of T) /\
      (forall i p, nth_error ps i = Some p -> (bget active' i = true <-> bget active i = true /\ ~ In p T)) /\
      ((exists i, bget tmp i = true) -> T <> []) /\
      (forall i p, nth_error ps i = Some p -> bget tmp i = true ->
         exists q, In q T /\ (involves (fst q) p = true \/ involves (snd q) p = true)).
  Proof.
    induction fuel as [|fuel IH]; intros k active tmp tr La Lt Hc.
    - assert (N : forall i, bget tmp i = true -> False).
      { intros i Hi. assert (In true (filter (fun b => b) tmp)).
        { apply filter_In. split; [|reflexivity]. rewrite <- Hi. apply nth_In, bget_len, Hi. }
        unfold cnt in Hc. destruct (filter (fun b => b) tmp); [contradiction | simpl in Hc; lia]. }
      exists [], active, k. assert (E : where_true tmp = []).
      { destruct (where_true tmp) as [|x w] eqn:E; [reflexivity|]. exfalso. apply (N x). apply where_true_In. rewrite E. left; reflexivity. }
      simpl. rewrite E, app_nil_r. split; [reflexivity|]. split; [exact La|]. split; [contradiction|]. split; [constructor|].
      split; [intros; tauto|]. split; [intros (i & Hi); exfalso; eapply N; eauto|]. intros i p _ Hi. exfalso. eapply N; eauto.
    - destruct (where_true tmp) as [|x0 w0] eqn:E.
      + exists [], active, k. simpl. rewrite E, app_nil_r. split; [reflexivity|]. split; [exact La|]. split; [contradiction|]. split; [constructor|].
        assert (N : forall i, bget tmp i = true -> False) by (intros i Hi; apply where_true_In in Hi; rewrite E in Hi; contradiction).
        split; [intros; tauto|]. split; [intros (i & Hi); exfalso; eapply N; eauto|]. intros i p _ Hi. exfalso. eapply N; eauto.
      + set (x := choose r k (x0 :: w0)).
        assert (Hx : bget tmp x = true) by (apply where_true_In; rewrite E; apply choose_in; discriminate).
        destruct (nth_error ps x) as [[b s]|] eqn:Ex.
        2:{ apply nth_error_None in Ex. apply bget_len in Hx. lia. }
        set (tmp' := mask_and (mask_and tmp (pairs_row ps b)) (pairs_row ps s)).
        assert (Lm : length (mask_and tmp (pairs_row ps b)) = length ps) by (rewrite mask_and_len; rewrite ?pairs_row_len; auto).
        assert (Lt' : length tmp' = length ps) by (unfold tmp'; rewrite mask_and_len; rewrite ?pairs_row_len; auto).
        assert (Bt : forall i p, nth_error ps i = Some p -> bget tmp' i = bget tmp i && negb (involves b p) && negb (involves s p)).
        { intros i p Hi. unfold tmp'. rewrite bget_mask by (rewrite pairs_row_len; exact Lm).
          rewrite bget_mask by (rewrite pairs_row_len; exact Lt). rewrite !(bget_row ps _ i p Hi). reflexivity. }
        assert (Sub : forall i, bget tmp' i = true -> bget tmp i = true).
        { intros i Hi. assert (L : (i < length ps)%nat) by (rewrite <- Lt'; apply bget_len, Hi).
          destruct (nth_error ps i) as [p|] eqn:Ep; [|apply nth_error_None in Ep; lia].
          rewrite (Bt i p Ep) in Hi. apply andb_true_iff in Hi. destruct Hi as [Hi _]. apply andb_true_iff in Hi. tauto. }
        assert (Out : bget tmp' x = false).
        { rewrite (Bt x _ Ex). unfold involves. simpl. rewrite Nat.eqb_refl. simpl. rewrite andb_false_r. reflexivity. }
        assert (Hc' : (cnt tmp' <= fuel)%nat).
        { pose proof (cnt_lt tmp tmp' x ltac:(lia) Sub Hx Out). lia. }
        assert (Lx : (x < length active)%nat) by (rewrite La, <- Lt; apply bget_len, Hx).
        destruct (IH (Datatypes.S k) (set_nth x false active) tmp' (tr ++ [(b, s)])) as
          (T & active' & k' & Ek & A1 & A2 & A3 & A4 & A5 & A6).
        { rewrite set_nth_len; exact La. } { exact Lt'. } { exact Hc'. }
        exists ((b, s) :: T), active', k'. split; [|split; [|split; [|split; [|split; [|split]]]]].
        * simpl. rewrite E. fold x. rewrite Ex. simpl fst; simpl snd. fold tmp'. rewrite Ek, <- app_assoc. reflexivity.
        * exact A1.
        * intros p [<-|Hp]; [exists x; auto|]. destruct (A2 p Hp) as (y & Hy1 & Hy2). exists y. auto.
        * assert (Nbs : forall p, In p T -> involves b p = false /\ involves s p = false).
          { intros p Hp. destruct (A2 p Hp) as (y & Hy1 & Hy2). rewrite (Bt y p Hy1) in Hy2.
            apply andb_true_iff in Hy2. destruct Hy2 as [Hy2 Hy3]. apply andb_true_iff in Hy2. destruct Hy2 as [_ Hy2].
            apply negb_true_iff in Hy2, Hy3. auto. }
          assert (Nin : forall z, (forall p, In p T -> involves z p = false) -> ~ In z (bids_of T)).
          { intros z Hz Hi. unfold bids_of in Hi. apply in_flat_map in Hi. destruct Hi as (p & Hp & Hi).
            specialize (Hz p Hp). unfold involves in Hz. apply orb_false_iff in Hz. destruct Hz as [Z1 Z2].
            apply Nat.eqb_neq in Z1, Z2. simpl in Hi. intuition. }
          simpl. constructor; [|constructor; [|exact A3]].
          -- intros [Z|Z]; [|revert Z; apply Nin; intros p Hp; apply Nbs, Hp].
             apply (Hne (b, s)); [eapply nth_error_In; eauto | auto].
          -- apply Nin. intros p Hp; apply Nbs, Hp.
        * intros i p Hi. rewrite (A4 i p Hi). rewrite bget_set by exact Lx. rewrite andb_true_iff, negb_true_iff, Nat.eqb_neq.
          simpl. split.
          -- intros [[H1 H2] H3]. split; [exact H1|]. intros [Z|Z]; [|auto]. apply H2.
             apply (proj1 (NoDup_nth_error ps) Hnd); [rewrite <- La; exact Lx|]. rewrite Ex, Hi. congruence.
          -- intros [H1 H2]. split; [split; [exact H1|]|]; [|tauto]. intros <-. apply H2. left. congruence.
        * discriminate.
        * intros i p Hi Ht. destruct (involves b p || involves s p) eqn:Ei.
          -- exists (b, s). split; [left; reflexivity|]. apply orb_true_iff in Ei. exact Ei.
          -- apply orb_false_iff in Ei. destruct Ei as [E1 E2].
             destruct (A6 i p Hi) as (q & Hq & Hq2); [rewrite (Bt i p Hi), Ht, E1, E2; reflexivity|].
             exists q. split; [right; exact Hq | exact Hq2].
  Qed.
End Round.

(** ** Trading the pairs in sequence *)
Definition step_q (prices : list Qc) (q : list Qc) (bs : nat * nat) : list Qc :=
  fst (trade_pair 0 prices (q, tm_init) bs).
Lemma trade_pair_fst c prices q tm bs : fst (trade_pair c prices (q, tm) bs) = step_q prices q bs.
Proof. destruct bs as [b s]. unfold step_q, trade_pair. destruct (qleb _ _); reflexivity. Qed.
Definition after (prices : list Qc) (q : list Qc) (L : list (nat * nat)) : list Qc := fold_left (step_q prices) L q.
Lemma fold_trade_fst c prices L : forall q tm, fst (fold_left (trade_pair c prices) L (q, tm)) = after prices q L.
Proof.
  induction L as [|p L IH]; intros q tm; [reflexivity|]. cbn [fold_left].
  destruct (trade_pair c prices (q, tm) p) as [q' tm'] eqn:E. rewrite IH.
  pose proof (trade_pair_fst c prices q tm p) as H. rewrite E in H. cbn [fst] in H. unfold after. cbn [fold_left]. rewrite <- H. reflexivity.
Qed.

Definition get (q : list Qc) (i : nat) : Qc := nth i q 0.
Lemma step_q_get prices q b s i : b <> s -> (b < length q)%nat -> (s < length q)%nat ->
  get (step_q prices q (b, s)) i =
    get q i - (if qleb (get prices s) (get prices b) then
                 (if Nat.eqb b i || Nat.eqb s i then qmin (get q b) (get q s) else 0) else 0).
Proof.
  intros N Lb Ls. unfold step_q, trade_pair, get.
  destruct (qleb (nth s prices 0) (nth b prices 0)); simpl; [|ring].
  rewrite nth_set_nth by (rewrite set_nth_len; exact Ls). rewrite !nth_set_nth by exact Lb.
  replace (Nat.eqb b s) with false by (symmetry; apply Nat.eqb_neq; exact N).
  destruct (Nat.eqb b i) eqn:Eb, (Nat.eqb s i) eqn:Es; simpl.
  - apply Nat.eqb_eq in Eb, Es. congruence.
  - apply Nat.eqb_eq in Eb. subst. ring.
  - apply Nat.eqb_eq in Es. subst. ring.
  - ring.
Qed.
Lemma step_q_len prices q p : length (step_q prices q p) = length q.
Proof. destruct p as [b s]. unfold step_q, trade_pair. destruct (qleb _ _); simpl; rewrite ?set_nth_len; reflexivity. Qed.
Lemma after_len prices L : forall q, length (after prices q L) = length q.
Proof. induction L as [|p L IH]; intro q; [reflexivity|]. simpl. unfold after in *. simpl. rewrite IH. apply step_q_len. Qed.

Definition good_pair (n : nat) (p : nat * nat) : Prop := fst p <> snd p /\ (fst p < n)%nat /\ (snd p < n)%nat.

Lemma step_q_nonneg prices q p i : good_pair (length q) p -> (forall j, 0 <= get q j) -> 
  0 <= get (step_q prices q p) i /\ get (step_q prices q p) i <= get q i.
Proof.
  destruct p as [b s]. intros (N & Lb & Ls) H. simpl in *. rewrite step_q_get by assumption.
  pose proof (qmin_l (get q b) (get q s)). pose proof (qmin_r (get q b) (get q s)).
  pose proof (qmin_glb _ _ 0 (H b) (H s)). pose proof (H i).
  destruct (qleb _ _); [|split; qlra].
  destruct (Nat.eqb b i) eqn:Eb; simpl; [apply Nat.eqb_eq in Eb; subst; split; qlra|].
  destruct (Nat.eqb s i) eqn:Es; [apply Nat.eqb_eq in Es; subst; split; qlra|]. split; qlra.
Qed.
Lemma after_nonneg prices L : forall q, (forall p, In p L -> good_pair (length q) p) -> (forall j, 0 <= get q j) ->
  forall i, 0 <= get (after prices q L) i /\ get (after prices q L) i <= get q i.
Proof.
  induction L as [|p L IH]; intros q Hg H i; unfold after in *; simpl; [split; [apply H | qlra]|].
  assert (G : good_pair (length q) p) by (apply Hg; left; reflexivity).
  destruct (IH (step_q prices q p)) with (i := i) as [A B].
  - intros p' Hp'. rewrite step_q_len. apply Hg. right; exact Hp'.
  - intro j. apply (step_q_nonneg prices q p j G H).
  - destruct (step_q_nonneg prices q p i G H). split; qlra.
Qed.
(** a bid that is in no pair keeps its quantity *)
Lemma after_other prices L i : forall q, (forall p, In p L -> good_pair (length q) p) -> ~ In i (bids_of L) ->
  get (after prices q L) i = get q i.
Proof.
  induction L as [|[b s] L IH]; intros q Hg H; [reflexivity|]. unfold after in *. simpl in *.
  rewrite IH; [|intros p' Hp'; rewrite step_q_len; apply Hg; right; exact Hp' | tauto].
  destruct (Hg (b, s) (or_introl eq_refl)) as (N & Lb & Ls). simpl in *.
  rewrite step_q_get by assumption.
  replace (Nat.eqb b i) with false by (symmetry; apply Nat.eqb_neq; tauto).
  replace (Nat.eqb s i) with false by (symmetry; apply Nat.eqb_neq; tauto).
  simpl. destruct (qleb _ _); ring.
Qed.
Lemma after_app prices q L1 L2 : after prices q (L1 ++ L2) = after prices (after prices q L1) L2.
Proof. apply fold_left_app. Qed.

(** ** The whole run *)
Section Loop.
  Variables (d : df) (c : Qc) (r : nat -> nat).
  Hypothesis Hl : map lbl d = seq 0 (length d).
  Hypothesis Hq : qty_nonneg d.
  Let ps := all_pairs d.
  Let prices := map price d.
  Let q0 := map qty d.

  Lemma labels_ok : labels_unique d.
  Proof. unfold labels_unique. rewrite Hl. apply seq_NoDup. Qed.
  Lemma row_pos x : In x d -> nth_error d (lbl x) = Some x.
  Proof.
    intro H. apply In_nth_error in H. destruct H as (i & H). pose proof (map_nth_error lbl _ _ H) as H2. rewrite Hl in H2.
    assert (L : (i < length d)%nat) by (apply nth_error_Some; congruence).
    rewrite (nth_error_nth' _ 0%nat) in H2 by (rewrite seq_length; exact L). rewrite seq_nth in H2 by exact L.
    simpl in H2. injection H2 as <-. exact H.
  Qed.
  Lemma get_qty x : In x d -> get q0 (lbl x) = qty x.
  Proof.
    intro H. unfold get, q0. pose proof (map_nth_error qty _ _ (row_pos x H)) as E.
    apply nth_error_nth with (d := 0) in E. exact E.
  Qed.
  Lemma get_price x : In x d -> get prices (lbl x) = price x.
  Proof.
    intro H. unfold get, prices. pose proof (map_nth_error price _ _ (row_pos x H)) as E.
    apply nth_error_nth with (d := 0) in E. exact E.
  Qed.
  Lemma q0_nonneg i : 0 <= get q0 i.
  Proof.
    unfold get, q0. destruct (Nat.lt_ge_cases i (length d)) as [L|L].
    - assert (In (nth i (map qty d) 0) (map qty d)) by (apply nth_In; rewrite map_length; exact L).
      apply in_map_iff in H. destruct H as (x & <- & Hx). apply Hq, Hx.
    - rewrite nth_overflow by (rewrite map_length; exact L). qlra.
  Qed.

  Lemma pair_iff b s : In (b, s) ps <-> exists x y, In x d /\ In y d /\ buying x = true /\ buying y = false /\ lbl x = b /\ lbl y = s.
  Proof.
    unfold ps, all_pairs. rewrite in_flat_map. split.
    - intros (x & Hx & H). apply in_map_iff in H. destruct H as (y & E & Hy). injection E as <- <-.
      apply filter_In in Hx, Hy. destruct Hx as [? ?]. destruct Hy as [? Hy]. apply negb_true_iff in Hy. exists x, y. auto 10.
    - intros (x & y & H1 & H2 & H3 & H4 & <- & <-). exists x. split; [apply filter_In; auto|].
      apply in_map_iff. exists y. split; [reflexivity|]. apply filter_In. rewrite H4. auto.
  Qed.
  Lemma ps_NoDup : NoDup ps.
  Proof.
    unfold ps, all_pairs.
    assert (NB : NoDup (map lbl (buyers d))) by apply NoDup_filter_map, labels_ok.
    assert (NS : NoDup (map lbl (sellers d))) by apply NoDup_filter_map, labels_ok.
    induction (buyers d) as [|x l IH]; simpl; [constructor|]. simpl in NB. inversion_clear NB as [|? ? N1 N2].
    assert (D : forall l1 l2 : list (nat * nat), NoDup l1 -> NoDup l2 -> (forall z, In z l1 -> In z l2 -> False) -> NoDup (l1 ++ l2)).
    { induction 1 as [|a l1 Ha H1 IH1]; simpl; [auto|]. intros N D. constructor.
      - intro I. apply in_app_or in I. destruct I; [contradiction|]. apply (D a); simpl; auto.
      - apply IH1; auto. intros z ? ?. apply (D z); simpl; auto. }
    apply D; auto.
    - clear - NS. induction (sellers d) as [|y m IHm]; simpl in *; constructor; inversion_clear NS; auto.
      intro I. apply in_map_iff in I. destruct I as (z & E & Hz). injection E as E. apply H. rewrite <- E. apply in_map, Hz.
    - intros [b s] H1 H2. apply in_map_iff in H1. destruct H1 as (y & E & _). injection E as <- _.
      apply in_flat_map in H2. destruct H2 as (z & Hz & H2). apply in_map_iff in H2. destruct H2 as (w & E & _).
      injection E as E _. apply N1. rewrite <- E. apply in_map, Hz.
  Qed.
  Lemma pair_good p : In p ps -> good_pair (length d) p.
  Proof.
    destruct p as [b s]. intro H. apply pair_iff in H. destruct H as (x & y & H1 & H2 & H3 & H4 & <- & <-).
    assert (P : forall z, In z d -> (lbl z < length d)%nat) by (intros z Hz; apply nth_error_Some; rewrite row_pos by exact Hz; discriminate).
    split; [|split; simpl; apply P; assumption]. simpl. intro E. assert (x = y) by (apply (NoDup_map_in lbl d); auto; apply labels_ok). congruence.
  Qed.
  Lemma pair_ne p : In p ps -> fst p <> snd p.
  Proof. intro H. apply (pair_good p H). Qed.

  Lemma next_tmp_get q active i p : length active = length ps -> nth_error ps i = Some p ->
    bget (next_tmp d ps q active) i = bget active i && negb (qeqb (get q (fst p)) 0) && negb (qeqb (get q (snd p)) 0) /\
    length (next_tmp d ps q active) = length ps.
  Proof.
    intros La Hp. unfold next_tmp.
    assert (F : forall l a, length a = length ps ->
      length (fold_left (fun a i => mask_and a (pairs_row ps i)) l a) = length ps /\
      bget (fold_left (fun a i => mask_and a (pairs_row ps i)) l a) i = bget a i && forallb (fun b => negb (involves b p)) l).
    { induction l as [|b l IH]; intros a Ha; simpl; [rewrite andb_true_r; auto|].
      destruct (IH (mask_and a (pairs_row ps b))) as [I1 I2]; [rewrite mask_and_len; rewrite ?pairs_row_len; auto|].
      split; [exact I1|]. rewrite I2, bget_mask by (rewrite pairs_row_len; exact Ha).
      rewrite (bget_row ps b i p Hp). unfold involves. rewrite andb_assoc. reflexivity. }
    match goal with |- context [fold_left _ ?l active] => set (inact := l); destruct (F inact active La) as [F1 F2] end.
    split; [|exact F1]. rewrite F2, <- andb_assoc. f_equal.
    destruct p as [b s]. pose proof (nth_error_In _ _ Hp) as Hin. apply pair_iff in Hin.
    destruct Hin as (x & y & H1 & H2 & H3 & H4 & Eb & Es). simpl fst; simpl snd.
    assert (InB : forall z, In z inact <-> qeqb (get q z) 0 = true /\ exists w, In w d /\ lbl w = z).
    { intro z. unfold inact. rewrite in_app_iff, !filter_In, !in_map_iff. split.
      - intros [[(w & E & Hw) Hz]|[(w & E & Hw) Hz]]; (split; [exact Hz|]); exists w; apply filter_In in Hw; tauto.
      - intros [Hz (w & Hw & E)]. destruct (buying w) eqn:Ew; [left | right]; (split; [|exact Hz]); exists w; (split; [exact E|]);
        apply filter_In; rewrite Ew; auto. }
    destruct (qeqb (get q b) 0) eqn:Qb; simpl.
    - apply not_true_iff_false. intro Fb. rewrite forallb_forall in Fb. specialize (Fb b).
      rewrite InB in Fb. specialize (Fb (conj Qb (ex_intro _ x (conj H1 Eb)))). unfold involves in Fb. simpl in Fb.
      rewrite Nat.eqb_refl in Fb. discriminate.
    - destruct (qeqb (get q s) 0) eqn:Qs; simpl.
      + apply not_true_iff_false. intro Fb. rewrite forallb_forall in Fb. specialize (Fb s).
        rewrite InB in Fb. specialize (Fb (conj Qs (ex_intro _ y (conj H2 Es)))). unfold involves in Fb. simpl in Fb.
        rewrite Nat.eqb_refl, orb_true_r in Fb. discriminate.
      + apply forallb_forall. intros z Hz. apply InB in Hz. destruct Hz as [Hz _]. unfold involves. simpl.
        destruct (Nat.eqb b z) eqn:E1; [apply Nat.eqb_eq in E1; congruence|].
        destruct (Nat.eqb s z) eqn:E2; [apply Nat.eqb_eq in E2; congruence|]. reflexivity.
  Qed.

  (** what is known about the rounds played so far *)
  Record rounds_ok (gtl : list (list (nat * nat))) : Prop := {
    ro_pairs : forall p, In p (concat gtl) -> In p ps;
    ro_nodup : NoDup (concat gtl);
    ro_match : forall T, In T gtl -> T <> [] /\ NoDup (bids_of T);
    ro_pos : qty_pos d -> forall L1 b s L2, concat gtl = L1 ++ (b, s) :: L2 ->
       0 < get (after prices q0 L1) b /\ 0 < get (after prices q0 L1) s }.

  Definition final_ok (gtl : list (list (nat * nat))) : Prop :=
    forall b s, In (b, s) ps -> In (b, s) (concat gtl) \/
      get (after prices q0 (concat gtl)) b = 0 \/ get (after prices q0 (concat gtl)) s = 0.

  Lemma p2p_loop_spec fuel : forall k active tmp q tm gtl,
    length active = length ps -> length tmp = length ps -> (cnt active <= fuel)%nat ->
    rounds_ok gtl -> q = after prices q0 (concat gtl) ->
    tm = snd (fold_left (trade_pair c prices) (concat gtl) (q0, tm_init)) ->
    (forall i p, nth_error ps i = Some p -> (bget active i = true <-> ~ In p (concat gtl))) ->
    (forall i p, nth_error ps i = Some p -> bget tmp i = true ->
       bget active i = true /\ (qty_pos d -> 0 < get q (fst p) /\ 0 < get q (snd p))) ->
    (forall i p, nth_error ps i = Some p -> bget active i = true -> bget tmp i = false ->
       get q (fst p) = 0 \/ get q (snd p) = 0) ->
    exists gtl', p2p_loop fuel d ps c prices r k active tmp q tm gtl =
        Ok (snd (fold_left (trade_pair c prices) (concat gtl') (q0, tm_init)), gtl') /\
      rounds_ok gtl' /\ final_ok gtl'.
  Proof.
    induction fuel as [|fuel IH]; intros k active tmp q tm gtl La Lt Hc R Eq Etm Ha Ht Hz.
    - (* no active pair: the loop stops *)
      assert (N : existsb (fun b => b) tmp = false).
      { apply not_true_iff_false. intro H. apply existsb_bget in H. destruct H as (i & Hi).
        assert (L : (i < length ps)%nat) by (rewrite <- Lt; apply bget_len, Hi).
        destruct (nth_error ps i) as [p|] eqn:Ep; [|apply nth_error_None in Ep; lia].
        destruct (Ht i p Ep Hi) as [Hai _].
        assert (In true (filter (fun b => b) active)).
        { apply filter_In. split; [|reflexivity]. rewrite <- Hai. apply nth_In, bget_len, Hai. }
        unfold cnt in Hc. destruct (filter (fun b => b) active); [contradiction | simpl in Hc; lia]. }
      simpl. rewrite N, andb_false_r. exists gtl. split; [congruence|]. split; [exact R|].
      intros b s Hin. apply In_nth_error in Hin. destruct Hin as (i & Hi).
      destruct (bget active i) eqn:Ai.
      + right. destruct (bget tmp i) eqn:Ti; [|rewrite <- Eq; apply (Hz i (b, s) Hi Ai Ti)].
        exfalso. apply not_true_iff_false in N. apply N. apply existsb_bget. eauto.
      + left. destruct (in_dec (fun x y : nat * nat => ltac:(decide equality; apply Nat.eq_dec)) (b, s) (concat gtl)) as [I|I]; [exact I|].
        apply (Ha i (b, s) Hi) in I. congruence.
    - assert (Qn : forall i, 0 <= get q i).
      { intro i. rewrite Eq. apply (after_nonneg prices (concat gtl) q0); [|apply q0_nonneg].
        intros p Hp. unfold q0. rewrite map_length. apply pair_good, R, Hp. }
      cbn [p2p_loop]. destruct (qlt_spec 0 (qsum q)) as [S0|S0]; simpl andb.
      2:{ (* everything is traded *)
        exists gtl. split; [congruence|]. split; [exact R|].
        intros b s Hin. right. left. rewrite <- Eq. unfold get.
        destruct (Nat.lt_ge_cases b (length q)) as [L|L]; [|apply nth_overflow; exact L].
        assert (I : In (nth b q 0) q) by (apply nth_In; exact L).
        assert (P : forall x, In x q -> 0 <= x).
        { intros x Hx. apply In_nth with (d := 0) in Hx. destruct Hx as (j & _ & <-). apply Qn. }
        assert (Hs : nth b q 0 <= qsum q).
        { pose proof (qsumf_in_le (fun x => x) q (nth b q 0) P I) as H. unfold qsumf in H. rewrite map_id in H. exact H. }
        specialize (Qn b). unfold get in Qn. qlra. }
      destruct (existsb (fun b => b) tmp) eqn:Ex.
      2:{ exists gtl. split; [congruence|]. split; [exact R|].
        intros b s Hin. apply In_nth_error in Hin. destruct Hin as (i & Hi).
        destruct (bget active i) eqn:Ai.
        - right. destruct (bget tmp i) eqn:Ti; [|rewrite <- Eq; apply (Hz i (b, s) Hi Ai Ti)].
          exfalso. apply not_true_iff_false in Ex. apply Ex. apply existsb_bget. eauto.
        - left. destruct (in_dec (fun x y : nat * nat => ltac:(decide equality; apply Nat.eq_dec)) (b, s) (concat gtl)) as [I|I]; [exact I|].
          apply (Ha i (b, s) Hi) in I. congruence. }
      destruct (pick_round_spec ps ps_NoDup pair_ne r (length ps) k active tmp [] La Lt) as
        (T & active' & k' & Ek & A1 & A2 & A3 & A4 & A5 & _).
      { rewrite <- Lt. apply cnt_le. }
      simpl app in Ek. rewrite Ek. cbn [bind].
      destruct (fold_left (trade_pair c prices) T (q, tm)) as [q' tm'] eqn:Ef.
      assert (Ec : concat (gtl ++ [T]) = concat gtl ++ T) by (rewrite concat_app; simpl; rewrite app_nil_r; reflexivity).
      assert (Efst : fold_left (trade_pair c prices) (concat gtl) (q0, tm_init) = (q, tm)).
      { rewrite (surjective_pairing (fold_left _ _ _)). rewrite fold_trade_fst. congruence. }
      assert (Eq' : q' = after prices q0 (concat (gtl ++ [T]))).
      { rewrite Ec, after_app, <- Eq, <- (fold_trade_fst c prices T q tm), Ef. reflexivity. }
      assert (Etm' : tm' = snd (fold_left (trade_pair c prices) (concat (gtl ++ [T])) (q0, tm_init))).
      { rewrite Ec, fold_left_app, Efst, Ef. reflexivity. }
      assert (TP : forall p, In p T -> In p ps /\ ~ In p (concat gtl) /\ (qty_pos d -> 0 < get q (fst p) /\ 0 < get q (snd p))).
      { intros p Hp. destruct (A2 p Hp) as (x & Hx & Hxt). destruct (Ht x p Hx Hxt) as [H1 H2].
        split; [eapply nth_error_In; eauto|]. split; [apply (Ha x p Hx), H1 | exact H2]. }
      assert (NT : NoDup T).
      { clear - A3. induction T as [|p T IHT]; [constructor|]. simpl in A3. inversion_clear A3 as [|? ? N1 N2]. inversion_clear N2 as [|? ? N3 N4].
        constructor; [|auto]. intro I. apply N1. right. unfold bids_of. apply in_flat_map. exists p. simpl; auto. }
      assert (R' : rounds_ok (gtl ++ [T])).
      { constructor.
        - intros p. rewrite Ec, in_app_iff. intros [H|H]; [apply R, H | apply TP, H].
        - rewrite Ec. clear - NT TP R. pose proof (ro_nodup _ R) as N.
          revert N TP. generalize (concat gtl). intros l N TP.
          induction l as [|a l IHl]; simpl; [exact NT|]. inversion_clear N as [|? ? N1 N2]. constructor.
          + intro I. apply in_app_or in I. destruct I as [I|I]; [contradiction|]. apply (TP a I). left; reflexivity.
          + apply IHl; auto. intros p Hp. destruct (TP p Hp) as (B1 & B2 & B3). repeat split; auto; try (apply B3; assumption).
            intro I. apply B2. right; exact I.
        - intros T' H. apply in_app_or in H. destruct H as [H|[<-|[]]]; [apply (ro_match _ R T' H)|].
          split; [|exact A3]. apply A5. apply existsb_bget. exact Ex.
        - intros Hpos L1 b s L2. rewrite Ec. intro E.
          assert (Sp : (exists M, concat gtl = L1 ++ (b, s) :: M) \/ (exists T1 T2, L1 = concat gtl ++ T1 /\ T = T1 ++ (b, s) :: T2)).
          { clear - E. revert L1 E. generalize (concat gtl). induction l as [|a l IHl]; intros [|x L1] E; simpl in *.
            - right. exists [], L2. auto.
            - right. exists (x :: L1), L2. auto.
            - left. injection E as -> E. exists l. reflexivity.
            - injection E as -> E. destruct (IHl L1 E) as [(M & ->)|(T1 & T2 & -> & ->)]; [left; exists M; reflexivity|].
              right. exists T1, T2. auto. }
          destruct Sp as [(M & EM)|(T1 & T2 & -> & ET)]; [exact (ro_pos _ R Hpos L1 b s M EM)|].
          rewrite after_app, <- Eq.
          destruct (TP (b, s)) as (_ & _ & P); [rewrite ET; apply in_or_app; right; left; reflexivity|].
          specialize (P Hpos). simpl in P.
          assert (G1 : forall p, In p T1 -> good_pair (length q) p).
          { intros p Hp. rewrite Eq, after_len. unfold q0. rewrite map_length. apply pair_good. apply TP. rewrite ET. apply in_or_app; left; exact Hp. }
          assert (Nb : ~ In b (bids_of T1) /\ ~ In s (bids_of T1)).
          { rewrite ET in A3. unfold bids_of in A3. rewrite flat_map_app in A3. simpl in A3.
            pose proof (NoDup_remove_2 _ _ _ A3) as N1. pose proof (NoDup_remove_1 _ _ _ A3) as N2.
            pose proof (NoDup_remove_2 _ _ _ N2) as N3. split; intro I; [apply N1 | apply N3]; apply in_or_app; left; exact I. }
          rewrite !after_other by tauto. exact P. }
      assert (Ha' : forall i p, nth_error ps i = Some p -> (bget active' i = true <-> ~ In p (concat (gtl ++ [T])))).
      { intros i p Hi. rewrite (A4 i p Hi), (Ha i p Hi), Ec, in_app_iff. tauto. }
      assert (Sub : forall i, bget active' i = true -> bget active i = true).
      { intros i Hi. assert (L : (i < length ps)%nat) by (rewrite <- A1; apply bget_len, Hi).
        destruct (nth_error ps i) as [p|] eqn:Ep; [|apply nth_error_None in Ep; lia]. apply (A4 i p Ep) in Hi. tauto. }
      assert (Hc' : (cnt active' <= fuel)%nat).
      { assert (NE : T <> []) by (apply A5, existsb_bget, Ex). destruct T as [|p0 T0]; [congruence|].
        destruct (A2 p0 (or_introl eq_refl)) as (x & Hx & Hxt). destruct (Ht x p0 Hx Hxt) as [Hxa _].
        assert (Hxf : bget active' x = false).
        { apply not_true_iff_false. intro H. apply (A4 x p0 Hx) in H. destruct H as [_ H]. apply H. left; reflexivity. }
        pose proof (cnt_lt active active' x ltac:(lia) Sub Hxa Hxf). lia. }
      assert (Qn' : forall i, 0 <= get q' i).
      { intro i. rewrite Eq'. apply (after_nonneg prices _ q0); [|apply q0_nonneg].
        intros p Hp. unfold q0. rewrite map_length. apply pair_good, R', Hp. }
      assert (Lnt : length (next_tmp d ps q' active') = length ps).
      { destruct (nth_error ps 0) as [p|] eqn:Ep.
        - apply (next_tmp_get q' active' 0%nat p A1 Ep).
        - unfold next_tmp. apply nth_error_None in Ep.
          assert (Fl : forall l a, length a = length ps -> length (fold_left (fun a i => mask_and a (pairs_row ps i)) l a) = length ps).
          { induction l as [|x l IHl]; intros a H; simpl; [exact H|]. apply IHl. rewrite mask_and_len; rewrite ?pairs_row_len; auto. }
          apply Fl, A1. }
      apply (IH k' active' (next_tmp d ps q' active') q' tm' (gtl ++ [T])); auto.
      + intros i p Hi Htmp. destruct (next_tmp_get q' active' i p A1 Hi) as [E1 _]. rewrite E1 in Htmp.
        apply andb_true_iff in Htmp. destruct Htmp as [Htmp T3]. apply andb_true_iff in Htmp. destruct Htmp as [T1 T2].
        split; [exact T1|]. intros _. apply negb_true_iff in T2, T3. apply qeqb_neq in T2, T3.
        pose proof (Qn' (fst p)). pose proof (Qn' (snd p)). split.
        * destruct (Qclt_le_dec 0 (get q' (fst p))); [assumption|]. exfalso. apply T2. qlra.
        * destruct (Qclt_le_dec 0 (get q' (snd p))); [assumption|]. exfalso. apply T3. qlra.
      + intros i p Hi Hact Htmp. destruct (next_tmp_get q' active' i p A1 Hi) as [E1 _]. rewrite E1, Hact in Htmp. simpl in Htmp.
        destruct (qeqb (get q' (fst p)) 0) eqn:Q1; [left; apply qeqb_eq, Q1|]. simpl in Htmp.
        apply negb_false_iff in Htmp. right. apply qeqb_eq, Htmp.
  Qed.

  Theorem p2p_run : exists gtl, p2p_random d c r =
      Ok (snd (fold_left (trade_pair c prices) (concat gtl) (q0, tm_init)), XP2P gtl) /\
      rounds_ok gtl /\ final_ok gtl.
  Proof.
    unfold p2p_random. fold ps prices q0.
    assert (Fb : forallb (fun p => Nat.ltb (fst p) (length d) && Nat.ltb (snd p) (length d)) ps = true).
    { apply forallb_forall. intros p Hp. destruct (pair_good p Hp) as (_ & L1 & L2).
      apply andb_true_iff. split; apply Nat.ltb_lt; assumption. }
    rewrite Fb.
    assert (Gt : forall i, (i < length ps)%nat -> bget (repeat true (length ps)) i = true).
    { intros i Hi. unfold bget. assert (In (nth i (repeat true (length ps)) false) (repeat true (length ps))) by (apply nth_In; rewrite repeat_length; exact Hi).
      apply repeat_spec in H. exact H. }
    destruct (p2p_loop_spec (length ps) 0%nat (repeat true (length ps)) (repeat true (length ps)) q0 tm_init []) as (gtl & E & R & F).
    - apply repeat_length.
    - apply repeat_length.
    - etransitivity; [apply cnt_le|]. rewrite repeat_length. lia.
    - constructor; simpl; try contradiction; [constructor|]. intros _ L1 b s L2 H. destruct L1; discriminate.
    - reflexivity.
    - reflexivity.
    - intros i p Hi. simpl. split; [auto|]. intros _. apply Gt. apply nth_error_Some. congruence.
    - intros i p Hi _. split; [apply Gt; apply nth_error_Some; congruence|]. intro Hpos.
      destruct p as [b s]. apply nth_error_In in Hi. apply pair_iff in Hi.
      destruct Hi as (x & y & H1 & H2 & _ & _ & <- & <-). simpl. rewrite !get_qty by assumption. split; apply Hpos; assumption.
    - intros i p Hi _ H. rewrite Gt in H; [discriminate|]. apply nth_error_Some. congruence.
    - rewrite E. cbn [bind]. exists gtl. auto.
  Qed.
End Loop.
