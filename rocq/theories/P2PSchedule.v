(** Facts about [p2p_random], part 3: its results are exactly the stopped schedules of SpecP2P.v. *)
From Verif Require Import QcTac Num ModelBase ModelHuang ModelP2P ListFacts StoreFacts Spec SpecTrade SpecAlloc TradeFacts P2PFacts P2PTrades SpecP2P.

(** ** Every legal round can be drawn *)
Section Reach.
  Variable ps : list (nat * nat).
  Hypothesis Hnd : NoDup ps.
  Hypothesis Hne : forall p, In p ps -> fst p <> snd p.

  Lemma pick_reach T : forall fuel active tmp tr,
    length active = length ps -> length tmp = length ps -> (cnt tmp <= fuel)%nat ->
    (forall p, In p T -> exists x, nth_error ps x = Some p /\ bget tmp x = true) ->
    NoDup (bids_of T) ->
    (forall i p, nth_error ps i = Some p -> bget tmp i = true ->
       exists q, In q T /\ (involves (fst q) p = true \/ involves (snd q) p = true)) ->
    exists ds, length ds = length T /\ forall r k, (forall i, (i < length ds)%nat -> r (k + i)%nat = nth i ds 0%nat) ->
      exists active', pick_round fuel ps r k active tmp tr = Ok (tr ++ T, active', (k + length ds)%nat).
  Proof.
    induction T as [|[b s] T IH]; intros fuel active tmp tr La Lt Hc HT Hd Hm.
    - exists []. split; [reflexivity|]. intros r k _. exists active.
      assert (E : where_true tmp = []).
      { destruct (where_true tmp) as [|x w] eqn:E; [reflexivity|]. exfalso.
        assert (Hx : bget tmp x = true) by (apply where_true_In; rewrite E; left; reflexivity).
        assert (L : (x < length ps)%nat) by (rewrite <- Lt; apply bget_len, Hx).
        destruct (nth_error ps x) as [p|] eqn:Ep; [|apply nth_error_None in Ep; lia].
        destruct (Hm x p Ep Hx) as (q & [] & _). }
      destruct fuel; simpl; rewrite E, app_nil_r, Nat.add_0_r; reflexivity.
    - destruct (HT (b, s) (or_introl eq_refl)) as (x & Ex & Hx).
      assert (Hw : In x (where_true tmp)) by (apply where_true_In, Hx).
      destruct (In_nth _ _ 0%nat Hw) as (j & Lj & Ej).
      set (tmp' := mask_and (mask_and tmp (pairs_row ps b)) (pairs_row ps s)).
      assert (Lm : length (mask_and tmp (pairs_row ps b)) = length ps) by (rewrite mask_and_len; rewrite ?pairs_row_len; auto).
      assert (Lt' : length tmp' = length ps) by (unfold tmp'; rewrite mask_and_len; rewrite ?pairs_row_len; auto).
      assert (Bt : forall i p, nth_error ps i = Some p -> bget tmp' i = bget tmp i && negb (involves b p) && negb (involves s p)).
      { intros i p Hi. unfold tmp'. rewrite bget_mask by (rewrite pairs_row_len; exact Lm).
        rewrite bget_mask by (rewrite pairs_row_len; exact Lt). rewrite !(bget_row ps _ i p Hi). reflexivity. }
      assert (Sub : forall i, bget tmp' i = true -> bget tmp i = true).
      { intros i Hi. assert (L : (i < length ps)%nat) by (rewrite <- Lt'; apply bget_len, Hi).
        destruct (nth_error ps i) as [p|] eqn:Ep; [|apply nth_error_None in Ep; lia].
        rewrite (Bt i p Ep) in Hi. apply andb_true_iff in Hi. destruct Hi as [Hi _]. apply andb_true_iff in Hi. tauto. }
      assert (Out : bget tmp' x = false).
      { rewrite (Bt x _ Ex). unfold involves. simpl. rewrite Nat.eqb_refl. simpl. rewrite andb_false_r. reflexivity. }
      pose proof (cnt_lt tmp tmp' x ltac:(lia) Sub Hx Out) as Hlt.
      destruct fuel as [|fuel]; [lia|].
      assert (Lx : (x < length active)%nat) by (rewrite La, <- Lt; apply bget_len, Hx).
      simpl in Hd. inversion_clear Hd as [|? ? N1 N2]. inversion_clear N2 as [|? ? N3 N4].
      destruct (IH fuel (set_nth x false active) tmp' (tr ++ [(b, s)])) as (ds & Ld & Hds).
      { rewrite set_nth_len; exact La. } { exact Lt'. } { lia. }
      { intros p Hp. destruct (HT p (or_intror Hp)) as (y & Ey & Hy). exists y. split; [exact Ey|].
        rewrite (Bt y p Ey), Hy. simpl.
        assert (I : forall z, ~ In z (bids_of T) -> involves z p = false).
        { intros z Hz. unfold involves. apply orb_false_iff. split; apply Nat.eqb_neq; intros <-; apply Hz;
          unfold bids_of; apply in_flat_map; exists p; simpl; auto. }
        rewrite (I b), (I s); [reflexivity | exact N3|]. intro H. apply N1. right. exact H. }
      { exact N4. }
      { intros i p Hi Ht. rewrite (Bt i p Hi) in Ht. apply andb_true_iff in Ht. destruct Ht as [Ht Ns].
        apply andb_true_iff in Ht. destruct Ht as [Ht Nb]. apply negb_true_iff in Nb, Ns.
        destruct (Hm i p Hi Ht) as (q & [<-|Hq] & D); [simpl in D; destruct D; congruence|]. exists q. auto. }
      exists (j :: ds). split; [simpl; congruence|]. intros r k Hr.
      destruct (Hds r (Datatypes.S k)) as (active' & Ep).
      { intros i Hi. replace (Datatypes.S k + i)%nat with (k + Datatypes.S i)%nat by lia. apply (Hr (Datatypes.S i)). simpl. lia. }
      exists active'. simpl.
      assert (Ec : choose r k (where_true tmp) = x).
      { unfold choose. specialize (Hr 0%nat). rewrite Nat.add_0_r in Hr. rewrite Hr by (simpl; lia). cbn [nth].
        rewrite Nat.mod_small by exact Lj. exact Ej. }
      destruct (where_true tmp) as [|x0 w] eqn:Ew; [contradiction|]. rewrite Ec, Ex. cbn [fst snd]. fold tmp'.
      rewrite Ep, <- app_assoc, Nat.add_succ_r. reflexivity.
  Qed.
End Reach.

Section Sched.
  Variables (d : df) (c : Qc).
  Hypothesis Hl : map lbl d = seq 0 (length d).
  Hypothesis Hq : qty_nonneg d.
  Let ps := all_pairs d.
  Let prices := map price d.
  Let q0 := map qty d.
  Let tr L := trades c prices q0 L.
  Let aft L := after prices q0 L.

  Lemma good_list L : (forall p, In p L -> In p ps) -> forall p, In p L -> good_pair (length q0) p.
  Proof. intros H p Hp. unfold q0. rewrite map_length. apply pair_good; [exact Hl|]. apply H, Hp. Qed.
  Lemma rest_get L x : (forall p, In p L -> In p ps) -> In x d -> rest x (tr L) = get (aft L) (lbl x).
  Proof.
    intros H Hx. unfold rest, tr. rewrite trades_by by (apply good_list, H). unfold q0 at 1. rewrite (get_qty d Hl x Hx). fold (aft L). ring.
  Qed.
  Lemma row_of x y : In x d -> In y d -> lbl x = lbl y -> x = y.
  Proof. intros. apply (NoDup_map_in lbl d); auto. apply labels_ok, Hl. Qed.

  (** *** meetings *)
  Lemma deal_eq L x y : (forall p, In p L -> In p ps) -> In x d -> In y d ->
    deal c x y (tr L) = trades c prices (aft L) [(lbl x, lbl y)].
  Proof.
    intros H Hx Hy. unfold deal. cbn [trades]. unfold tr_b, tr_s, meet_q, meet_p, left_over.
    pose proof (get_price d Hl x Hx) as Px. pose proof (get_price d Hl y Hy) as Py. fold prices in Px, Py. rewrite Px, Py.
    rewrite !rest_get by assumption. destruct (qleb (price y) (price x)); [|reflexivity].
    assert (E : forall a b, qltb a b = qltb 0 (b - a)).
    { intros a b. destruct (qlt_spec a b), (qlt_spec 0 (b - a)); try reflexivity; exfalso; qlra. }
    cbv zeta. rewrite (E _ (get (aft L) (lbl x))), (E _ (get (aft L) (lbl y))). reflexivity.
  Qed.
  Lemma deals_iff L : forall L0 tl', (forall p, In p L0 -> In p ps) ->
    (Deals d c (tr L0) L tl' <-> (forall p, In p L -> In p ps) /\ tl' = tr (L0 ++ L)).
  Proof.
    induction L as [|p L IH]; intros L0 tl' H0; split.
    - intro H. inversion H; subst. rewrite app_nil_r. split; [contradiction | reflexivity].
    - intros [_ ->]. rewrite app_nil_r. constructor.
    - intro H. inversion H as [|tl x y L' tl2 Hx Hy Bx By HD]; subst.
      assert (Ip : In (lbl x, lbl y) ps) by (apply pair_iff; exists x, y; auto 10).
      assert (H1 : forall p, In p (L0 ++ [(lbl x, lbl y)]) -> In p ps)
        by (intros p Hp; apply in_app_or in Hp; destruct Hp as [Hp|[<-|[]]]; auto).
      rewrite deal_eq in HD by assumption. unfold tr, aft in HD. rewrite <- trades_app in HD. fold (tr (L0 ++ [(lbl x, lbl y)])) in HD.
      apply IH in HD; [|exact H1]. destruct HD as [A B]. rewrite <- app_assoc in B. split; [|exact B].
      intros p [<-|Hp]; auto.
    - intros [HL ->]. destruct p as [b s]. pose proof (HL _ (or_introl eq_refl)) as Ip.
      pose proof (proj1 (pair_iff d b s) Ip) as (x & y & Hx & Hy & Bx & By & <- & <-). constructor; try assumption.
      assert (H1 : forall p, In p (L0 ++ [(lbl x, lbl y)]) -> In p ps)
        by (intros p Hp; apply in_app_or in Hp; destruct Hp as [Hp|[<-|[]]]; auto).
      rewrite deal_eq by assumption. unfold tr, aft. rewrite <- trades_app. fold (tr (L0 ++ [(lbl x, lbl y)])).
      apply IH; [exact H1|]. split; [intros p Hp; apply HL; right; exact Hp|]. rewrite <- app_assoc. reflexivity.
  Qed.

  (** *** who may meet *)
  Definition elig (L : list (nat * nat)) (p : nat * nat) : Prop :=
    In p ps /\ ~ In p L /\ (L = [] \/ get (aft L) (fst p) <> 0 /\ get (aft L) (snd p) <> 0).
  Lemma may_iff L p : (forall p, In p L -> In p ps) -> (may_meet d L (tr L) p <-> elig L p).
  Proof.
    intro H. unfold may_meet, elig. split.
    - intros (x & y & Hx & Hy & Bx & By & -> & N & D). split; [apply pair_iff; exists x, y; auto 10|]. split; [exact N|].
      rewrite !rest_get in D by assumption. exact D.
    - destruct p as [b s]. intros (Ip & N & D). apply pair_iff in Ip. destruct Ip as (x & y & Hx & Hy & Bx & By & <- & <-).
      exists x, y. rewrite !rest_get by assumption. auto 10.
  Qed.

  (** *** a schedule is its list of rounds *)
  Definition legal (gtl : list (list (nat * nat))) : Prop :=
    forall g1 T g2, gtl = g1 ++ T :: g2 ->
      (forall p, In p (concat g1) -> In p ps) /\ (exists x, In x d /\ 0 < rest x (tr (concat g1))) /\
      Round d (concat g1) (tr (concat g1)) T.
  Lemma legal_nil : legal [].
  Proof. intros g1 T g2 E. destruct g1; discriminate. Qed.
  Lemma legal_in gtl : legal gtl -> forall p, In p (concat gtl) -> In p ps.
  Proof.
    intros H p Hp. apply in_concat in Hp. destruct Hp as (T & HT & Hp). apply in_split in HT. destruct HT as (g1 & g2 & E).
    destruct (H g1 T g2 E) as (H1 & _ & R). apply (rd_allowed _ _ _ _ R) in Hp. apply may_iff in Hp; [apply Hp | exact H1].
  Qed.
  Lemma concat_snoc {A} (g : list (list A)) T : concat (g ++ [T]) = concat g ++ T.
  Proof. rewrite concat_app. simpl. rewrite app_nil_r. reflexivity. Qed.
  Lemma snoc_split {A} (g : list A) (T : A) g1 T' g2 : g ++ [T] = g1 ++ T' :: g2 ->
    (g2 = [] /\ g1 = g /\ T' = T) \/ exists g3, g2 = g3 ++ [T] /\ g = g1 ++ T' :: g3.
  Proof.
    intro E. destruct g2 as [|a g2 _] using rev_ind.
    - apply app_inj_tail in E. destruct E as [-> ->]. left. auto.
    - right. exists g2. rewrite app_comm_cons, app_assoc in E. apply app_inj_tail in E. destruct E as [-> ->]. auto.
  Qed.
  Lemma legal_snoc gtl T : legal gtl -> (exists x, In x d /\ 0 < rest x (tr (concat gtl))) ->
    Round d (concat gtl) (tr (concat gtl)) T -> legal (gtl ++ [T]).
  Proof.
    intros H P R g1 T' g2 E. apply snoc_split in E. destruct E as [(-> & -> & ->)|(g3 & -> & ->)].
    - split; [apply legal_in, H | auto].
    - apply (H g1 T' g3 eq_refl).
  Qed.
  Lemma legal_prefix gtl g : legal (gtl ++ g) -> legal gtl.
  Proof. intros H g1 T g2 ->. apply (H g1 T (g2 ++ g)). rewrite <- app_assoc. reflexivity. Qed.
  Lemma schedule_iff gtl : forall tl, Schedule d c gtl tl <-> legal gtl /\ tl = tr (concat gtl).
  Proof.
    induction gtl as [|T gtl IH] using rev_ind; intro tl; split.
    - intro H. inversion H as [|g ? ? ? ? ? ? ? E]; subst; [|destruct g; discriminate]. split; [apply legal_nil | reflexivity].
    - intros [_ ->]. constructor.
    - intro H. inversion H as [E|g tl0 T0 tl' HS HP HR HD E E2]; subst; [destruct gtl; discriminate|].
      apply app_inj_tail in E. destruct E as [-> ->]. apply IH in HS. destruct HS as [HL ->].
      assert (HL' : legal (gtl ++ [T])) by (apply legal_snoc; assumption).
      split; [exact HL'|]. apply deals_iff in HD; [|apply legal_in, HL]. rewrite concat_snoc. apply HD.
    - intros [HL ->]. pose proof (legal_prefix _ _ HL) as HL0. destruct (HL gtl T [] eq_refl) as (H1 & H2 & H3).
      apply Sch_round with (tl := tr (concat gtl)).
      + apply IH. auto.
      + exact H2.
      + exact H3.
      + apply deals_iff; [exact H1|]. rewrite concat_snoc. split; [|reflexivity].
        intros p Hp. apply (legal_in _ HL). rewrite concat_snoc. apply in_or_app; right; exact Hp.
  Qed.

  (** *** the loop keeps the masks in step with the schedule *)
  Definition inv (gtl : list (list (nat * nat))) (active tmp : list bool) : Prop :=
    length active = length ps /\ length tmp = length ps /\
    forall i p, nth_error ps i = Some p ->
      (bget active i = true <-> ~ In p (concat gtl)) /\ (bget tmp i = true <-> elig (concat gtl) p).

  Lemma positive_iff gtl : legal gtl ->
    (qltb 0 (qsum (aft (concat gtl))) = true <-> exists x, In x d /\ 0 < rest x (tr (concat gtl))).
  Proof.
    intro H. pose proof (legal_in _ H) as HI.
    assert (N : forall i, 0 <= get (aft (concat gtl)) i).
    { intro i. apply after_nonneg; [apply good_list, HI | apply q0_nonneg, Hq]. }
    assert (G : forall l, (forall i, 0 <= get l i) -> 0 <= qsum l /\ (0 < qsum l <-> exists i, (i < length l)%nat /\ 0 < get l i)).
    { induction l as [|a l IH]; intro Hn.
      - unfold qsum; cbn [fold_right]. split; [qlra|]. split; [intro A; exfalso; qlra | intros (i & L & _); simpl in L; lia].
      - destruct IH as [I1 I2]; [intro i; apply (Hn (Datatypes.S i))|]. pose proof (Hn 0%nat) as H0. unfold get in H0. simpl in H0.
        change (qsum (a :: l)) with (a + qsum l). split; [qlra|]. split.
        + intro A. destruct (Qclt_le_dec 0 a) as [P|P]; [exists 0%nat; split; [simpl; lia | exact P]|].
          destruct (proj1 I2) as (i & L & P2); [qlra|]. exists (Datatypes.S i). split; [simpl; lia | exact P2].
        + intros (i & L & P). destruct i as [|i]; [unfold get in P; simpl in P; qlra|].
          assert (0 < qsum l) by (apply I2; exists i; split; [simpl in L; lia | exact P]). qlra. }
    destruct (G _ N) as [_ G2].
    assert (El : length (aft (concat gtl)) = length d) by (unfold aft; rewrite after_len; apply map_length).
    rewrite El in G2. split; [intro A; apply (proj1 (qltb_lt _ _)) in A; apply G2 in A; revert A | intro A; apply (proj2 (qltb_lt _ _)); apply G2; revert A].
    - intros (i & L & P). destruct (nth_error d i) as [x|] eqn:Ex; [|apply nth_error_None in Ex; lia].
      exists x. pose proof (nth_error_In _ _ Ex) as Hx. split; [exact Hx|]. rewrite rest_get by assumption.
      assert (lbl x = i).
      { pose proof (map_nth_error lbl _ _ Ex) as E2. rewrite Hl in E2. rewrite (nth_error_nth' _ 0%nat) in E2 by (rewrite seq_length; exact L).
        rewrite seq_nth in E2 by exact L. simpl in E2. congruence. }
      subst i. exact P.
    - intros (x & Hx & P). rewrite rest_get in P by assumption. exists (lbl x). split; [|exact P].
      apply nth_error_Some. rewrite (row_pos d Hl x Hx). discriminate.
  Qed.

  Lemma exists_iff gtl active tmp : inv gtl active tmp ->
    (existsb (fun b => b) tmp = true <-> exists p, elig (concat gtl) p).
  Proof.
    intros (La & Lt & H). rewrite existsb_bget. split.
    - intros (i & Hi). assert (L : (i < length ps)%nat) by (rewrite <- Lt; apply bget_len, Hi).
      destruct (nth_error ps i) as [p|] eqn:Ep; [|apply nth_error_None in Ep; lia]. exists p. apply (H i p Ep), Hi.
    - intros (p & Hp). destruct (In_nth_error _ _ (proj1 Hp)) as (i & Ei). exists i. apply (H i p Ei), Hp.
  Qed.
  Lemma share_iff p q : In p ps -> In q ps ->
    (involves (fst q) p = true \/ involves (snd q) p = true) <-> (fst q = fst p \/ snd q = snd p).
  Proof.
    destruct p as [b s], q as [b' s']. intros Hp Hq'.
    apply pair_iff in Hp, Hq'. destruct Hp as (x & y & Hx & Hy & Bx & By & <- & <-).
    destruct Hq' as (x' & y' & Hx' & Hy' & Bx' & By' & <- & <-). unfold involves. cbn [fst snd].
    rewrite !orb_true_iff, !Nat.eqb_eq. split; [|intuition].
    intros [[A|A]|[A|A]]; try (symmetry in A; tauto); apply row_of in A; try assumption; subst; congruence.
  Qed.
  Lemma stop_iff gtl active tmp : legal gtl -> inv gtl active tmp ->
    (qltb 0 (qsum (aft (concat gtl))) && existsb (fun b => b) tmp = false <-> Stopped d gtl (tr (concat gtl))).
  Proof.
    intros HL HI. pose proof (legal_in _ HL) as Hin. rewrite andb_false_iff. unfold Stopped.
    assert (P : qltb 0 (qsum (aft (concat gtl))) = false <-> forall x, In x d -> rest x (tr (concat gtl)) = 0).
    { rewrite <- not_true_iff_false, (positive_iff gtl HL). split.
      - intros N x Hx. rewrite rest_get by assumption.
        destruct (after_nonneg prices (concat gtl) q0 (good_list _ Hin) (q0_nonneg d Hq) (lbl x)) as [G _]. fold (aft (concat gtl)) in G.
        destruct (Qclt_le_dec 0 (get (aft (concat gtl)) (lbl x))) as [L|L]; [|qlra].
        exfalso. apply N. exists x. rewrite rest_get by assumption. auto.
      - intros H (x & Hx & L). rewrite (H x Hx) in L. qlra. }
    rewrite P. rewrite <- (not_true_iff_false (existsb _ _)), (exists_iff _ _ _ HI). split; (intros [A|A]; [left; exact A | right]).
    - intros p Hp. apply A. exists p. apply may_iff; assumption.
    - intros (p & Hp). apply (A p). apply may_iff; assumption.
  Qed.
  (** the picks of one iteration are a round *)
  Lemma round_iff gtl active tmp T : legal gtl -> inv gtl active tmp -> (exists p, elig (concat gtl) p) ->
    (Round d (concat gtl) (tr (concat gtl)) T <->
     (forall p, In p T -> exists x, nth_error ps x = Some p /\ bget tmp x = true) /\ NoDup (bids_of T) /\
     (forall i p, nth_error ps i = Some p -> bget tmp i = true ->
        exists q, In q T /\ (involves (fst q) p = true \/ involves (snd q) p = true))).
  Proof.
    intros HL (La & Lt & H) Ex. pose proof (legal_in _ HL) as HI. split.
    - intros [R1 R2 R3 R4]. assert (R3' : forall p, In p T -> elig (concat gtl) p) by (intros p Hp; apply may_iff; auto).
      split; [|split; [exact R2|]].
      + intros p Hp. destruct (In_nth_error _ _ (proj1 (R3' p Hp))) as (i & Ei). exists i. split; [exact Ei|]. apply (H i p Ei), R3', Hp.
      + intros i p Ei Ht. apply (H i p Ei) in Ht. destruct (R4 p) as (q & Hq1 & Hq2); [apply may_iff; assumption|].
        exists q. split; [exact Hq1|]. apply share_iff; [apply Ht | apply R3', Hq1 | exact Hq2].
    - intros (A1 & A2 & A3).
      assert (R3' : forall p, In p T -> elig (concat gtl) p) by (intros p Hp; destruct (A1 p Hp) as (i & Ei & Ht); apply (H i p Ei), Ht).
      assert (R4' : forall p, elig (concat gtl) p -> exists q, In q T /\ (fst q = fst p \/ snd q = snd p)).
      { intros p Hp. destruct (In_nth_error _ _ (proj1 Hp)) as (i & Ei). destruct (A3 i p Ei) as (q & Hq1 & Hq2); [apply (H i p Ei), Hp|].
        exists q. split; [exact Hq1|]. apply share_iff; [apply Hp | apply R3', Hq1 | exact Hq2]. }
      constructor.
      + destruct Ex as (p & Hp). destruct (R4' p Hp) as (q & Hq1 & _). intros ->. contradiction.
      + exact A2.
      + intros p Hp. apply may_iff; auto.
      + intros p Hp. apply R4'. apply may_iff; auto.
  Qed.
  Lemma inv_step gtl active tmp T active' : legal (gtl ++ [T]) -> inv gtl active tmp -> T <> [] ->
    length active' = length ps ->
    (forall i p, nth_error ps i = Some p -> (bget active' i = true <-> bget active i = true /\ ~ In p T)) ->
    inv (gtl ++ [T]) active' (next_tmp d ps (aft (concat (gtl ++ [T]))) active').
  Proof.
    intros HL (La & Lt & H) NE La' A4.
    assert (Ha : forall i p, nth_error ps i = Some p -> (bget active' i = true <-> ~ In p (concat (gtl ++ [T])))).
    { intros i p Hi. rewrite (A4 i p Hi). rewrite (proj1 (H i p Hi)), concat_snoc, in_app_iff. tauto. }
    split; [exact La'|]. split.
    { destruct (nth_error ps 0) as [p|] eqn:Ep; [apply (next_tmp_get d (fun x => x) _ active' 0%nat p La' Ep)|].
      unfold next_tmp.
      assert (Fl : forall l a, length a = length ps -> length (fold_left (fun a i => mask_and a (pairs_row ps i)) l a) = length ps).
      { induction l as [|x l IHl]; intros a E; simpl; [exact E|]. apply IHl. rewrite mask_and_len; rewrite ?pairs_row_len; auto. }
      apply Fl, La'. }
    intros i p Hi. split; [apply Ha, Hi|].
    destruct (next_tmp_get d (fun x => x) (aft (concat (gtl ++ [T]))) active' i p La' Hi) as [E _]. fold ps in E. rewrite E.
    rewrite !andb_true_iff, !negb_true_iff. unfold elig. rewrite (Ha i p Hi). rewrite !qeqb_neq. split.
    - intros [[N1 N2] N3]. split; [eapply nth_error_In; eauto|]. auto.
    - intros (_ & N1 & [E0|[N2 N3]]); [|auto]. exfalso. rewrite concat_snoc in E0. apply app_eq_nil in E0. tauto.
  Qed.

  (** *** soundness *)
  Lemma loop_sound r fuel : forall k active tmp gtl tm tm' gtl',
    legal gtl -> inv gtl active tmp ->
    p2p_loop fuel d ps c prices r k active tmp (aft (concat gtl)) tm gtl = Ok (tm', gtl') ->
    legal gtl' /\ Stopped d gtl' (tr (concat gtl')).
  Proof.
    induction fuel as [|fuel IH]; intros k active tmp gtl tm tm' gtl' HL HI.
    - simpl. destruct (qltb 0 (qsum (aft (concat gtl))) && existsb (fun b => b) tmp) eqn:C; [discriminate|].
      intro E. assert (gtl' = gtl) as -> by congruence. split; [exact HL|]. apply (stop_iff gtl active tmp HL HI), C.
    - cbn [p2p_loop]. destruct (qltb 0 (qsum (aft (concat gtl))) && existsb (fun b => b) tmp) eqn:C.
      2:{ intro E. assert (gtl' = gtl) as -> by congruence. split; [exact HL|]. apply (stop_iff gtl active tmp HL HI), C. }
      apply andb_true_iff in C. destruct C as [C1 C2]. apply positive_iff in C1; [|exact HL]. apply (exists_iff _ _ _ HI) in C2.
      pose proof HI as (La & Lt & _).
      destruct (pick_round_spec ps (ps_NoDup d Hl) (pair_ne d Hl) r (length ps) k active tmp []) as (T & active' & k' & Ep & A1 & A2 & A3 & A4 & A5 & A6).
      { exact La. } { exact Lt. } { rewrite <- Lt. apply cnt_le. }
      rewrite Ep. cbn [bind]. simpl app.
      assert (R : Round d (concat gtl) (tr (concat gtl)) T) by (apply (round_iff gtl active tmp T HL HI C2); auto).
      assert (HL' : legal (gtl ++ [T])) by (apply legal_snoc; assumption).
      destruct (fold_left (trade_pair c prices) T (aft (concat gtl), tm)) as [q' tm2] eqn:Ef.
      assert (Eq : q' = aft (concat (gtl ++ [T]))).
      { pose proof (fold_trade_fst c prices T (aft (concat gtl)) tm) as F. rewrite Ef in F. cbn [fst] in F. rewrite F, concat_snoc.
        unfold aft. rewrite after_app. reflexivity. }
      subst q'. apply IH; [exact HL'|]. apply (inv_step gtl active tmp T active' HL' HI (rd_some _ _ _ _ R) A1 A4).
  Qed.

  (** *** every stopped schedule is drawn by some random sequence *)
  Lemma loop_reach rs : forall gtl active tmp,
    legal (gtl ++ rs) -> Stopped d (gtl ++ rs) (tr (concat (gtl ++ rs))) -> inv gtl active tmp ->
    exists ds, forall r k, (forall i, (i < length ds)%nat -> r (k + i)%nat = nth i ds 0%nat) ->
      forall fuel tm tm' gtl', p2p_loop fuel d ps c prices r k active tmp (aft (concat gtl)) tm gtl = Ok (tm', gtl') -> gtl' = gtl ++ rs.
  Proof.
    induction rs as [|T rs IH]; intros gtl active tmp HL HS HI.
    - exists []. intros r k _ fuel tm tm' gtl'. rewrite app_nil_r in *.
      assert (C : qltb 0 (qsum (aft (concat gtl))) && existsb (fun b => b) tmp = false) by (apply (stop_iff gtl active tmp HL HI), HS).
      destruct fuel; cbn [p2p_loop]; rewrite C; intro E; congruence.
    - destruct (HL gtl T rs eq_refl) as (H1 & H2 & R).
      assert (HL0 : legal gtl) by (apply legal_prefix in HL; exact HL).
      assert (HL1 : legal (gtl ++ [T])) by (apply legal_snoc; assumption).
      assert (Ex : exists p, elig (concat gtl) p).
      { destruct T as [|p T']; [destruct R; congruence|]. exists p. apply may_iff; [exact H1|]. apply R. left; reflexivity. }
      destruct (proj1 (round_iff gtl active tmp T HL0 HI Ex) R) as (A1 & A2 & A3).
      pose proof HI as (La & Lt & _).
      destruct (pick_reach ps T (length ps) active tmp []) as (ds1 & Ld1 & Hds1); try assumption.
      { rewrite <- Lt. apply cnt_le. }
      (* the mask after the round does not depend on the draws *)
      destruct (Hds1 (fun i => nth i ds1 0%nat) 0%nat) as (active1 & E1); [reflexivity|].
      assert (Act : forall r k active', pick_round (length ps) ps r k active tmp [] = Ok ([] ++ T, active', (k + length ds1)%nat) ->
        length active' = length ps /\ (forall i p, nth_error ps i = Some p -> (bget active' i = true <-> bget active i = true /\ ~ In p T))).
      { intros r k active' E.
        destruct (pick_round_spec ps (ps_NoDup d Hl) (pair_ne d Hl) r (length ps) k active tmp []) as (T2 & act2 & k2 & Ep & B1 & _ & _ & B4 & _).
        { exact La. } { exact Lt. } { rewrite <- Lt. apply cnt_le. }
        rewrite E in Ep. simpl app in Ep. assert (T2 = T) by congruence. assert (act2 = active') by congruence. subst. auto. }
      destruct (Act _ _ _ E1) as [L1 B1].
      pose proof (inv_step gtl active tmp T active1 HL1 HI (rd_some _ _ _ _ R) L1 B1) as HI1.
      destruct (IH (gtl ++ [T]) active1 (next_tmp d ps (aft (concat (gtl ++ [T]))) active1)) as (ds2 & Hds2).
      { rewrite <- app_assoc. exact HL. } { rewrite <- app_assoc. exact HS. } { exact HI1. }
      exists (ds1 ++ ds2). intros r k Hr fuel tm tm' gtl'.
      destruct (Hds1 r k) as (active' & E').
      { intros i Hi. rewrite Hr by (rewrite app_length; lia). rewrite app_nth1 by exact Hi. reflexivity. }
      assert (active' = active1) as ->.
      { destruct (Act _ _ _ E') as [L2 B2]. apply (nth_ext _ _ false false); [congruence|]. intros i Hi.
        change (bget active' i = bget active1 i).
        destruct (nth_error ps i) as [p|] eqn:Ep; [|apply nth_error_None in Ep; lia].
        apply eq_true_iff_eq. rewrite (B1 i p Ep), (B2 i p Ep). tauto. }
      assert (C : qltb 0 (qsum (aft (concat gtl))) && existsb (fun b => b) tmp = true).
      { apply andb_true_iff. split; [apply positive_iff; assumption | apply (exists_iff _ _ _ HI), Ex]. }
      destruct fuel as [|fuel]; cbn [p2p_loop]; rewrite C; [discriminate|]. rewrite E'. cbn [bind]. simpl app.
      destruct (fold_left (trade_pair c prices) T (aft (concat gtl), tm)) as [q' tm2] eqn:Ef.
      assert (Eq : q' = aft (concat (gtl ++ [T]))).
      { pose proof (fold_trade_fst c prices T (aft (concat gtl)) tm) as F. rewrite Ef in F. cbn [fst] in F. rewrite F, concat_snoc.
        unfold aft. rewrite after_app. reflexivity. }
      subst q'. intro E. apply Hds2 in E; [rewrite E, <- app_assoc; reflexivity|].
      intros i Hi. rewrite <- Nat.add_assoc, Hr by (rewrite app_length; lia). rewrite app_nth2 by lia. f_equal. lia.
  Qed.

  Lemma inv_init : inv [] (repeat true (length ps)) (repeat true (length ps)).
  Proof.
    split; [apply repeat_length|]. split; [apply repeat_length|]. intros i p Hi.
    assert (Gt : bget (repeat true (length ps)) i = true).
    { assert (L : (i < length ps)%nat) by (apply nth_error_Some; congruence). unfold bget.
      assert (I : In (nth i (repeat true (length ps)) false) (repeat true (length ps))) by (apply nth_In; rewrite repeat_length; exact L).
      apply repeat_spec in I. exact I. }
    rewrite Gt. simpl. split; split; auto. intros _. split; [eapply nth_error_In; eauto|]. auto.
  Qed.
  Lemma run_loop r tm ex : p2p_random d c r = Ok (tm, ex) -> exists gtl, ex = XP2P gtl /\
    p2p_loop (length ps) d ps c prices r 0 (repeat true (length ps)) (repeat true (length ps)) (aft (concat [])) tm_init [] = Ok (tm, gtl).
  Proof.
    unfold p2p_random. fold ps prices q0. destruct (forallb _ _); [|discriminate]. change (aft (concat [])) with q0.
    destruct (p2p_loop _ _ _ _ _ _ _ _ _ _ _ _) as [[tm' gtl]|e]; cbn [bind]; [|discriminate].
    intro E. exists gtl. split; congruence.
  Qed.

  Theorem p2p_is_schedule r tm ex : p2p_random d c r = Ok (tm, ex) ->
    exists gtl, ex = XP2P gtl /\ Schedule d c gtl (tm_trans tm) /\ Stopped d gtl (tm_trans tm).
  Proof.
    intro E. destruct (run_loop r tm ex E) as (gtl & -> & El).
    destruct (run_shape d c r Hl Hq tm _ E) as (gtl2 & Eg & Et & _). injection Eg as <-. fold prices q0 in Et. fold (tr (concat gtl)) in Et.
    destruct (loop_sound r _ _ _ _ _ _ _ _ legal_nil inv_init El) as [HL HS].
    exists gtl. split; [reflexivity|]. rewrite Et. split; [|exact HS]. apply schedule_iff. auto.
  Qed.
  Theorem p2p_reaches gtl tl : Schedule d c gtl tl -> Stopped d gtl tl ->
    exists r tm, p2p_random d c r = Ok (tm, XP2P gtl) /\ tm_trans tm = tl.
  Proof.
    intros H S. apply schedule_iff in H. destruct H as [HL ->].
    destruct (loop_reach gtl [] _ _ HL S inv_init) as (ds & Hds).
    set (r := fun i => nth i ds 0%nat). exists r.
    destruct (p2p_run d c r Hl Hq) as (gtl' & E & _). fold prices q0 in E.
    destruct (run_loop r _ _ E) as (gtl2 & Eg & El). injection Eg as <-.
    apply (Hds r 0%nat) in El; [|reflexivity]. simpl in El. subst gtl'.
    eexists. split; [exact E|]. rewrite fold_trade_trans. reflexivity.
  Qed.
End Sched.
