(** The law of [p2p_random]: the share of the draws that give a schedule is the product of the chances of its picks. *)
From Verif Require Import QcTac Num ModelBase ModelHuang ModelP2P ListFacts StoreFacts Spec SpecTrade SpecAlloc TradeFacts P2PFacts P2PTrades SpecP2P P2PSchedule SpecChance ChanceFacts ChancePick.

(** ** the draws before position [k] do not matter *)
Lemma loop_shift d ps c prices fuel : forall (r r' : nat -> nat) k k' active tmp q tm gtl, (forall i, r (k + i)%nat = r' (k' + i)%nat) ->
  p2p_loop fuel d ps c prices r k active tmp q tm gtl = p2p_loop fuel d ps c prices r' k' active tmp q tm gtl.
Proof.
  induction fuel as [|fuel IH]; intros r r' k k' active tmp q tm gtl E; cbn [p2p_loop]; destruct (qltb 0 (qsum q) && _); try reflexivity.
  pose proof (pick_shift ps (length ps) r r' k k' active tmp [] E) as X.
  destruct (pick_round (length ps) ps r k active tmp []) as [[[T a] n]|e], (pick_round (length ps) ps r' k' active tmp []) as [[[T' a'] n']|e']; try contradiction.
  - destruct X as (-> & -> & m & -> & ->). cbn [bind]. destruct (fold_left _ _ _) as [q' tm']. apply IH. intro i. rewrite <- !Nat.add_assoc. apply E.
  - subst e'. reflexivity.
Qed.
Lemma loop_prefix d ps c prices r fuel : forall k active tmp q tm gtl tm' gtl', p2p_loop fuel d ps c prices r k active tmp q tm gtl = Ok (tm', gtl') -> exists g, gtl' = gtl ++ g.
Proof.
  induction fuel as [|fuel IH]; intros k active tmp q tm gtl tm' gtl'; cbn [p2p_loop]; destruct (qltb 0 (qsum q) && _); try discriminate;
    try (intro E; exists []; rewrite app_nil_r; congruence).
  destruct (pick_round _ _ _ _ _ _ _) as [[[T a] n]|e]; cbn [bind]; [|discriminate]. destruct (fold_left _ _ _) as [q2 tm2]. intro E.
  apply IH in E. destruct E as (g & ->). exists (T :: g). rewrite <- app_assoc. reflexivity.
Qed.
Lemma st_skip (l : list nat) k i : nth (k + i) l 0%nat = nth (0 + i) (skipn k l) 0%nat.
Proof. revert k. induction l as [|x l IH]; intro k; [rewrite skipn_nil; destruct (k + i)%nat, (0 + i)%nat; reflexivity|]. destruct k; [reflexivity|]. cbn [skipn Nat.add nth]. apply IH. Qed.

Section Law.
  Variables (d : df) (c : Qc).
  Hypothesis Hl : map lbl d = seq 0 (length d).
  Hypothesis Hq : qty_nonneg d.
  Let ps := all_pairs d.
  Let prices := map price d.
  Let q0 := map qty d.
  Let tr L := trades c prices q0 L.
  Let aft L := after prices q0 L.
  Let LP := list_prod (filter buying d) (filter (fun r => negb (buying r)) d).
  Let lab (xy : row * row) : nat * nat := (lbl (fst xy), lbl (snd xy)).

  Lemma pairs_lab : ps = map lab LP.
  Proof.
    unfold ps, all_pairs, LP, buyers, sellers. induction (filter buying d) as [|x l IH]; [reflexivity|]. cbn [flat_map list_prod]. rewrite map_app, map_map, IH. reflexivity.
  Qed.
  Lemma lp_row x y : In (x, y) LP -> In x d /\ In y d /\ buying x = true /\ buying y = false.
  Proof. intro I. apply in_prod_iff in I. destruct I as [I J]. apply filter_In in I, J. destruct J as [J K]. apply negb_true_iff in K. tauto. Qed.

  Lemma cnt_filter {A} (f : A -> bool) l : cnt (map f l) = length (filter f l).
  Proof. unfold cnt. induction l as [|x l IH]; [reflexivity|]. cbn [map filter]. destruct (f x); cbn [length]; rewrite IH; reflexivity. Qed.
  Lemma bget_map {A} (f : A -> bool) l i x : nth_error l i = Some x -> bget (map f l) i = f x.
  Proof. intro H. unfold bget. apply (map_nth_error f) in H. apply nth_error_nth with (d := false) in H. exact H. Qed.

  (** the masks are the open pairs *)
  Lemma mask_open L active tmp gtl : concat gtl = L -> (forall p, In p L -> In p ps) -> inv d gtl active tmp -> tmp = map (open_pair L (tr L) []) LP.
  Proof.
    intros E HL (La & Lt & H). rewrite E in H. fold ps in Lt, H.
    assert (LL : length ps = length LP) by (rewrite pairs_lab; apply map_length).
    apply (nth_ext _ _ false false); [rewrite map_length; congruence|]. intros i Hi. rewrite Lt, LL in Hi.
    destruct (nth_error LP i) as [[x y]|] eqn:Ei; [|apply nth_error_None in Ei; lia].
    change (bget tmp i = bget (map (open_pair L (tr L) []) LP) i). rewrite (bget_map _ _ _ _ Ei).
    assert (Ep : nth_error ps i = Some (lbl x, lbl y)) by (rewrite pairs_lab; apply (map_nth_error lab _ _ Ei)).
    destruct (lp_row x y (nth_error_In _ _ Ei)) as (Ix & Iy & Bx & By).
    apply eq_true_iff_eq. rewrite (proj2 (H i _ Ep)). unfold open_pair, elig. cbn [forallb]. rewrite andb_true_r, andb_true_iff. cbn [fst snd].
    assert (N : forallb (fun q => negb (Nat.eqb (fst q) (lbl x) && Nat.eqb (snd q) (lbl y))) L = true <-> ~ In (lbl x, lbl y) L).
    { rewrite forallb_forall. split.
      - intros F I. specialize (F _ I). cbn [fst snd] in F. rewrite !Nat.eqb_refl in F. discriminate.
      - intros N [a b] I. apply negb_true_iff, andb_false_iff. cbn [fst snd]. destruct (Nat.eqb_spec a (lbl x)) as [->|]; [|left; reflexivity].
        destruct (Nat.eqb_spec b (lbl y)) as [->|]; [contradiction | right; reflexivity]. }
    rewrite N. assert (In (lbl x, lbl y) ps) by (apply pair_iff; exists x, y; auto 10).
    unfold tr. fold prices q0.
    pose proof (rest_get d c Hl L x HL Ix) as Rx. pose proof (rest_get d c Hl L y HL Iy) as Ry. fold prices q0 in Rx, Ry.
    assert (B : (match L with [] => true | _ => negb (qeqb (rest x (tr L)) 0) && negb (qeqb (rest y (tr L)) 0) end) = true <->
      (L = [] \/ get (aft L) (lbl x) <> 0 /\ get (aft L) (lbl y) <> 0)).
    { unfold tr. destruct L as [|p L']; [split; auto|]. rewrite Rx, Ry. fold (aft (p :: L')). rewrite andb_true_iff, !negb_true_iff, !qeqb_neq.
      split; [tauto|]. intros [X|X]; [discriminate | exact X]. }
    unfold tr in B. rewrite B. tauto.
  Qed.
  Lemma mask_next L tl T p : In p ps -> mask_out ps (map (open_pair L tl T) LP) p = map (open_pair L tl (T ++ [p])) LP.
  Proof.
    intro Ip. assert (LL : length ps = length LP) by (rewrite pairs_lab; apply map_length).
    unfold mask_out. assert (L1 : length (mask_and (map (open_pair L tl T) LP) (pairs_row ps (fst p))) = length ps).
    { rewrite mask_and_len; rewrite ?pairs_row_len, map_length; auto. }
    apply (nth_ext _ _ false false); [rewrite mask_and_len; rewrite ?pairs_row_len, ?map_length; congruence|].
    intros i Hi. rewrite mask_and_len, L1, LL in Hi by (rewrite pairs_row_len; exact L1).
    destruct (nth_error LP i) as [[x y]|] eqn:Ei; [|apply nth_error_None in Ei; lia].
    assert (Ep : nth_error ps i = Some (lbl x, lbl y)) by (rewrite pairs_lab; apply (map_nth_error lab _ _ Ei)).
    change (bget (mask_and (mask_and (map (open_pair L tl T) LP) (pairs_row ps (fst p))) (pairs_row ps (snd p))) i = bget (map (open_pair L tl (T ++ [p])) LP) i).
    rewrite bget_mask by (rewrite pairs_row_len; exact L1). rewrite bget_mask by (rewrite pairs_row_len, map_length; congruence).
    rewrite !(bget_row ps _ i _ Ep), !(bget_map _ _ _ _ Ei). unfold open_pair. rewrite forallb_app. cbn [forallb]. rewrite andb_true_r, <- !andb_assoc. do 3 f_equal.
    pose proof (share_iff d c Hl (lbl x, lbl y) p (nth_error_In _ _ Ep) Ip) as S. unfold involves in S. cbn [fst snd] in *.
    apply eq_true_iff_eq. rewrite !andb_true_iff, !negb_true_iff, <- !not_true_iff_false, !Nat.eqb_eq. split.
    - intros [A B]. split; intro X; (destruct (proj2 S) as [Y|Y]; [first [left; congruence | right; congruence]|exact (A Y)|exact (B Y)]).
    - intros [A B]. split; intro X; (destruct (proj1 S) as [Y|Y]; [first [left; exact X | right; exact X]| |]; congruence).
  Qed.
  Lemma weight_picks L T : forall T1, (forall p, In p T -> In p ps) -> weight ps (map (open_pair L (tr L) T1) LP) T = picks_chance d L (tr L) T1 T.
  Proof.
    induction T as [|p T IH]; intros T1 H; [reflexivity|]. cbn [weight picks_chance].
    rewrite mask_next by (apply H; left; reflexivity). rewrite IH by (intros q Iq; apply H; right; exact Iq).
    rewrite where_length, cnt_filter. reflexivity.
  Qed.

  (** the chance of the rounds [rs] after the rounds [gtl] *)
  Fixpoint rounds_chance (gtl rs : list (list (nat * nat))) : Qc :=
    match rs with
    | [] => 1
    | T :: rs' => picks_chance d (concat gtl) (tr (concat gtl)) [] T * rounds_chance (gtl ++ [T]) rs'
    end.
  Lemma rounds_snoc rs T : forall gtl, rounds_chance gtl (rs ++ [T]) = rounds_chance gtl rs * picks_chance d (concat (gtl ++ rs)) (tr (concat (gtl ++ rs))) [] T.
  Proof.
    induction rs as [|U rs IH]; intro gtl; cbn [app rounds_chance]; [rewrite app_nil_r; ring|]. rewrite IH, <- app_assoc. cbn [app]. ring.
  Qed.
  Lemma chance_iff gtl : forall tl w, Chance d c gtl tl w <-> legal d c gtl /\ tl = tr (concat gtl) /\ w = rounds_chance [] gtl.
  Proof.
    induction gtl as [|T gtl IH] using rev_ind; intros tl w; split.
    - intro H. inversion H as [|g ? ? ? ? ? ? ? ? E]; subst; [|destruct g; discriminate]. split; [apply legal_nil|]. split; reflexivity.
    - intros (_ & -> & ->). constructor.
    - intro H. inversion H as [E|g tl0 w0 T0 tl' HS HP HR HD E E2 E3]; subst; [destruct gtl; discriminate|].
      apply app_inj_tail in E. destruct E as [-> ->]. apply IH in HS. destruct HS as (HL & -> & ->).
      assert (HL' : legal d c (gtl ++ [T])) by (apply legal_snoc; assumption).
      split; [exact HL'|]. apply (deals_iff d c Hl) in HD; [|apply (legal_in d c Hl), HL]. rewrite concat_snoc. split; [apply HD|].
      rewrite rounds_snoc. reflexivity.
    - intros (HL & -> & ->). pose proof (legal_prefix _ _ _ _ HL) as HL0. destruct (HL gtl T [] eq_refl) as (H1 & H2 & H3).
      rewrite rounds_snoc. cbn [app]. apply (Ch_round d c gtl (tr (concat gtl))).
      + apply IH. auto.
      + exact H2.
      + exact H3.
      + apply (deals_iff d c Hl); [exact H1|]. rewrite concat_snoc. split; [|reflexivity].
        intros p Hp. apply (legal_in d c Hl _ HL). rewrite concat_snoc. apply in_or_app; right; exact Hp.
  Qed.

  Variables (M : nat).
  Hypothesis HM : fair M (length ps).

  Definition hit (gtl : list (list (nat * nat))) (x : res (transmgr * list (list (nat * nat)))) : Qc :=
    match x with
    | Ok (_, g) => if list_eq_dec (list_eq_dec (fun p q : nat * nat => ltac:(decide equality; apply Nat.eq_dec))) g gtl then 1 else 0
    | Err _ => 0
    end.
  Lemma loop_mean K rs : forall fuel gtl active tmp tm,
    legal d c (gtl ++ rs) -> Stopped d (gtl ++ rs) (tr (concat (gtl ++ rs))) -> inv d gtl active tmp -> (length rs <= fuel)%nat ->
    mean (fun l => hit (gtl ++ rs) (p2p_loop fuel d ps c prices (st l) 0 active tmp (aft (concat gtl)) tm gtl)) (draws M (length (concat rs) + K)) = rounds_chance gtl rs.
  Proof.
    induction rs as [|T rs IH]; intros fuel gtl active tmp tm HL HS HI Hf.
    - rewrite app_nil_r in *. cbn [rounds_chance].
      assert (C : qltb 0 (qsum (aft (concat gtl))) && existsb (fun b => b) tmp = false) by (apply (stop_iff d c Hl Hq gtl active tmp HL HI), HS).
      rewrite (mean_ext _ (fun _ => 1)); [apply mean_const, draws_some, HM|]. intros l _.
      destruct fuel; cbn [p2p_loop]; rewrite C; unfold hit; destruct (list_eq_dec _ gtl gtl); congruence.
    - destruct (HL gtl T rs eq_refl) as (H1 & H2 & R).
      assert (HL0 : legal d c gtl) by (apply legal_prefix in HL; exact HL).
      assert (HL1 : legal d c (gtl ++ [T])) by (apply legal_snoc; assumption).
      assert (Ex : exists p, elig d (concat gtl) p).
      { destruct T as [|p T']; [destruct R; congruence|]. exists p. apply (may_iff d c Hl); [exact H1|]. apply R. left; reflexivity. }
      destruct (proj1 (round_iff d c Hl gtl active tmp T HL0 HI Ex) R) as (A1 & A2 & A3).
      pose proof HI as (La & Lt & _). fold ps in La, Lt, A1, A3.
      destruct fuel as [|fuel]; [cbn [length] in Hf; lia|].
      assert (C : qltb 0 (qsum (aft (concat gtl))) && existsb (fun b => b) tmp = true).
      { apply andb_true_iff. split; [apply (positive_iff d c Hl Hq); assumption | apply (exists_iff _ _ _ _ HI), Ex]. }
      set (CC := fun (T' : list (nat * nat)) (a : list bool) (l : list nat) =>
        let '(q', tm') := fold_left (trade_pair c prices) T' (aft (concat gtl), tm) in
        hit (gtl ++ T :: rs) (p2p_loop fuel d ps c prices (st l) 0 a (next_tmp d ps q' a) q' tm' (gtl ++ [T']))).
      destruct (pick_mean ps (ps_NoDup d Hl) M HM CC (length (concat rs) + K) T (length ps) active tmp []) as (a & L1 & B1 & E1); try assumption.
      { rewrite <- Lt. apply cnt_le. }
      { intros T' a l N. unfold CC. destruct (fold_left _ _ _) as [q' tm']. unfold hit. destruct (p2p_loop _ _ _ _ _ _ _ _ _ _ _ _) as [[tm2 g]|e] eqn:El; [|reflexivity].
        apply loop_prefix in El. destruct El as (g2 & ->). destruct (list_eq_dec _ _ _) as [X|X]; [|reflexivity]. exfalso. apply N.
        rewrite <- app_assoc in X. cbn [app] in X. apply app_inv_head in X. cbn [app]. congruence. }
      cbn [rounds_chance]. rewrite concat_cons, app_length, <- Nat.add_assoc.
      pose proof (mask_open (concat gtl) active tmp gtl eq_refl H1 HI) as Em.
      rewrite <- (weight_picks (concat gtl) T [] ) by (intros p Ip; destruct (A1 p Ip) as (x & X & _); eapply nth_error_In; exact X). rewrite <- Em.
      pose proof (inv_step d c gtl active tmp T a HL1 HI (rd_some _ _ _ _ R) L1 B1) as HI1. fold ps prices q0 in HI1.
      destruct (fold_left (trade_pair c prices) T (aft (concat gtl), tm)) as [q' tm2] eqn:Ef.
      assert (Eq : q' = aft (concat (gtl ++ [T]))).
      { pose proof (fold_trade_fst c prices T (aft (concat gtl)) tm) as F. rewrite Ef in F. cbn [fst] in F. rewrite F, concat_snoc.
        unfold aft. rewrite after_app. reflexivity. }
      specialize (IH fuel (gtl ++ [T]) a (next_tmp d ps (aft (concat (gtl ++ [T]))) a) tm2). rewrite <- app_assoc in IH. cbn [app] in IH.
      rewrite <- IH; [|exact HL | exact HS | exact HI1 | cbn [length] in Hf; lia].
      etransitivity; [etransitivity; [|exact E1]|].
      + apply mean_ext. intros l _. cbn [p2p_loop]. rewrite C. unfold rest_of.
        destruct (pick_round (length ps) ps (st l) 0 active tmp []) as [[[T' a'] k']|e]; cbn [bind]; [|reflexivity].
        unfold CC. destruct (fold_left (trade_pair c prices) T' (aft (concat gtl), tm)) as [q2 tm3].
        f_equal. apply loop_shift. intro i. apply st_skip.
      + f_equal. apply mean_ext. intros l _. unfold CC. cbn [app]. rewrite Ef, Eq. reflexivity.
  Qed.

  Lemma rounds_short gtl tl : Schedule d c gtl tl -> Stopped d gtl tl -> (length (concat gtl) <= length ps)%nat /\ (length gtl <= length ps)%nat.
  Proof.
    intros Sc St. destruct (p2p_reaches d c Hl Hq gtl tl Sc St) as (r & tm & Er & _). destruct (p2p_run d c r Hl Hq) as (g & Eg & [R1 R2 R3 _] & _).
    assert (g = gtl) as -> by congruence.
    assert (A : (length (concat gtl) <= length ps)%nat) by (apply NoDup_incl_length; [exact R2 | exact R1]).
    split; [exact A|]. assert (B : (length gtl <= length (concat gtl))%nat); [|lia].
    clear - R3. induction gtl as [|T g IH]; [apply le_n|]. rewrite concat_cons, app_length. cbn [length]. destruct (R3 T (or_introl eq_refl)) as [N _].
    assert (length g <= length (concat g))%nat by (apply IH; intros U HU; apply R3; right; exact HU). destruct T; [congruence | cbn [length]; lia].
  Qed.
  Lemma gave_hit gtl r : (if gave gtl (p2p_random d c r) then 1 else 0) =
    hit gtl (p2p_loop (length ps) d ps c prices r 0 (repeat true (length ps)) (repeat true (length ps)) (aft (concat [])) tm_init []).
  Proof.
    destruct (p2p_run d c r Hl Hq) as (g & E & _). destruct (run_loop d c r _ _ E) as (g2 & Eg & El). injection Eg as <-.
    match goal with |- _ = hit gtl ?x => replace x with (Ok (snd (fold_left (trade_pair c (map price d)) (concat g) (map qty d, tm_init)), g)) by (symmetry; exact El) end.
    rewrite E. unfold gave, hit. destruct (list_eq_dec _ g gtl); reflexivity.
  Qed.

  (** the share of the draws that give the rounds [gtl] is their chance *)
  Theorem p2p_law gtl tl w K : Chance d c gtl tl w -> Stopped d gtl tl -> (length ps <= K)%nat ->
    share M K (p2p_random d c) (gave gtl) = w.
  Proof.
    intros Ch St HK. apply chance_iff in Ch. destruct Ch as (HL & -> & ->).
    destruct (rounds_short gtl _ (proj2 (schedule_iff d c Hl gtl _) (conj HL eq_refl)) St) as [L1 L2].
    unfold share. replace K with (length (concat gtl) + (K - length (concat gtl)))%nat by lia.
    rewrite <- (loop_mean (K - length (concat gtl)) gtl (length ps) [] _ _ tm_init HL St (inv_init d) L2).
    apply mean_ext. intros l _. apply gave_hit.
  Qed.
  (** other lists of rounds are never given *)
  Theorem p2p_never gtl K : ~ (exists tl, Schedule d c gtl tl /\ Stopped d gtl tl) -> share M K (p2p_random d c) (gave gtl) = 0.
  Proof.
    intro N. unfold share. rewrite (mean_ext _ (fun _ => 0)); [apply mean_const, draws_some, HM|]. intros l _.
    destruct (p2p_random d c (st l)) as [[tm ex]|e] eqn:E; [|reflexivity]. destruct (p2p_is_schedule d c Hl Hq _ tm ex E) as (g & -> & Sc & St).
    unfold gave. destruct (list_eq_dec _ g gtl) as [->|]; [|reflexivity]. exfalso. eauto.
  Qed.
  (** every stopped schedule has a chance *)
  Lemma chance_exists gtl tl : Schedule d c gtl tl -> exists w, Chance d c gtl tl w.
  Proof. intro H. apply (schedule_iff d c Hl) in H. destruct H as [H ->]. eexists. apply chance_iff. split; [exact H|]. split; reflexivity. Qed.
End Law.
