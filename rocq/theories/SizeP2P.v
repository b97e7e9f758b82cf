(** How long the results of peer to peer trading are: rounds, meetings and trades. *)
From Verif Require Import QcTac Num ModelBase ModelHuang ModelMuda ModelP2P ModelRound ListFacts Spec SpecTrade SpecP2P SpecRound P2PFacts P2PTrades P2PSchedule RoundFacts RoundP2P.

Lemma filter_len {A} (f : A -> bool) l : (length (filter f l) <= length l)%nat.
Proof. induction l as [|x l IH]; cbn [filter length]; [lia|]. destruct (f x); cbn [length]; lia. Qed.
Lemma filter_some {A} (f : A -> bool) l x : In x l -> f x = true -> (1 <= length (filter f l))%nat.
Proof.
  intros Hx Hf. destruct (filter f l) as [|y k] eqn:E; [|cbn [length]; lia]. assert (I : In x (filter f l)) by (apply filter_In; auto). rewrite E in I. destruct I.
Qed.
Definition shares (p q : nat * nat) : bool := Nat.eqb (fst q) (fst p) || Nat.eqb (snd q) (snd p).

Lemma pairs_len d : length (all_pairs d) = (length (buyers d) * length (sellers d))%nat.
Proof.
  unfold all_pairs, buyers, sellers. induction (filter buying d) as [|x l IH]; [reflexivity|]. cbn [flat_map length]. rewrite app_length, map_length, IH. lia.
Qed.

Section Rounds.
  Variables (d : df) (c : Qc).
  Hypothesis Hl : map lbl d = seq 0 (length d).
  Hypothesis Hq : qty_nonneg d.
  Let ps := all_pairs d.
  Lemma elig_less L1 L2 p : (forall p, In p (L1 ++ L2) -> In p ps) -> elig d (L1 ++ L2) p -> elig d L1 p.
  Proof.
    intros H (I & N & D). split; [exact I|]. split; [intro K; apply N, in_or_app; left; exact K|].
    destruct L1 as [|q L1]; [left; reflexivity|]. right. destruct D as [D|D]; [discriminate|].
    assert (H1 : forall p, In p (q :: L1) -> In p ps) by (intros x Hx; apply H, in_or_app; left; exact Hx).
    assert (G1 : forall p, In p (q :: L1) -> good_pair (length (map qty d)) p) by (apply (good_list d Hl), H1).
    assert (G2 : forall p, In p L2 -> good_pair (length (after (map price d) (map qty d) (q :: L1))) p).
    { intros x Hx. rewrite after_len. apply (good_list d Hl (q :: L1 ++ L2)); [exact H|]. right. apply in_or_app. right. exact Hx. }
    assert (P1 : forall j, 0 <= get (after (map price d) (map qty d) (q :: L1)) j) by (intro j; apply after_nonneg; [exact G1 | apply q0_nonneg, Hq]).
    assert (Z : forall j, get (after (map price d) (map qty d) (q :: L1)) j = 0 -> get (after (map price d) (map qty d) ((q :: L1) ++ L2)) j = 0).
    { intros j Ej. rewrite after_app. destruct (after_nonneg (map price d) L2 _ G2 P1 j) as [A B]. rewrite Ej in B. qlra. }
    split; intro E; [apply (proj1 D) | apply (proj2 D)]; apply Z, E.
  Qed.
  Lemma many gtl : forall p, legal d c gtl -> elig d (concat gtl) p -> (length gtl <= length (filter (shares p) (concat gtl)))%nat.
  Proof.
    induction gtl as [|T gtl IH] using rev_ind; intros p HL He; [cbn; lia|]. pose proof (legal_in d c Hl (gtl ++ [T]) HL) as Hin.
    rewrite concat_snoc in *. pose proof (elig_less _ _ p Hin He) as He1. pose proof (legal_prefix d c gtl [T] HL) as HL1. specialize (IH p HL1 He1).
    destruct (HL gtl T [] eq_refl) as (Hp & _ & R). apply (may_iff d c Hl) in He1; [|exact Hp]. destruct (rd_maximal _ _ _ _ R p He1) as (q & Hq' & E).
    rewrite filter_app, !app_length. cbn [length]. assert (1 <= length (filter (shares p) T))%nat; [|lia].
    apply (filter_some (shares p) T q Hq'). unfold shares. apply orb_true_iff. destruct E as [->| ->]; [left | right]; apply Nat.eqb_refl.
  Qed.
  Lemma legal_nodup gtl : legal d c gtl -> NoDup (concat gtl).
  Proof.
    induction gtl as [|T gtl IH] using rev_ind; intro HL; [constructor|]. rewrite concat_snoc. pose proof (legal_prefix d c gtl [T] HL) as HL1.
    destruct (HL gtl T [] eq_refl) as (Hp & _ & R). apply ListFacts.NoDup_app_intro; [apply IH, HL1 | |].
    - pose proof (rd_disjoint _ _ _ _ R) as N. clear - N. induction T as [|p T IHT]; [constructor|]. cbn [flat_map app] in N. inversion N as [|? ? N1 N2]; subst. inversion N2 as [|? ? N3 N4]; subst.
      constructor; [|apply IHT, N4]. intro K. apply N1. right. apply in_flat_map. exists p. split; [exact K | left; reflexivity].
    - intros p Hp1 Hp2. apply (rd_allowed _ _ _ _ R) in Hp2. destruct Hp2 as (x & y & _ & _ & _ & _ & _ & N & _). contradiction.
  Qed.
  Lemma remove_len x l : NoDup l -> In x l -> (Datatypes.S (length (remove Nat.eq_dec x l)) <= length l)%nat.
  Proof. intros _ I. pose proof (remove_length_lt Nat.eq_dec l x I). lia. Qed.
  Theorem rounds_bound gtl tl : Schedule d c gtl tl -> (length gtl <= length (buyers d) + length (sellers d) - 1)%nat.
  Proof.
    intro HS. apply (schedule_iff d c Hl) in HS. destruct HS as [HL _]. destruct gtl as [|T gtl _] using rev_ind; [cbn; lia|].
    destruct (HL gtl T [] eq_refl) as (Hp & _ & R). destruct T as [|p T]; [exfalso; apply (rd_some _ _ _ _ R); reflexivity|].
    assert (He : elig d (concat gtl) p) by (apply (may_iff d c Hl); [exact Hp | apply (rd_allowed _ _ _ _ R); left; reflexivity]).
    pose proof (legal_prefix d c gtl [p :: T] HL) as HL1. pose proof (many gtl p HL1 He) as M. pose proof (legal_nodup gtl HL1) as N.
    destruct p as [b s]. destruct He as (I & Nin & _). apply pair_iff in I. destruct I as (x & y & Hx & Hy & Bx & By & <- & <-).
    set (bl := map lbl (buyers d)). set (sl := map lbl (sellers d)).
    assert (Ib : In (lbl x) bl) by (apply in_map, filter_In; auto).
    assert (Is : In (lbl y) sl) by (apply in_map, filter_In; rewrite By; auto).
    pose proof (remove_length_lt Nat.eq_dec bl _ Ib) as Lb. pose proof (remove_length_lt Nat.eq_dec sl _ Is) as Ls.
    assert (Lf : (length (filter (shares (lbl x, lbl y)) (concat gtl)) <= length (map (pair (lbl x)) (remove Nat.eq_dec (lbl y) sl) ++ map (fun b => (b, lbl y)) (remove Nat.eq_dec (lbl x) bl)))%nat).
    { apply NoDup_incl_length; [apply NoDup_filter, N|]. intros [b s] H. apply filter_In in H. destruct H as [H E]. pose proof (Hp _ H) as K. apply pair_iff in K. destruct K as (x' & y' & Hx' & Hy' & Bx' & By' & <- & <-).
      assert (Ib' : In (lbl x') bl) by (apply in_map, filter_In; auto). assert (Is' : In (lbl y') sl) by (apply in_map, filter_In; rewrite By'; auto).
      unfold shares in E. cbn [fst snd] in E. apply in_or_app. apply orb_true_iff in E. destruct E as [E|E]; apply Nat.eqb_eq in E; rewrite E in *.
      - left. apply in_map. apply in_in_remove; [intro Z; apply Nin; rewrite <- Z; exact H | exact Is'].
      - right. apply in_map_iff. exists (lbl x'). split; [reflexivity|]. apply in_in_remove; [intro Z; apply Nin; rewrite <- Z; exact H | exact Ib']. }
    rewrite app_length, !map_length in Lf. unfold bl, sl in *. rewrite map_length in *. rewrite app_length. cbn [length]. lia.
  Qed.
  Theorem meetings_bound gtl tl : Schedule d c gtl tl -> length tl = (2 * length (concat gtl))%nat /\ (length (concat gtl) <= length (buyers d) * length (sellers d))%nat.
  Proof.
    intro HS. apply (schedule_iff d c Hl) in HS. destruct HS as [HL ->]. pose proof (legal_in d c Hl gtl HL) as Hin. split.
    - generalize (map qty d). generalize (concat gtl). clear. intro L. induction L as [|[b s] L IH]; intro q; [reflexivity|]. cbn [trades length]. rewrite IH. lia.
    - rewrite <- (pairs_len d). apply NoDup_incl_length; [apply legal_nodup, HL | exact Hin].
  Qed.
End Rounds.

Section Trades.
  Variables (R : rounding) (d : df) (c : Qc).
  Hypothesis Hu : labels_unique d.
  Hypothesis Hq : qty_nonneg d.
  Hypothesis Hm : machine_qty R d.
  Definition pos_trade (t : trans) : bool := qltb 0 (t_qty t).
  Definition alive (tl : list trans) : df := filter (fun x => qltb 0 (rest_r R x tl)) d.
  Lemma alive_less tl tl' : (forall x, In x d -> rest_r R x tl' <= rest_r R x tl) -> (length (alive tl') <= length (alive tl))%nat.
  Proof.
    clear Hu Hq Hm. unfold alive. induction d as [|x l IH]; intro H; [cbn; lia|]. cbn [filter]. specialize (IH (fun y Hy => H y (or_intror Hy))). specialize (H x (or_introl eq_refl)).
    destruct (qlt_spec 0 (rest_r R x tl')), (qlt_spec 0 (rest_r R x tl)); cbn [length]; try lia. exfalso. qlra.
  Qed.
  Lemma alive_lost tl tl' z : (forall x, In x d -> rest_r R x tl' <= rest_r R x tl) -> In z d -> 0 < rest_r R z tl -> rest_r R z tl' = 0 -> (Datatypes.S (length (alive tl')) <= length (alive tl))%nat.
  Proof.
    clear Hu Hq Hm. unfold alive. induction d as [|x l IH]; intros H Hz P Z; [destruct Hz|]. cbn [filter].
    assert (Hle : (length (filter (fun x => qltb 0 (rest_r R x tl')) l) <= length (filter (fun x => qltb 0 (rest_r R x tl)) l))%nat).
    { clear - H. assert (H' := fun y (Hy : In y l) => H y (or_intror Hy)). clear H. induction l as [|y l IHl]; [cbn; lia|]. cbn [filter]. specialize (IHl (fun y Hy => H' y (or_intror Hy))). specialize (H' y (or_introl eq_refl)).
      destruct (qlt_spec 0 (rest_r R y tl')), (qlt_spec 0 (rest_r R y tl)); cbn [length]; try lia. exfalso. qlra. }
    destruct Hz as [->|Hz].
    - rewrite Z. destruct (qlt_spec 0 0) as [K|K]; [exfalso; qlra|]. destruct (qlt_spec 0 (rest_r R z tl)) as [K'|K']; [cbn [length]; lia | exfalso; qlra].
    - specialize (IH (fun y Hy => H y (or_intror Hy)) Hz P Z). specialize (H x (or_introl eq_refl)).
      destruct (qlt_spec 0 (rest_r R x tl')), (qlt_spec 0 (rest_r R x tl)); cbn [length]; try lia. exfalso. qlra.
  Qed.
  Lemma two_alive tl x y : In x d -> In y d -> x <> y -> 0 < rest_r R x tl -> 0 < rest_r R y tl -> (2 <= length (alive tl))%nat.
  Proof.
    intros Hx Hy N Px Py. change 2%nat with (length [x; y]). apply NoDup_incl_length; [constructor; [intros [E|[]]; congruence|]; constructor; [intros [] | constructor]|].
    intros z [<-|[<-|[]]]; apply filter_In; (split; [assumption|]); apply (proj2 (qltb_lt _ _)); assumption.
  Qed.
  Lemma pair_pos t t' : t_qty t = t_qty t' -> length (filter pos_trade [t; t']) = if qltb 0 (t_qty t) then 2%nat else 0%nat.
  Proof. intro E. cbn [filter]. unfold pos_trade. rewrite <- E. destruct (qltb 0 (t_qty t)); reflexivity. Qed.
  Lemma trades_alive tl L tl' : Deals_r R d c tl L tl' -> rests_ok R d tl -> exists new, tl' = tl ++ new /\
    (length (filter pos_trade new) = 0 \/ length (filter pos_trade new) + 2 <= 2 * length (alive tl))%nat.
  Proof.
    induction 1 as [tl|tl x y L tl' Hx Hy Bx By HD IH]; intro Ho; [exists []; rewrite app_nil_r; auto|].
    pose proof (rests_deal R d c Hu x y tl Hx Hy Bx By Ho) as Ho'. destruct (IH Ho') as (new & -> & N). exists (deal_r R c x y tl ++ new). split; [rewrite app_assoc; reflexivity|].
    assert (Nxy : x <> y) by (intros ->; congruence).
    assert (Mono : forall z, In z d -> rest_r R z (tl ++ deal_r R c x y tl) <= rest_r R z tl).
    { intros z Hz. rewrite (rest_after_deal R d c Hu) by assumption. destruct (_ && _) eqn:Ec; [|qlra]. apply rnd_le; [apply Ho, Hz|].
      pose proof (qmin_glb _ _ 0 (proj1 (Ho x Hx)) (proj1 (Ho y Hy))). qlra. }
    pose proof (alive_less _ _ Mono) as Le. rewrite filter_app, app_length.
    destruct (deal_cases R d c x y tl Hx Hy Bx By) as [(P & q & p & f1 & f2 & Eq & _ & E)|(_ & E)]; rewrite E in *.
    - rewrite pair_pos by reflexivity. cbn [t_qty]. destruct (qlt_spec 0 q) as [Pq|Pq]; [|lia].
      assert (Lx : q <= rest_r R x tl) by (rewrite Eq; apply qmin_l). assert (Ly : q <= rest_r R y tl) by (rewrite Eq; apply qmin_r).
      pose proof (two_alive tl x y Hx Hy Nxy ltac:(qlra) ltac:(qlra)) as L2.
      assert (Lost : (Datatypes.S (length (alive (tl ++ deal_r R c x y tl))) <= length (alive tl))%nat).
      { rewrite E. assert (Ez : rest_r R x tl = q \/ rest_r R y tl = q) by (rewrite Eq; unfold qmin; destruct (qleb _ _); auto).
        rewrite <- E in *. destruct Ez as [Ez|Ez]; [apply (alive_lost tl _ x) | apply (alive_lost tl _ y)]; try assumption; try qlra;
          rewrite (rest_after_deal R d c Hu) by assumption; rewrite (proj2 (qleb_le _ _) P), Nat.eqb_refl, ?orb_true_r; cbn [andb orb];
          rewrite <- Eq, Ez; replace (q - q) with 0 by ring; apply rnd_zero. }
      rewrite E in Lost. lia.
    - rewrite pair_pos by reflexivity. cbn [t_qty]. destruct (qlt_spec 0 0) as [K|K]; [exfalso; qlra | lia].
  Qed.
  Theorem trades_bound L tl : Deals_r R d c [] L tl -> (length (filter pos_trade tl) <= 2 * (length d - 1))%nat.
  Proof.
    intro H. destruct (trades_alive _ _ _ H (rests_nil R d Hq Hm)) as (new & -> & N). cbn [app]. pose proof (filter_len (fun x => qltb 0 (rest_r R x [])) d) as Le. fold (alive []) in Le. lia.
  Qed.
End Trades.
