(** The chances of peer to peer trading do not depend on the order of the bids or on who submitted them. *)
From Coq Require Import FinFun.
From Verif Require Import QcTac Num ModelBase ModelHuang ModelP2P ModelMarket ListFacts Spec SpecTrade SpecP2P SpecOrder StoreFacts P2PFacts P2PTrades P2PSchedule MarketOrder P2POrder UnitMarket SpecChance ChanceFacts ChancePick ChanceP2P.

Lemma list_prod_perm {A B} (a a' : list A) (b b' : list B) : Permutation a a' -> Permutation b b' -> Permutation (list_prod a b) (list_prod a' b').
Proof.
  intros P Q. transitivity (list_prod a b').
  - clear P. induction a as [|x a IH]; [constructor|]. cbn [list_prod]. apply Permutation_app; [apply Permutation_map, Q | exact IH].
  - induction P as [|x a a' P IH|x y a|a a2 a3 P1 IH1 P2 IH2]; [constructor| | |].
    + cbn [list_prod]. apply Permutation_app_head, IH.
    + cbn [list_prod]. rewrite !app_assoc. apply Permutation_app_tail, Permutation_app_comm.
    + etransitivity; eassumption.
Qed.
Lemma list_prod_map {A B A' B'} (f : A -> A') (g : B -> B') a b : list_prod (map f a) (map g b) = map (fun xy => (f (fst xy), g (snd xy))) (list_prod a b).
Proof. induction a as [|x a IH]; [reflexivity|]. cbn [map list_prod]. rewrite IH, map_app, !map_map. reflexivity. Qed.

Section Rename.
  Variables (d d' : df) (c : Qc) (f : nat -> nat) (ren : row -> row).
  Hypothesis Hf : Injective f.
  Hypothesis Rl : forall r, In r d -> lbl (ren r) = f (lbl r).
  Hypothesis Rq : forall r, In r d -> qty (ren r) = qty r.
  Hypothesis Rp : forall r, In r d -> price (ren r) = price r.
  Hypothesis Rb : forall r, In r d -> buying (ren r) = buying r.
  Hypothesis P : Permutation (map ren d) d'.
  Notation rt := (rename_trans f).
  Notation rp := (rename_pair f).

  Lemma g1 x : In x d -> In (ren x) d'.
  Proof. intro H. apply (Permutation_in _ P). apply in_map, H. Qed.
  Lemma g2 x' : In x' d' -> exists x, In x d /\ x' = ren x.
  Proof. intro H. apply (Permutation_in _ (Permutation_sym P)) in H. apply in_map_iff in H. destruct H as (x & <- & H). eauto. Qed.
  Lemma g_rest x tl : In x d -> rest (ren x) (map rt tl) = rest x tl.
  Proof. intro H. unfold rest. rewrite Rq, Rl, traded_ren by assumption. reflexivity. Qed.
  Lemma g_deal x y tl : In x d -> In y d -> deal c (ren x) (ren y) (map rt tl) = map rt (deal c x y tl).
  Proof.
    intros Hx Hy. unfold deal. rewrite !g_rest, !Rp, !Rl by assumption. destruct (qleb (price y) (price x)); cbn [map]; unfold rename_trans; cbn [t_bid t_qty t_price t_source t_active];
      rewrite !Nat2Z.id, !(proj2 (Z.ltb_ge _ 0)) by lia; reflexivity.
  Qed.
  Lemma g_deals tl L tl' : Deals d c tl L tl' -> Deals d' c (map rt tl) (map rp L) (map rt tl').
  Proof.
    induction 1 as [|tl x y L tl' Hx Hy Bx By D IH]; [constructor|]. cbn [map]. unfold rename_pair at 1. cbn [fst snd]. rewrite <- (Rl x Hx), <- (Rl y Hy).
    constructor; [apply g1, Hx | apply g1, Hy | rewrite Rb; assumption | rewrite Rb; assumption|]. rewrite g_deal, <- map_app by assumption. exact IH.
  Qed.
  Lemma g_deals_back L : forall tl tl', Deals d' c (map rt tl) (map rp L) tl' -> exists tl2, tl' = map rt tl2 /\ Deals d c tl L tl2.
  Proof.
    induction L as [|p L IH]; intros tl tl' D.
    - inversion D; subst. exists tl. split; [reflexivity | constructor].
    - cbn [map] in D. inversion D as [|? x' y' L' tl2 Hx Hy Bx By D' E1 [E2 E3] E4]; subst. destruct (g2 x' Hx) as (x & Ix & ->). destruct (g2 y' Hy) as (y & Iy & ->).
      rewrite Rl in E2, E3 by assumption. rewrite Rb in Bx, By by assumption. rewrite g_deal, <- map_app in D' by assumption. apply IH in D'. destruct D' as (tl3 & -> & D').
      exists tl3. split; [reflexivity|]. destruct p as [b s]. cbn [fst snd] in *. apply Hf in E2, E3. subst b s. constructor; assumption.
  Qed.
  Lemma g_may met tl p : may_meet d met tl p <-> may_meet d' (map rp met) (map rt tl) (rp p).
  Proof.
    assert (Nl : map rp met = [] <-> met = []) by (destruct met; cbn [map]; split; congruence).
    split.
    - intros (x & y & Ix & Iy & Bx & By & -> & N & Z). exists (ren x), (ren y). rewrite (in_ren f Hf), !g_rest, Nl, !Rb by assumption.
      split; [apply g1, Ix|]. split; [apply g1, Iy|]. split; [exact Bx|]. split; [exact By|]. split; [|auto]. unfold rename_pair. cbn [fst snd]. rewrite !Rl by assumption. reflexivity.
    - intros (x' & y' & Ix & Iy & Bx & By & E & N & Z). destruct (g2 x' Ix) as (x & Jx & ->). destruct (g2 y' Iy) as (y & Jy & ->). rewrite !Rl in E by assumption.
      assert (p = (lbl x, lbl y)) as -> by (apply (pair_inj f Hf), E). rewrite (in_ren f Hf) in N. rewrite !g_rest, Nl in Z by assumption. rewrite Rb in Bx, By by assumption.
      exists x, y. auto 10.
  Qed.
  Lemma g_may_back met tl p' : may_meet d' (map rp met) (map rt tl) p' -> exists p, p' = rp p /\ may_meet d met tl p.
  Proof.
    intro M. pose proof M as (x' & y' & Ix & Iy & Bx & By & E & _). destruct (g2 x' Ix) as (x & Jx & ->). destruct (g2 y' Iy) as (y & Jy & ->).
    rewrite !Rl in E by assumption. exists (lbl x, lbl y). split; [exact E|]. apply g_may. change (rp (lbl x, lbl y)) with (f (lbl x), f (lbl y)). rewrite <- E. exact M.
  Qed.
  Lemma g_round met tl T : Round d met tl T <-> Round d' (map rp met) (map rt tl) (map rp T).
  Proof.
    split; intros [R1 R2 R3 R4]; constructor.
    - destruct T; [congruence | discriminate].
    - rewrite ends_ren. apply Injective_map_NoDup; assumption.
    - intros p' I. apply in_map_iff in I. destruct I as (p & <- & I). apply g_may, R3, I.
    - intros p' M. destruct (g_may_back _ _ _ M) as (p & -> & M'). destruct (R4 p M') as (q & Iq & E). exists (rp q). split; [apply in_map, Iq|].
      unfold rename_pair. cbn [fst snd]. destruct E as [->| ->]; auto.
    - intros ->. apply R1. reflexivity.
    - rewrite ends_ren in R2. apply NoDup_map_inv in R2. exact R2.
    - intros p I. apply g_may, R3, in_map, I.
    - intros p M. destruct (R4 (rp p) (proj1 (g_may _ _ _) M)) as (q' & I & E). apply in_map_iff in I. destruct I as (q & <- & I). exists q. split; [exact I|].
      unfold rename_pair in E. cbn [fst snd] in E. destruct E as [E|E]; apply Hf in E; auto.
  Qed.
  Lemma g_some tl : (exists x, In x d /\ 0 < rest x tl) <-> (exists x, In x d' /\ 0 < rest x (map rt tl)).
  Proof.
    split.
    - intros (x & Ix & L). exists (ren x). rewrite g_rest by exact Ix. split; [apply g1, Ix | exact L].
    - intros (x' & Ix & L). destruct (g2 x' Ix) as (x & Jx & ->). rewrite g_rest in L by exact Jx. eauto.
  Qed.
  Lemma g_stopped gtl tl : Stopped d gtl tl <-> Stopped d' (map (map rp) gtl) (map rt tl).
  Proof.
    unfold Stopped. rewrite concat_ren. split; (intros [Z|Z]; [left | right]).
    - intros x' I. destruct (g2 x' I) as (x & J & ->). rewrite g_rest by exact J. apply Z, J.
    - intros p' M. destruct (g_may_back _ _ _ M) as (p & _ & M'). exact (Z p M').
    - intros x I. rewrite <- (g_rest x tl I). apply Z, g1, I.
    - intros p M. apply (Z (rp p)), g_may, M.
  Qed.
  Lemma g_sched_back gtl : forall tl', Schedule d' c (map (map rp) gtl) tl' -> exists tl, tl' = map rt tl /\ Schedule d c gtl tl.
  Proof.
    induction gtl as [|T gtl IH] using rev_ind; intros tl' Sc.
    - inversion Sc as [|g ? ? ? ? ? ? ? E]; subst; [|destruct g; discriminate]. exists []. split; [reflexivity | constructor].
    - rewrite map_app in Sc. cbn [map] in Sc. inversion Sc as [E|g tl0 T0 tl2 HS HP HR HD E E2]; subst; [destruct gtl; discriminate|].
      apply app_inj_tail in E. destruct E as [-> ->]. apply IH in HS. destruct HS as (tl & -> & HS).
      apply g_deals_back in HD. destruct HD as (tl2 & -> & HD). exists tl2. split; [reflexivity|].
      apply (Sch_round d c gtl tl); [exact HS | apply g_some, HP | apply g_round; rewrite <- concat_ren; exact HR | exact HD].
  Qed.

  (** the same number of candidates *)
  Lemma g_open met tl T : length (open_pairs d' (map rp met) (map rt tl) (map rp T)) = length (open_pairs d met tl T).
  Proof.
    unfold open_pairs.
    assert (PB : Permutation (map ren (filter buying d)) (filter buying d')).
    { rewrite <- (filter_perm buying _ _ P), filter_map.
      assert (E : filter (fun r => buying (ren r)) d = filter buying d) by (apply filter_ext_in; intros r Hr; apply Rb, Hr). rewrite E. reflexivity. }
    assert (PS : Permutation (map ren (filter (fun r => negb (buying r)) d)) (filter (fun r => negb (buying r)) d')).
    { rewrite <- (filter_perm (fun r => negb (buying r)) _ _ P), filter_map.
      assert (E : filter (fun r => negb (buying (ren r))) d = filter (fun r => negb (buying r)) d) by (apply filter_ext_in; intros r Hr; rewrite Rb by exact Hr; reflexivity).
      rewrite E. reflexivity. }
    pose proof (list_prod_perm _ _ _ _ PB PS) as PP. rewrite <- (Permutation_length (filter_perm (open_pair (map rp met) (map rt tl) (map rp T)) _ _ PP)).
    rewrite list_prod_map, filter_map, map_length. f_equal. apply filter_ext_in. intros [x y] I. apply in_prod_iff in I. destruct I as [Ix Iy].
    apply filter_In in Ix, Iy. destruct Ix as [Ix _], Iy as [Iy _]. cbn [fst snd].
    assert (Eq : forall i j, Nat.eqb (f i) (f j) = Nat.eqb i j).
    { intros i j. destruct (Nat.eqb_spec i j) as [->|N]; [apply Nat.eqb_refl|]. apply Nat.eqb_neq. intro X. apply N, Hf, X. }
    assert (FM : forall (h h' : nat * nat -> bool) l, (forall q, h' (rp q) = h q) -> forallb h' (map rp l) = forallb h l).
    { intros h h' l E. induction l as [|q l IH]; [reflexivity|]. cbn [map forallb]. rewrite E, IH. reflexivity. }
    unfold open_pair. rewrite !Rl, !g_rest by assumption.
    rewrite (FM (fun q => negb (Nat.eqb (fst q) (lbl x) && Nat.eqb (snd q) (lbl y))) _ met) by (intro q; unfold rename_pair; cbn [fst snd]; rewrite !Eq; reflexivity).
    rewrite (FM (fun q => negb (Nat.eqb (fst q) (lbl x)) && negb (Nat.eqb (snd q) (lbl y))) _ T) by (intro q; unfold rename_pair; cbn [fst snd]; rewrite !Eq; reflexivity).
    destruct met; reflexivity.
  Qed.
  Lemma g_picks met tl T : forall T1, picks_chance d' (map rp met) (map rt tl) (map rp T1) (map rp T) = picks_chance d met tl T1 T.
  Proof.
    induction T as [|p T IH]; intro T1; [reflexivity|]. cbn [map picks_chance]. rewrite g_open. specialize (IH (T1 ++ [p])). rewrite map_app in IH. cbn [map] in IH. rewrite IH. reflexivity.
  Qed.
  Lemma g_chance gtl tl w : Chance d c gtl tl w -> Chance d' c (map (map rp) gtl) (map rt tl) w.
  Proof.
    induction 1 as [|gtl tl w T tl' Ch IH HP HR HD]; [constructor|]. rewrite map_app. cbn [map].
    rewrite <- (g_picks (concat gtl) tl T []), <- concat_ren.
    apply (Ch_round d' c); [exact IH | apply g_some, HP | rewrite concat_ren; apply g_round, HR | apply g_deals, HD].
  Qed.

  Hypothesis Hl : map lbl d = seq 0 (length d).
  Hypothesis Hl' : map lbl d' = seq 0 (length d').
  Hypothesis Hq : qty_nonneg d.
  Lemma g_nonneg : qty_nonneg d'.
  Proof. intros x' I. destruct (g2 x' I) as (x & J & ->). rewrite Rq by exact J. apply Hq, J. Qed.
  Theorem g_share M K M' K' gtl : fair M (length (all_pairs d)) -> (length (all_pairs d) <= K)%nat -> fair M' (length (all_pairs d')) -> (length (all_pairs d') <= K')%nat ->
    share M' K' (p2p_random d' c) (gave (map (map rp) gtl)) = share M K (p2p_random d c) (gave gtl).
  Proof.
    intros F HK F' HK'.
    assert (Both : (exists tl, Schedule d c gtl tl /\ Stopped d gtl tl) ->
      share M' K' (p2p_random d' c) (gave (map (map rp) gtl)) = share M K (p2p_random d c) (gave gtl)).
    { intros (tl & Sc & St). destruct (chance_exists d c Hl gtl tl Sc) as (w & Ch).
      rewrite (p2p_law d c Hl Hq M F gtl tl w K Ch St HK).
      apply (p2p_law d' c Hl' g_nonneg M' F' _ (map rt tl) w K' (g_chance _ _ _ Ch) (proj1 (g_stopped gtl tl) St) HK'). }
    destruct (existsb (fun l => gave gtl (p2p_random d c (st l))) (draws M K)) eqn:X.
    { apply Both. apply existsb_exists in X. destruct X as (l & _ & G). destruct (p2p_random d c (st l)) as [[tm ex]|e] eqn:E; [|discriminate].
      destruct (p2p_is_schedule d c Hl Hq _ tm ex E) as (g & -> & Sc & St). unfold gave in G. destruct (list_eq_dec _ g gtl) as [->|]; [|discriminate]. eauto. }
    destruct (existsb (fun l => gave (map (map rp) gtl) (p2p_random d' c (st l))) (draws M' K')) eqn:X'.
    { apply Both. apply existsb_exists in X'. destruct X' as (l & _ & G). destruct (p2p_random d' c (st l)) as [[tm ex]|e] eqn:E; [|discriminate].
      destruct (p2p_is_schedule d' c Hl' g_nonneg _ tm ex E) as (g & -> & Sc & St). unfold gave in G. destruct (list_eq_dec _ g (map (map rp) gtl)) as [->|]; [|discriminate].
      destruct (g_sched_back gtl _ Sc) as (tl & Et & Sc'). rewrite Et in St. exists tl. split; [exact Sc' | apply g_stopped, St]. }
    assert (Z : forall d0 gtl0 M0 K0, (0 < M0)%nat -> existsb (fun l => gave gtl0 (p2p_random d0 c (st l))) (draws M0 K0) = false -> share M0 K0 (p2p_random d0 c) (gave gtl0) = 0).
    { intros d0 gtl0 M0 K0 H0 E. unfold share. rewrite (mean_ext _ (fun _ => 0)); [apply mean_const, draws_some, H0|]. intros l I.
      destruct (gave gtl0 (p2p_random d0 c (st l))) eqn:G; [|reflexivity]. exfalso. apply not_true_iff_false in E. apply E, existsb_exists. eauto. }
    rewrite (Z _ _ _ _ (proj1 F) X), (Z _ _ _ _ (proj1 F') X'). reflexivity.
  Qed.
End Rename.
