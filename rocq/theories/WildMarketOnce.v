(** [Market.run('huang')] with infinite and NaN prices: each bid has at most one transaction. *)
From Verif Require Import QcTac Num NumFacts ListFacts ModelBase ModelHuang ModelMerge ModelAny ModelWild ModelWildMarket Spec SpecWild SpecWildMarket UpdateFacts HuangFacts MergeFacts WildSort WildCap WildTop WildMarket WildMarketTop.

Lemma NoDup_app_i {A} (l l' : list A) : NoDup l -> NoDup l' -> (forall x, In x l -> ~ In x l') -> NoDup (l ++ l').
Proof.
  induction l as [|x l IH]; intros N N' H; [exact N'|]. inversion N as [|? ? N1 N2]; subst. cbn. constructor.
  - intro I. apply in_app_or in I. destruct I as [I|I]; [exact (N1 I) | exact (H x (or_introl eq_refl) I)].
  - apply IH; auto. intros y Hy. apply H. right. exact Hy.
Qed.
(** lists of different keys do not overlap *)
Lemma flat_NoDup {A B} (g : A -> list B) l : NoDup l -> (forall a, In a l -> NoDup (g a)) -> (forall a b x, In a l -> In b l -> In x (g a) -> In x (g b) -> a = b) -> NoDup (flat_map g l).
Proof.
  induction 1 as [|a l N1 N IH]; intros H D; [constructor|]. cbn. apply NoDup_app_i.
  - apply H. left. reflexivity.
  - apply IH; [intros b Hb; apply H; right; exact Hb | intros b c x Hb Hc; apply D; right; assumption].
  - intros x Hx C. apply in_flat_map in C. destruct C as (b & Hb & Hxb). rewrite (D a b x (or_introl eq_refl) (or_intror Hb) Hx Hxb) in N1. contradiction.
Qed.
Lemma map_filter_NoDup {A B} (f : A -> B) p l : NoDup (map f l) -> NoDup (map f (filter p l)).
Proof.
  induction l as [|x l IH]; intro N; [exact N|]. inversion N as [|? ? N1 N2]; subst. cbn. destruct (p x); [|apply IH, N2]. cbn. constructor; [|apply IH, N2].
  intro I. apply N1. apply in_map_iff in I. destruct I as (y & E & Hy). apply filter_In in Hy. rewrite <- E. apply in_map, Hy.
Qed.
Lemma NoDup_app_l {A} (l l' : list A) : NoDup (l ++ l') -> NoDup l.
Proof. induction l as [|x l IH]; intro N; [constructor|]. inversion N as [|? ? N1 N2]; subst. constructor; [intro I; apply N1, in_or_app; auto | apply IH, N2]. Qed.
Lemma emit_bids l qs p : length qs = length l -> map x_bid (w_emit l qs p) = map w_lbl l.
Proof.
  revert qs. induction l as [|x l IH]; intros [|q qs] H; try discriminate; [reflexivity|]. cbn in H. injection H as H.
  unfold w_emit. cbn [combine map fst snd]. fold (w_emit l qs p). rewrite IH by exact H. reflexivity.
Qed.
Lemma once_le ts i t : NoDup (map x_bid ts) -> In t ts -> x_bid t = i -> w_gets ts i = x_qty t.
Proof.
  unfold w_gets. intros N H <-. induction ts as [|u ts IH]; [contradiction|]. inversion N as [|? ? N1 N2]; subst. cbn [filter]. destruct H as [->|H].
  - rewrite Nat.eqb_refl, qsumf_cons. rewrite filter_nil; [cbn; ring|]. intros v Hv. apply Nat.eqb_neq. intro C. apply N1. rewrite <- C. apply in_map, Hv.
  - destruct (Nat.eqb_spec (x_bid u) (x_bid t)) as [C|C]; [exfalso; apply N1; rewrite C; apply in_map, H | apply IH; assumption].
Qed.

Section Run.
  Variable S : wsorter.
  Variable smp : nat -> nat.
  Variable cnt : Z.
  Variable d : wdf.
  Hypothesis HP : w_positions d.
  Hypothesis Hq : w_qty_pos d.
  Hypothesis Hb : priced true d.
  Hypothesis Hs : priced false d.

  Lemma d_NoDup : NoDup (map w_lbl d). Proof. rewrite HP. apply seq_NoDup. Qed.
  (** the bids of a transaction after splitting are those of the merged row *)
  Lemma split_bids mp l l' : w_split d mp l = Ok l' -> map x_bid l' = flat_map (fun t => match nth_error mp (x_bid t) with Some ls => ls | None => [] end) l.
  Proof.
    revert l'. induction l as [|t l IH]; intros l' E; cbn [w_split] in E; [injection E as <-; reflexivity|].
    destruct (w_split_one d mp t) as [a|e] eqn:Ea; [|discriminate]. cbn [bind] in E. destruct (w_split d mp l) as [c|e] eqn:Ec; [|discriminate]. cbn [bind] in E. injection E as <-.
    rewrite map_app, (IH c eq_refl). cbn [flat_map]. f_equal. unfold w_split_one in Ea. destruct (nth_error mp (x_bid t)) as [ls|]; [|discriminate].
    destruct (w_iloc d ls) as [rs|e] eqn:El; [|discriminate]. cbn [bind] in Ea. cbv zeta in Ea. destruct (qeqb _ _); [destruct ls; [injection Ea as <-; reflexivity | discriminate]|]. injection Ea as <-.
    rewrite map_map. cbn [x_bid]. clear - El. revert rs El. induction ls as [|i ls IH]; intros rs El; [reflexivity|]. cbn [w_iloc] in El.
    destruct (nth_error d i) as [r|]; [|discriminate]. destruct (w_iloc d ls) as [rs'|]; [|discriminate]. cbn [bind] in El. injection El as <-. cbn. f_equal. apply IH. reflexivity.
  Qed.
  Theorem run_once ts e : w_run_huang S smp cnt d = Ok (ts, e) -> NoDup (map x_bid ts).
  Proof.
    destruct (run_is S smp cnt d Hb Hs) as (mb & ms & Fb & Fs & Lb & _ & _ & ->). intro E.
    assert (Hq' : w_qty_nonneg (map fst (mb ++ ms))) by (intros x Hx; apply Qclt_le_weak, (m_qty_pos d mb ms Fb Fs Hq x Hx)).
    assert (Nl : NoDup (map w_lbl (map fst (mb ++ ms)))) by (rewrite Lb; apply seq_NoDup).
    destruct (w_huang S (map fst (mb ++ ms))) as [[ts0 e0]|er] eqn:EH; [|discriminate]. cbn [bind] in E. destruct (w_split d (map snd (mb ++ ms)) ts0) as [ts'|er] eqn:ES; [|discriminate].
    cbn [bind] in E. injection E as -> ->.
    assert (N0 : NoDup (map x_bid ts0)).
    { destruct (w_cases S _ Hq') as [C|(B1 & B2 & L1 & rs & L2 & pb & q & ts1 & EB & EL & _ & _ & C & D)]; rewrite EH in C; injection C as -> _; [constructor|].
      destruct D as [(_ & -> & _)|(qs & qb & Rs & Rb & _ & _ & _ & ->)]; [constructor|].
      rewrite map_app, !emit_bids by (rewrite (rationed_length _ _ Rs) || rewrite (rationed_length _ _ Rb); apply map_length).
      apply NoDup_app_i.
      - apply (NoDup_app_l _ (map w_lbl (rs :: L2))). rewrite <- map_app, <- EL. apply (Permutation_NoDup (l := map w_lbl (w_sellers (map fst (mb ++ ms))))); [apply Permutation_sym, Permutation_map, w_asc_perm|]. apply map_filter_NoDup, Nl.
      - apply (NoDup_app_l _ (map w_lbl B2)). rewrite <- map_app, <- EB. apply (Permutation_NoDup (l := map w_lbl (w_buyers (map fst (mb ++ ms))))); [apply Permutation_sym, Permutation_map, w_desc_perm|]. apply map_filter_NoDup, Nl.
      - intros i Hi Hj. apply in_map_iff in Hi, Hj. destruct Hi as (x & Ex & Hx), Hj as (y & Ey & Hy).
        destruct (in_L S (map fst (mb ++ ms)) x) as [X1 X2]; [rewrite EL; apply in_or_app; auto|]. destruct (in_B S (map fst (mb ++ ms)) y) as [Y1 Y2]; [rewrite EB; apply in_or_app; auto|].
        assert (x = y); [|subst y; congruence]. clear - Nl X1 Y1 Ex Ey. assert (G : w_lbl x = w_lbl y) by congruence. clear Ex Ey i. induction (map fst (mb ++ ms)) as [|z l IH]; [contradiction|].
        inversion Nl as [|? ? N1 N2]; subst. destruct X1 as [->|X1], Y1 as [->|Y1]; auto; exfalso; apply N1; [rewrite G | rewrite <- G]; apply in_map; assumption. }
    rewrite (split_bids _ _ _ ES). rewrite flat_map_concat_map, <- (map_map x_bid (fun i => match nth_error (map snd (mb ++ ms)) i with Some ls => ls | None => [] end)), <- flat_map_concat_map.
    assert (G : forall i ls, nth_error (map snd (mb ++ ms)) i = Some ls -> exists r rs, nth_error (map fst (mb ++ ms)) i = Some r /\ ls = map w_lbl rs /\
      (forall x, In x rs -> In x d /\ w_buying x = w_buying r /\ n_round 5 (w_price x) = w_price r) /\ NoDup ls).
    { intros i ls Hi. destruct (nth_error (map fst (mb ++ ms)) i) as [r|] eqn:Er.
      - destruct (m_row d mb ms Fb Fs i r ls Er Hi) as (rs & -> & _ & Hin & _ & _ & Ers). exists r, rs. split; [reflexivity|]. split; [reflexivity|]. split; [exact Hin|].
        rewrite Ers. unfold wgrp. apply map_filter_NoDup, map_filter_NoDup, d_NoDup.
      - exfalso. apply nth_error_None in Er. assert (K : (i < length (map snd (mb ++ ms)))%nat) by (apply nth_error_Some; congruence). rewrite map_length in *. lia. }
    apply flat_NoDup; [exact N0| |].
    - intros i _. destruct (nth_error (map snd (mb ++ ms)) i) as [ls|] eqn:Ei; [|constructor]. destruct (G i ls Ei) as (_ & _ & _ & _ & _ & K). exact K.
    - intros i j v _ _ Hi Hj. destruct (nth_error (map snd (mb ++ ms)) i) as [li|] eqn:Ei; [|contradiction]. destruct (nth_error (map snd (mb ++ ms)) j) as [lj|] eqn:Ej; [|contradiction].
      destruct (G i li Ei) as (r & rs & Er & -> & Hr & _), (G j lj Ej) as (r' & rs' & Er' & -> & Hr' & _).
      apply in_map_iff in Hi, Hj. destruct Hi as (x & Ex & Hx), Hj as (y & Ey & Hy). destruct (Hr x Hx) as (X1 & X2 & X3), (Hr' y Hy) as (Y1 & Y2 & Y3).
      assert (x = y).
      { assert (Nd := d_NoDup). clear - Nd X1 Y1 Ex Ey. assert (G : w_lbl x = w_lbl y) by congruence. clear Ex Ey. induction d as [|z l IH]; [contradiction|].
        inversion Nd as [|? ? N1 N2]; subst. destruct X1 as [->|X1], Y1 as [->|Y1]; auto; exfalso; apply N1; [rewrite G | rewrite <- G]; apply in_map; assumption. }
      subst y. assert (Eb : w_buying r = w_buying r') by congruence. assert (Ep : w_price r = w_price r') by congruence. clear - Er Er' Eb Ep Fb Fs.
      assert (K : forall side b l, Forall2 (went side b) (w_side_keys 5 side) l -> NoDup (map w_price (map fst l)) /\ forall z, In z (map fst l) -> w_buying z = b).
      { intros side b l F. split; [|apply (entries_buying _ _ _ _ F)]. replace (map w_price (map fst l)) with (w_side_keys 5 side); [apply n_keys_NoDup|].
        induction F as [|k rm ks l' (A & _) F IH]; [reflexivity|]. cbn. rewrite A, IH. reflexivity. }
      destruct (K _ _ _ Fb) as [Nb Sb], (K _ _ _ Fs) as [Nq Sq].
      assert (ND : NoDup (map (fun z => (w_buying z, w_price z)) (map fst (mb ++ ms)))).
      { assert (Z : forall l, NoDup (map w_price l) -> NoDup (map (fun z => (w_buying z, w_price z)) l)).
        { intros l N. apply (NoDup_map_inv snd). rewrite map_map. exact N. }
        rewrite !map_app. apply NoDup_app_i; [apply Z, Nb | apply Z, Nq|]. intros p Hp Hp'. apply in_map_iff in Hp, Hp'. destruct Hp as (z & <- & Hz), Hp' as (z' & Ez & Hz').
        rewrite (Sb z Hz) in Ez. rewrite (Sq z' Hz') in Ez. discriminate. }
      rewrite NoDup_nth_error in ND. apply ND; [rewrite map_length; apply nth_error_Some; congruence|]. rewrite (map_nth_error _ _ _ Er), (map_nth_error _ _ _ Er'). congruence.
  Qed.
  (** nobody gets more than the bid, in total; NaN bids get nothing *)
  Theorem run_total ts e : (forall x, In x d -> w_buying x = false -> nltb (w_price x) (Fin 0) = false) -> w_run_huang S smp cnt d = Ok (ts, e) ->
    NoDup (map x_bid ts) /\ (forall x, In x d -> 0 <= w_gets ts (w_lbl x) /\ w_gets ts (w_lbl x) <= w_qty x /\ (w_price x = NaN -> ~ In (w_lbl x) (map x_bid ts))).
  Proof.
    intros Hn E. pose proof (run_once ts e E) as N. split; [exact N|]. intros x Hx. destruct (run_fair S smp cnt d HP Hq Hb Hs Hn) as (ss & bs & e' & E' & _ & P1 & P2).
    rewrite E' in E. injection E as <- <-.
    assert (K : forall t, In t (ss ++ bs) -> x_bid t = w_lbl x -> 0 <= x_qty t /\ x_qty t <= w_qty x /\ respects (round_row x) t).
    { intros t Ht L. assert (P : exists b, part_ok d b t) by (apply in_app_or in Ht; destruct Ht as [Ht|Ht]; eauto). destruct P as (b & y & Hy & _ & Ly & R1 & R2 & R3).
      assert (x = y); [|subst y; auto]. assert (Nd := d_NoDup). clear - Nd Hx Hy L Ly. assert (G : w_lbl x = w_lbl y) by congruence. clear L Ly. induction d as [|z l IH]; [contradiction|].
      inversion Nd as [|? ? N1 N2]; subst. destruct Hx as [->|X1], Hy as [->|Y1]; auto; exfalso; apply N1; [rewrite G | rewrite <- G]; apply in_map; assumption. }
    destruct (in_dec Nat.eq_dec (w_lbl x) (map x_bid (ss ++ bs))) as [I|I].
    - apply in_map_iff in I. destruct I as (t & L & Ht). rewrite (once_le _ _ t N Ht L). destruct (K t Ht L) as (K1 & K2 & K3). split; [exact K1|]. split; [exact K2|].
      intros Z _. unfold respects in K3. cbn [round_row w_buying w_price] in K3. rewrite Z in K3. cbn [n_round] in K3. destruct (w_buying x), (x_price t); discriminate K3.
    - replace (w_gets (ss ++ bs) (w_lbl x)) with 0; [split; [qlra|]; split; [apply Qclt_le_weak, Hq, Hx | auto]|].
      unfold w_gets. rewrite filter_nil; [reflexivity|]. intros t Ht. apply Nat.eqb_neq. intro C. apply I. rewrite <- C. apply in_map, Ht.
  Qed.
End Run.
