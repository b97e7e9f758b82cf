(** The outcome of [muda] and of one half in terms of the specifications. *)
From Verif Require Import QcTac Num ModelBase ModelCurves ModelHuang ModelMuda ListFacts StoreFacts
  Spec SpecTrade SpecMuda TradeFacts MudaSide MudaHalf MudaSolve MudaOutcome MudaFacts MudaTruth MudaPrice MudaErrors.

Lemma left_spec ls : NoDup ls -> forall fl n i, nth_error ls n = Some i -> In i (pick_left ls fl) <-> nth n fl false = true.
Proof.
  induction 1 as [|a ls Na Nd IH]; intros fl n i E; [destruct n; discriminate|].
  destruct fl as [|b fl]; [simpl; split; [contradiction | destruct n; discriminate]|].
  destruct n as [|n]; simpl in E.
  - injection E as <-. destruct b; simpl; [tauto|]. split; [|discriminate]. intro H. apply pick_left_sub in H. contradiction.
  - assert (a <> i) by (intros ->; apply Na; exact (nth_error_In _ _ E)). specialize (IH fl n i E).
    destruct b; simpl; [|exact IH]. rewrite <- IH. split; [intros [?|?]; [contradiction | assumption] | auto].
Qed.

Section Top.
  Variables (S : sorter) (d : df) (fl : list bool) (tm : transmgr) (ex : extra).
  Hypothesis Hq : qty_nonneg d.
  Hypothesis Hu : labels_unique d.
  Hypothesis E : muda S d fl = Ok (tm, ex).

  Lemma top_split : exists l r pl pr fees, ex = XMuda l r pl pr fees /\ Permutation (l ++ r) (map lbl d) /\
    (forall i, In i l -> ~ In i r) /\ (forall n row, nth_error d n = Some row -> (In (lbl row) l <-> nth n fl false = true)) /\
    find_competitive_price S (rows_in l d) = Ok pl /\ find_competitive_price S (rows_in r d) = Ok pr /\
    forall t, In t (tm_trans tm) -> (In (t_bid t) l /\ pr = Fin (t_price t)) \/ (In (t_bid t) r /\ pl = Fin (t_price t)).
  Proof.
    destruct (muda_ok S d fl tm ex Hq Hu E) as (tlL & tlR & pl & pr & f1 & f2 & M & Et & ->).
    exists (left_of d fl), (right_of d fl), pl, pr, f2. split; [reflexivity|]. split; [apply halves_perm, Hu|].
    split; [intro i; apply L_R|]. split.
    - intros n row Hn. apply left_spec; [exact Hu | rewrite nth_error_map, Hn; reflexivity].
    - split; [apply M|]. split; [apply M|]. intros t Ht. rewrite Et in Ht. apply (muda_const _ _ _ _ _ _ _ _ _ M t Ht).
  Qed.

  Lemma half_facts h p : half_of ex d h p -> exists fees tl fees', HalfRes h p fees tl fees' /\
    bought h (tm_trans tm) = bought h tl /\ sold h (tm_trans tm) = sold h tl /\ forall r, In r h -> traded_by (lbl r) (tm_trans tm) = traded_by (lbl r) tl.
  Proof.
    destruct (muda_ok S d fl tm ex Hq Hu E) as (tlL & tlR & pl & pr & f1 & f2 & M & Et & ->). rewrite Et. simpl. intros [[-> ->]|[-> ->]].
    - exists (zero_fees d), tlL, f1. split; [apply M|]. destruct (sums_left _ _ _ _ _ _ _ _ _ M) as [A B]. split; [exact A|]. split; [exact B|].
      intros r Hr. apply rows_in_In in Hr. apply (traded_left _ _ _ _ _ _ _ _ _ M), Hr.
    - exists f1, tlR, f2. split; [apply M|]. destruct (sums_right _ _ _ _ _ _ _ _ _ M) as [A B]. split; [exact A|]. split; [exact B|].
      intros r Hr. apply rows_in_In in Hr. apply (traded_right _ _ _ _ _ _ _ _ _ M), Hr.
  Qed.

  Lemma top_safe : refer d (tm_trans tm) /\ once (tm_trans tm) /\ feasible d (tm_trans tm) /\ rational d (tm_trans tm) /\
    (forall t, In t (tm_trans tm) -> t_source t = (-1)%Z /\ t_active t = false) /\
    forall h p, half_of ex d h p -> bought h (tm_trans tm) = sold h (tm_trans tm) /\
      forall t r, In t (tm_trans tm) -> In r h -> lbl r = t_bid t -> p = Fin (t_price t).
  Proof.
    destruct (muda_ok S d fl tm ex Hq Hu E) as (tlL & tlR & pl & pr & f1 & f2 & M & Et & Ex). rewrite Et.
    split; [exact (muda_refer _ _ _ _ _ _ _ _ _ M)|]. split; [exact (muda_once _ _ _ _ _ _ _ _ _ M)|].
    split; [eapply muda_feasible; eauto|]. split; [exact (muda_rational _ _ _ _ _ _ _ _ _ M)|].
    split; [intros t Ht; destruct (muda_const _ _ _ _ _ _ _ _ _ M t Ht) as (A & B & _); auto|].
    rewrite Ex. simpl. destruct (muda_balanced _ _ _ _ _ _ _ _ _ M) as [B1 B2].
    intros h p [[-> ->]|[-> ->]]; (split; [assumption|]); intros t r Ht Hr El; apply rows_in_In in Hr; rewrite El in Hr; destruct (muda_const _ _ _ _ _ _ _ _ _ M t Ht) as (_ & _ & [[A B]|[A B]]).
    - exact B.
    - exfalso. apply (L_R d fl (t_bid t)); [apply Hr | exact A].
    - exfalso. apply (L_R d fl (t_bid t)); [exact A | apply Hr].
    - exact B.
  Qed.

  Lemma top_volume h p : half_of ex d h p -> bought h (tm_trans tm) = volume h p /\ sold h (tm_trans tm) = volume h p.
  Proof.
    intro H. destruct (half_facts h p H) as (fees & tl & fees' & R & A & B & _). rewrite A, B. destruct p as [q| | |]; simpl in R |- *.
    1: split; [apply (ho_bought _ _ _ _ _ R) | apply (ho_sold _ _ _ _ _ R)].
    all: destruct R as [-> _]; split; reflexivity.
  Qed.
  Lemma top_priority h q : half_of ex d h (Fin q) ->
    (forall r1 r2, In r1 h -> In r2 h -> buying r1 = buying r2 -> gain q r2 < gain q r1 ->
       traded_by (lbl r1) (tm_trans tm) < qty r1 -> traded_by (lbl r2) (tm_trans tm) = 0) /\
    (forall r, In r h -> buying r = negb (long_side h q) -> 0 <= gain q r -> traded_by (lbl r) (tm_trans tm) = qty r) /\
    (forall b, best_gain (side_of b h) q (side_qty (negb b) h q) (fill_gain (side_of b h) q (fun i => traded_by i (tm_trans tm)))).
  Proof.
    intro H. destruct (half_facts h (Fin q) H) as (fees & tl & fees' & R & _ & _ & T). simpl in R. split; [|split].
    - intros r1 r2 H1 H2. rewrite (T r1 H1), (T r2 H2). apply (ho_priority _ _ _ _ _ R); assumption.
    - intros r Hr. rewrite (T r Hr). apply (ho_short _ _ _ _ _ R); exact Hr.
    - intro b. replace (fill_gain (side_of b h) q (fun i => traded_by i (tm_trans tm))) with (fill_gain (side_of b h) q (fun i => traded_by i tl)); [apply (ho_best _ _ _ _ _ R)|].
      unfold fill_gain. apply qsumf_ext. intros r Hr. apply filter_In in Hr. rewrite (T r (proj1 Hr)). reflexivity.
  Qed.

  Lemma top_fees : (forall r, In r d -> (0 <= user r)%Z) ->
    exists l r pl pr fees, ex = XMuda l r pl pr fees /\ forall u, (0 <= u)%Z ->
      0 <= fee_of fees u /\ fee_of fees u <= profit d u (tm_trans tm) /\
      exists tlL tlR vl vr, tm_trans tm = tlL ++ tlR /\ (forall t, In t tlL -> In (t_bid t) l) /\ (forall t, In t tlR -> In (t_bid t) r) /\
        HalfFee (rows_in l d) pr tlL u vl /\ HalfFee (rows_in r d) pl tlR u vr /\
        (fee_of fees u = vl \/ fee_of fees u = vr) /\
        ((forall ql qr, pr = Fin ql -> pl = Fin qr -> ~ (trades_on (long_side (rows_in l d) ql) (rows_in l d) tlL u /\ trades_on (long_side (rows_in r d) qr) (rows_in r d) tlR u)) ->
         fee_of fees u = vl + vr).
  Proof.
    intro Hn. destruct (muda_ok S d fl tm ex Hq Hu E) as (tlL & tlR & pl & pr & f1 & f2 & M & Et & Ex).
    exists (left_of d fl), (right_of d fl), pl, pr, f2. split; [exact Ex|]. intros u H0. rewrite Et.
    destruct (muda_fees S d fl tlL tlR pl pr f1 f2 Hq Hu Hn M u H0) as (vl & vr & A1 & A2 & A3 & A4 & A5 & A6 & A7 & A8 & A9).
    rewrite (profit_split _ _ _ _ _ _ _ _ _ M u).
    split; [destruct A9 as [->| ->]; assumption|]. split; [destruct A9 as [->| ->]; qlra|].
    exists tlL, tlR, vl, vr. split; [reflexivity|]. split; [exact (tlL_lbl _ _ _ _ _ _ _ _ _ M)|]. split; [exact (tlR_lbl _ _ _ _ _ _ _ _ _ M)|].
    split; [exact A1|]. split; [exact A2|]. split; [exact A9|]. intro NB.
    destruct pl as [qr| | |].
    2-4: destruct A3 as [-> ->]; [intros q X; discriminate | ring].
    destruct (trades_on_dec (long_side (rows_in (right_of d fl) d) qr) (rows_in (right_of d fl) d) tlR u) as [T|T].
    2: { destruct A3 as [-> ->]; [intros q X; injection X as <-; exact T | ring]. }
    rewrite (A4 qr eq_refl T). assert (vl = 0) as ->; [|ring].
    destruct pr as [ql| | |]; simpl in A1; [|exact A1..].
    apply A1. intro T'. exact (NB ql qr eq_refl eq_refl (conj T' T)).
  Qed.
End Top.

(** the price at which a half trades only depends on the rows of the other half *)
Lemma top_independent S d d' fl fl' tm tm' l r pl pr fees l' r' pl' pr' fees' :
  qty_nonneg d -> labels_unique d -> qty_nonneg d' -> labels_unique d' ->
  muda S d fl = Ok (tm, XMuda l r pl pr fees) -> muda S d' fl' = Ok (tm', XMuda l' r' pl' pr' fees') ->
  (rows_in r d = rows_in r' d' -> pr' = pr) /\ (rows_in l d = rows_in l' d' -> pl' = pl).
Proof.
  intros Hq Hu Hq' Hu' E E'.
  destruct (top_split S d fl tm _ Hq Hu E) as (l1 & r1 & pl1 & pr1 & f1 & X & _ & _ & _ & P1 & P2 & _). injection X as <- <- <- <- <-.
  destruct (top_split S d' fl' tm' _ Hq' Hu' E') as (l2 & r2 & pl2 & pr2 & f2 & X & _ & _ & _ & Q1 & Q2 & _). injection X as <- <- <- <- <-.
  split; intro R; rewrite <- R in *; congruence.
Qed.

(** truthfulness *)
Lemma top_truthful S d d' fl tm tm' l r pl pr fees l' r' pl' pr' fees' u b :
  qty_nonneg d -> labels_unique d -> (forall x, In x d -> (0 <= user x)%Z) -> (0 <= u)%Z ->
  (forall x, In x d -> user x = u -> buying x = b) -> Forall2 (misreport u) d d' ->
  muda S d fl = Ok (tm, XMuda l r pl pr fees) -> muda S d' fl = Ok (tm', XMuda l' r' pl' pr' fees') ->
  (forall x, In x d -> user x = u -> In (lbl x) l) \/ (forall x, In x d -> user x = u -> In (lbl x) r) ->
  profit d u (tm_trans tm') - fee_of fees' u <= profit d u (tm_trans tm) - fee_of fees u.
Proof.
  intros Hq Hu Hn H0 Hb HR E E' Hh.
  assert (Hq' : qty_nonneg d') by (intros x' Hx'; destruct (mis_in' u d d' x' HR Hx') as (x & _ & _ & _ & _ & G & _); exact G).
  assert (Hu' : labels_unique d') by (unfold labels_unique; rewrite (mis_lbl u d d' HR); exact Hu).
  destruct (muda_ok S d fl tm _ Hq Hu E) as (tlL & tlR & pl1 & pr1 & f1 & f2 & M & Et & X). injection X as -> -> <- <- <-.
  destruct (muda_ok S d' fl tm' _ Hq' Hu' E') as (tlL' & tlR' & pl1' & pr1' & f1' & f2' & M' & Et' & X'). injection X' as _ _ <- <- <-.
  rewrite Et, Et'. eapply muda_truthful; eauto.
Qed.

(** one half *)
Lemma side_outcome S d p fees tm fees' : qty_nonneg d -> labels_unique d -> solve_market_side S d p fees = Ok (tm, fees') ->
  (forall r, In r d -> (0 <= user r)%Z) -> forall u, (0 <= u)%Z -> fee_of fees u = 0 ->
  HalfFee d p (tm_trans tm) u (fee_of fees' u) /\ 0 <= fee_of fees' u /\ fee_of fees' u <= profit d u (tm_trans tm).
Proof.
  intros Hq Hu E Hn u H0 Hf. apply (half_res S) in E; [|assumption..].
  destruct (res_half_fee d p fees (tm_trans tm) fees' u Hn H0 E) as (v & A1 & A2 & _).
  assert (fee_of fees' u = v) as -> by (destruct A2 as [A2|[A2 A3]]; congruence).
  split; [exact A1|]. apply (half_fee_le d p fees (tm_trans tm) fees' u v); assumption.
Qed.

Lemma muda_runs S d fl tm l r pl pr fees : labels_unique d -> muda S d fl = Ok (tm, XMuda l r pl pr fees) ->
  exists tl f1 tr, solve_market_side S (rows_in l d) pr (zero_fees d) = Ok (tl, f1) /\
    solve_market_side S (rows_in r d) pl f1 = Ok (tr, fees) /\ tm_trans tm = tm_trans tl ++ tm_trans tr /\
    find_competitive_price S (rows_in r d) = Ok pr /\ l = left_of d fl /\ r = right_of d fl.
Proof.
  intros Hu E. rewrite muda_eq in E by exact Hu. unfold check_equal_price in E. destruct (_ || _); [discriminate|].
  unfold muda_body in E.
  destruct (find_competitive_price S (rows_in (left_of d fl) d)) as [pl1|] eqn:El; [|discriminate]. cbn [bind] in E.
  destruct (find_competitive_price S (rows_in (right_of d fl) d)) as [pr1|] eqn:Er; [|discriminate]. cbn [bind] in E.
  destruct (solve_market_side S (rows_in (left_of d fl) d) pr1 (zero_fees d)) as [[tl f1]|] eqn:E1; [|discriminate]. cbn [bind] in E.
  destruct (solve_market_side S (rows_in (right_of d fl) d) pl1 f1) as [[tr f2]|] eqn:E2; [|discriminate]. cbn [bind] in E.
  injection E as <- <- <- <- <- <-. exists tl, f1, tr. rewrite tm_merge_trans. auto 8.
Qed.

(** a user on the long side of both halves is charged in both, the second fee replaces the first *)
Lemma fee_lost S d fl tm l r pl pr fees u a c : qty_nonneg d -> labels_unique d -> (forall x, In x d -> (0 <= user x)%Z) -> (0 <= u)%Z ->
  muda S d fl = Ok (tm, XMuda l r pl pr fees) ->
  match find_competitive_price S (rows_in (right_of d fl) d) with
  | Ok p => match solve_market_side S (rows_in (left_of d fl) d) p (zero_fees d) with Ok (_, f) => this (fee_of f u) = a | _ => False end
  | _ => False end ->
  this (fee_of fees u) = c -> a <> 0%Q -> a <> c ->
  exists tlL tlR vl vr, tm_trans tm = tlL ++ tlR /\ HalfFee (rows_in l d) pr tlL u vl /\ HalfFee (rows_in r d) pl tlR u vr /\
    fee_of fees u <> vl + vr.
Proof.
  intros Hq Hu Hn H0 E Ha Hc Na Nc. destruct (muda_runs S d fl tm l r pl pr fees Hu E) as (tl & f1 & tr & E1 & E2 & Et & Er & -> & ->).
  rewrite Er, E1 in Ha.
  assert (N' : forall ls x, In x (rows_in ls d) -> (0 <= user x)%Z) by (intros ls x Hx; apply rows_in_In in Hx; apply Hn, Hx).
  destruct (side_outcome S _ pr (zero_fees d) tl f1 (half_qty _ d Hq) (rows_in_unique _ d Hu) E1 (N' _) u H0 (fees_zero _ u)) as (F1 & _).
  pose proof (half_res S _ _ _ _ _ (half_qty _ d Hq) (rows_in_unique _ d Hu) E2) as R2.
  destruct (res_half_fee _ _ _ _ _ u (N' _) H0 R2) as (v & V1 & V2 & _).
  exists (tm_trans tl), (tm_trans tr), (fee_of f1 u), v. split; [exact Et|]. split; [exact F1|]. split; [exact V1|].
  destruct V2 as [V2|[V2 _]]; [|exfalso; congruence]. rewrite V2. intro X.
  assert (fee_of f1 u = 0) as Z by (replace (fee_of f1 u) with (fee_of f1 u + v - v) by ring; rewrite <- X; ring).
  apply Na. rewrite <- Ha, Z. reflexivity.
Qed.
