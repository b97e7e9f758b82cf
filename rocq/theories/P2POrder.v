(** The outcomes of the peer to peer mechanism do not depend on the order of the bids. *)
From Coq Require Import FinFun.
From Verif Require Import QcTac Num ModelBase ModelHuang ModelP2P ModelMarket ListFacts Spec SpecTrade SpecP2P SpecOrder StoreFacts P2PFacts P2PTrades P2PSchedule MarketOrder.

Section Rename.
  Variables (d d' : df) (c : Qc) (f : nat -> nat).
  Hypothesis Hf : Injective f.
  Let ren (r : row) : row := mkRow (f (lbl r)) (qty r) (price r) (user r) (buying r) (time r) (divisible r).
  Hypothesis H1 : forall x, In x d -> In (ren x) d'.
  Hypothesis H2 : forall x', In x' d' -> exists x, In x d /\ x' = ren x.
  Notation rt := (rename_trans f).
  Notation rp := (rename_pair f).

  Lemma traded_ren i tl : traded_by (f i) (map rt tl) = traded_by i tl.
  Proof.
    unfold traded_by. induction tl as [|t tl IH]; [reflexivity|]. cbn [map filter rename_trans t_bid].
    assert (E : Nat.eqb (f (t_bid t)) (f i) = Nat.eqb (t_bid t) i).
    { destruct (Nat.eqb_spec (t_bid t) i) as [->|N]; [apply Nat.eqb_refl|]. apply Nat.eqb_neq. intro X. apply N, Hf, X. }
    rewrite E. destruct (Nat.eqb (t_bid t) i); rewrite ?qsumf_cons, IH; reflexivity.
  Qed.
  Lemma rest_ren x tl : rest (ren x) (map rt tl) = rest x tl.
  Proof. unfold rest, ren. cbn [lbl qty]. rewrite traded_ren. reflexivity. Qed.
  Lemma deal_ren x y tl : deal c (ren x) (ren y) (map rt tl) = map rt (deal c x y tl).
  Proof.
    unfold deal. rewrite !rest_ren. unfold ren. cbn [price lbl]. destruct (qleb (price y) (price x)); cbn [map]; unfold rename_trans; cbn [t_bid t_qty t_price t_source t_active];
      rewrite !Nat2Z.id, !(proj2 (Z.ltb_ge _ 0)) by lia; reflexivity.
  Qed.
  Lemma deals_ren tl L tl' : Deals d c tl L tl' -> Deals d' c (map rt tl) (map rp L) (map rt tl').
  Proof.
    induction 1 as [|tl x y L tl' Hx Hy Bx By D IH]; [constructor|]. cbn [map]. change (rp (lbl x, lbl y)) with (lbl (ren x), lbl (ren y)).
    constructor; [apply H1, Hx | apply H1, Hy | exact Bx | exact By|]. rewrite deal_ren, <- map_app. exact IH.
  Qed.
  Lemma pair_inj p q : rp p = rp q -> p = q.
  Proof. destruct p as [a b], q as [a' b']. unfold rename_pair. cbn [fst snd]. intro E. injection E as E1 E2. rewrite (Hf _ _ E1), (Hf _ _ E2). reflexivity. Qed.
  Lemma in_ren p met : In (rp p) (map rp met) <-> In p met.
  Proof. rewrite in_map_iff. split; [intros (q & E & I); apply pair_inj in E; subst; exact I | intro I; exists p; auto]. Qed.
  Lemma may_ren met tl p : may_meet d met tl p <-> may_meet d' (map rp met) (map rt tl) (rp p).
  Proof.
    assert (Nl : map rp met = [] <-> met = []) by (destruct met; cbn [map]; split; congruence).
    split.
    - intros (x & y & Ix & Iy & Bx & By & -> & N & Z). exists (ren x), (ren y). rewrite in_ren, !rest_ren, Nl. repeat split; auto.
    - intros (x' & y' & Ix & Iy & Bx & By & E & N & Z). destruct (H2 x' Ix) as (x & Jx & ->). destruct (H2 y' Iy) as (y & Jy & ->).
      assert (p = (lbl x, lbl y)) as -> by (apply pair_inj, E). rewrite in_ren in N. rewrite !rest_ren, Nl in Z. exists x, y. repeat split; auto.
  Qed.
  Lemma may_back met tl p' : may_meet d' (map rp met) (map rt tl) p' -> exists p, p' = rp p /\ may_meet d met tl p.
  Proof.
    intro M. pose proof M as (x' & y' & Ix & Iy & Bx & By & E & _). destruct (H2 x' Ix) as (x & Jx & ->). destruct (H2 y' Iy) as (y & Jy & ->).
    exists (lbl x, lbl y). split; [exact E|]. apply may_ren. change (rp (lbl x, lbl y)) with (lbl (ren x), lbl (ren y)). rewrite <- E. exact M.
  Qed.
  Lemma ends_ren T : flat_map (fun p => [fst p; snd p]) (map rp T) = map f (flat_map (fun p => [fst p; snd p]) T).
  Proof. induction T as [|p T IH]; [reflexivity|]. cbn [map flat_map app]. rewrite IH. reflexivity. Qed.
  Lemma round_ren met tl T : Round d met tl T -> Round d' (map rp met) (map rt tl) (map rp T).
  Proof.
    intros [R1 R2 R3 R4]. constructor.
    - destruct T; [congruence | discriminate].
    - rewrite ends_ren. apply Injective_map_NoDup; assumption.
    - intros p' I. apply in_map_iff in I. destruct I as (p & <- & I). apply may_ren, R3, I.
    - intros p' M. destruct (may_back _ _ _ M) as (p & -> & M'). destruct (R4 p M') as (q & Iq & E). exists (rp q). split; [apply in_map, Iq|].
      unfold rename_pair. cbn [fst snd]. destruct E as [->| ->]; auto.
  Qed.
  Lemma concat_ren gtl : concat (map (map rp) gtl) = map rp (concat gtl).
  Proof. induction gtl as [|T gtl IH]; [reflexivity|]. cbn [map concat]. rewrite IH, map_app. reflexivity. Qed.
  Lemma schedule_ren gtl tl : Schedule d c gtl tl -> Schedule d' c (map (map rp) gtl) (map rt tl).
  Proof.
    induction 1 as [|gtl tl T tl' Sc IH (x & Ix & Px) R D]; [constructor|]. rewrite map_app. cbn [map].
    apply (Sch_round _ _ _ (map rt tl)); [exact IH | | | apply deals_ren, D].
    - exists (ren x). rewrite rest_ren. split; [apply H1, Ix | exact Px].
    - rewrite concat_ren. apply round_ren, R.
  Qed.
  Lemma stopped_ren gtl tl : Stopped d gtl tl -> Stopped d' (map (map rp) gtl) (map rt tl).
  Proof.
    intros [Z|Z]; [left | right].
    - intros x' I. destruct (H2 x' I) as (x & J & ->). rewrite rest_ren. apply Z, J.
    - intros p' M. rewrite concat_ren in M. destruct (may_back _ _ _ M) as (p & _ & M'). exact (Z p M').
  Qed.
End Rename.

Lemma rows_In bs i b : nth_error bs i = Some b -> In (ModelBase.row_of i b) (rows_from 0 bs).
Proof. intro E. apply (nth_error_In _ i). apply (rows_from_nth 0 bs i b E). Qed.
Lemma rows_In_inv bs r : In r (rows_from 0 bs) -> nth_error bs (lbl r) = Some (terms r) /\ r = ModelBase.row_of (lbl r) (terms r).
Proof. intro H. split; [apply terms_nth, H|]. destruct r; reflexivity. Qed.

(** ** the position of each bid in another order *)
Section Moved.
  Variables (bs bs' : list bid) (f : nat -> nat).
  Hypothesis P : Permutation bs bs'.
  Hypothesis M : moved bs bs' f.
  Definition ren (r : row) : row := mkRow (f (lbl r)) (qty r) (price r) (user r) (buying r) (time r) (divisible r).
  Lemma f_inj : Injective f.
  Proof. intros i j. apply M. Qed.
  Lemma move_to x : In x (rows_from 0 bs) -> In (ren x) (rows_from 0 bs').
  Proof. intro Ix. destruct (rows_In_inv bs x Ix) as [X _]. apply (rows_In bs' (f (lbl x)) (terms x)), M, X. Qed.
  Lemma move_perm : Permutation (map ren (rows_from 0 bs)) (rows_from 0 bs').
  Proof.
    apply NoDup_Permutation_bis.
    - apply (NoDup_map_inv lbl). rewrite map_map. change (fun x => lbl (ren x)) with (fun x => f (lbl x)). rewrite <- (map_map lbl f), rows_from_lbl.
      apply Injective_map_NoDup; [exact f_inj | apply seq_NoDup].
    - rewrite map_length, !rows_from_length, (Permutation_length P). apply le_n.
    - intros y Iy. apply in_map_iff in Iy. destruct Iy as (x & <- & Ix). apply move_to, Ix.
  Qed.
  Lemma move_from x' : In x' (rows_from 0 bs') -> exists x, In x (rows_from 0 bs) /\ x' = ren x.
  Proof. intro H. apply (Permutation_in _ (Permutation_sym move_perm)) in H. apply in_map_iff in H. destruct H as (x & <- & Ix). eauto. Qed.
End Moved.
Lemma moved_exists bs bs' : Permutation bs bs' -> exists f, moved bs bs' f.
Proof.
  intro P. destruct (proj1 (Permutation_nth_error bs' bs) (Permutation_sym P)) as (_ & f & Hf & Nf). exists f. split; [exact Hf|]. intros i b. rewrite Nf. auto.
Qed.
Lemma rows_labels bs : map lbl (rows_from 0 bs) = seq 0 (length (rows_from 0 bs)).
Proof. rewrite rows_from_lbl, rows_from_length. reflexivity. Qed.
Lemma run0_moved alg alg' bs bs' f : Permutation bs bs' -> renamed f (alg (rows_from 0 bs)) (alg' (rows_from 0 bs')) ->
  renamed f (mech_run0 alg (rows_from 0 bs)) (mech_run0 alg' (rows_from 0 bs')).
Proof.
  intros P H. unfold mech_run0. rewrite !rows_from_length, <- (Permutation_length P). pose proof (buyers_perm bs bs' P) as BP. apply Permutation_length in BP. rewrite !map_length in BP. rewrite <- BP.
  destruct (_ || _); [split; reflexivity | exact H].
Qed.

Lemma p2p_moved S S' m m' f : Permutation (bm_bids (mk_bm m)) (bm_bids (mk_bm m')) -> moved (bm_bids (mk_bm m)) (bm_bids (mk_bm m')) f ->
  (forall b, In b (bm_bids (mk_bm m)) -> 0 <= b_qty b) -> forall c r, exists r', renamed f (snd (market_run S m (AP2P c r))) (snd (market_run S' m' (AP2P c r'))).
Proof.
  set (bs := bm_bids (mk_bm m)). set (bs' := bm_bids (mk_bm m')). intros P M Hq c r.
  assert (Q : qty_nonneg (rows_from 0 bs)).
  { intros x Ix. destruct (rows_In_inv bs x Ix) as [X _]. apply nth_error_In in X. exact (Hq _ X). }
  assert (Q' : qty_nonneg (rows_from 0 bs')).
  { intros x Ix. destruct (rows_In_inv bs' x Ix) as [X _]. apply nth_error_In in X. apply (Hq (terms x)). apply (Permutation_in _ (Permutation_sym P) X). }
  destruct (p2p_random (rows_from 0 bs) c r) as [[tm ex]|e] eqn:E.
  2: { destruct (p2p_run (rows_from 0 bs) c r (rows_labels bs) Q) as (x & X & _). congruence. }
  destruct (p2p_is_schedule (rows_from 0 bs) c (rows_labels bs) Q r tm ex E) as (gtl & -> & Sc & St).
  destruct (p2p_reaches (rows_from 0 bs') c (rows_labels bs') Q' (map (map (rename_pair f)) gtl) (map (rename_trans f) (tm_trans tm))) as (r' & tm' & Er & Et).
  - apply (schedule_ren (rows_from 0 bs) _ _ _ (f_inj bs bs' f M) (move_to bs bs' f M) (move_from bs bs' f P M)); assumption.
  - apply (stopped_ren (rows_from 0 bs) _ _ (f_inj bs bs' f M) (move_to bs bs' f M) (move_from bs bs' f P M)); assumption.
  - exists r'. rewrite !UnitMarket.run_result. cbn [run_algo mechanism].
    apply (run0_moved (fun b => p2p_random b c r) (fun b => p2p_random b c r') bs bs' f P). rewrite E, Er. split; [exact Et | reflexivity].
Qed.
