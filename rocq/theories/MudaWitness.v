(** Concrete runs used to refute C26, C27 and C43. *)
From Verif Require Import QcTac Num ModelBase ModelCurves ModelHuang ModelMuda NumFacts StoreFacts Spec SpecTrade SpecMuda
  MudaOutcome MudaFacts MudaPrice MudaTop Sorter Conform.

(** decides the well-formedness of a concrete table *)
Ltac each_row := let r := fresh "r" in let H := fresh "H" in intros r H; repeat (destruct H as [<-|H]; [vm_compute; intuition congruence|]); contradiction.
Ltac no_dup := vm_compute; repeat constructor; simpl; intuition congruence.

Definition two_halves : df :=
  frame [B (qz 1) (qz 10) 0; B (qz 1) (qz 8) 1; A (qz 1) (qz 1) 2; B (qz 1) (qz 12) 0; B (qz 1) (qz 9) 1; A (qz 1) (qz 2) 3].
Lemma fee_lost_witness :
  exists (d : df) (fl : list bool) (tm : transmgr) l r pl pr fees tlL tlR vl vr,
    qty_nonneg d /\ labels_unique d /\ (forall x, In x d -> (0 <= user x)%Z) /\
    muda SS d fl = Ok (tm, XMuda l r pl pr fees) /\ tm_trans tm = tlL ++ tlR /\
    HalfFee (rows_in l d) pr tlL 0 vl /\ HalfFee (rows_in r d) pl tlR 0 vr /\ fee_of fees 0 <> vl + vr.
Proof.
  set (fl := [true; true; true; false; false; false]).
  assert (Hq : qty_nonneg two_halves) by each_row. assert (Hu : labels_unique two_halves) by no_dup.
  assert (Hn : forall x, In x two_halves -> (0 <= user x)%Z) by each_row.
  assert (R : match muda SS two_halves fl with Ok (_, XMuda _ _ _ _ fees) => this (fee_of fees 0) = (7#2)%Q | _ => False end) by (vm_compute; reflexivity).
  destruct (muda SS two_halves fl) as [[tm [| |l r pl pr fees| |]]|] eqn:E; try contradiction.
  destruct (fee_lost SS two_halves fl tm l r pl pr fees 0 1%Q (7#2)%Q Hq Hu Hn) as (tlL & tlR & vl & vr & H).
  - lia.
  - exact E.
  - vm_compute. reflexivity.
  - exact R.
  - discriminate.
  - discriminate.
  - exists two_halves, fl, tm, l, r, pl, pr, fees, tlL, tlR, vl, vr. tauto.
Qed.

Lemma top_fees_partial :
  forall (S : sorter) (d : df) (fl : list bool) (tm : transmgr) (ex : extra),
    qty_nonneg d -> labels_unique d -> muda S d fl = Ok (tm, ex) -> (forall r, In r d -> (0 <= user r)%Z) ->
    exists l r pl pr fees, ex = XMuda l r pl pr fees /\ forall u, (0 <= u)%Z ->
      exists tlL tlR vl vr, tm_trans tm = tlL ++ tlR /\ HalfFee (rows_in l d) pr tlL u vl /\ HalfFee (rows_in r d) pl tlR u vr /\
        ((forall ql qr, pr = Fin ql -> pl = Fin qr -> ~ (trades_on (long_side (rows_in l d) ql) (rows_in l d) tlL u /\ trades_on (long_side (rows_in r d) qr) (rows_in r d) tlR u)) ->
         fee_of fees u = vl + vr).
Proof.
  intros S d fl tm ex Hq Hu E Hn. destruct (top_fees S d fl tm ex Hq Hu E Hn) as (l & r & pl & pr & fees & Ex & H).
  exists l, r, pl, pr, fees. split; [exact Ex|]. intros u H0. destruct (H u H0) as (_ & _ & tlL & tlR & vl & vr & H1 & _ & _ & H2 & H3 & _ & H4).
  exists tlL, tlR, vl, vr. auto.
Qed.

Definition touching : df := frame [B (qz 1) (qz 10) 0; B (qz 1) (qz 5) 1; A (qz 1) (qz 1) 2; A (qz 1) (qz 5) 3].
Lemma price_infinite_witness :
  exists (d : df) (rb rs : row), qty_nonneg d /\ price_nonneg d /\ In rb d /\ In rs d /\
    buying rb = true /\ buying rs = false /\ price rs < price rb /\ find_competitive_price SS d = Ok PInf.
Proof.
  exists touching. eexists. eexists. split; [each_row|]. split; [each_row|]. split; [left; reflexivity|]. split; [right; right; left; reflexivity|].
  split; [reflexivity|]. split; [reflexivity|]. split; [reflexivity|]. vm_compute. reflexivity.
Qed.
Lemma price_or_infinite (S : sorter) d : qty_nonneg d -> price_nonneg d ->
  find_competitive_price S d = Ok PInf \/ exists p, find_competitive_price S d = Ok (Fin p).
Proof. intros Hq Hp. destruct (price_cases S d Hq Hp) as [[E _]|(p & c & i & u & j & w & E & _)]; eauto. Qed.

Lemma price_order_witness :
  exists (d d' : df) (p p' : Qc), Permutation d d' /\ labels_unique d /\ qty_nonneg d /\ price_nonneg d /\
    find_competitive_price SS d = Ok (Fin p) /\ find_competitive_price SS d' = Ok (Fin p') /\ p <> p'.
Proof.
  set (d := frame [B (qz 1) (qz 5) 0; B (qz 2) (qz 5) 1; A (qz 1) (qz 1) 2]).
  set (d' := match d with a :: b :: t => b :: a :: t | _ => d end).
  assert (R : match find_competitive_price SS d, find_competitive_price SS d' with Ok (Fin p), Ok (Fin p') => (this p == 3)%Q /\ (this p' == 5)%Q | _, _ => False end)
    by (vm_compute; auto).
  destruct (find_competitive_price SS d) as [[p| | |]|] eqn:E; try contradiction.
  destruct (find_competitive_price SS d') as [[p'| | |]|] eqn:E'; try contradiction.
  exists d, d', p, p'. split; [apply perm_swap|]. split; [no_dup|]. split; [each_row|]. split; [each_row|]. split; [exact E|]. split; [exact E'|].
  intros ->. destruct R as [R1 R2]. rewrite R1 in R2. discriminate.
Qed.

(** the transactions of the Huang auction *)
Lemma emit_flags d qs p t : In t (emit d qs p) -> t_source t = (-1)%Z /\ t_active t = false.
Proof. intro H. unfold emit in H. apply in_map_iff in H. destruct H as (x & <- & _). split; reflexivity. Qed.
Lemma huang_flags (S : sorter) d tm ex : huang_auction S d = Ok (tm, ex) -> forall t, In t (tm_trans tm) -> t_source t = (-1)%Z /\ t_active t = false.
Proof.
  unfold huang_auction. destruct (intersect_stepwise _ _ _) as [[[[q b] s] v]|]; cbn [bind]; [|discriminate].
  destruct b as [b|], s as [s|]; try (intro E; injection E as <- _; contradiction).
  destruct (nth_error (fst (supply_curve_from_bids S d)) s) as [[a [ps| | |]]|]; destruct (nth_error (fst (demand_curve_from_bids S d)) b) as [[a' [pb| | |]]|]; try discriminate.
  destruct (Nat.ltb 0 b && Nat.ltb 0 s); [|intro E; injection E as <- _; contradiction].
  match goal with |- bind ?x _ = _ -> _ => destruct x as [[qs qb]|] end; cbn [bind]; [|discriminate].
  intro E. injection E as <- _. intros t Ht. rewrite !add_all_trans in Ht. simpl in Ht. apply in_app_or in Ht. destruct Ht as [Ht|Ht]; exact (emit_flags _ _ _ _ Ht).
Qed.
Lemma muda_flags (S : sorter) d fl tm ex : qty_nonneg d -> labels_unique d -> muda S d fl = Ok (tm, ex) ->
  forall t, In t (tm_trans tm) -> t_source t = (-1)%Z /\ t_active t = false.
Proof. intros Hq Hu E. apply (top_safe S d fl tm ex Hq Hu E). Qed.
