(** Runs with negative prices, and runs that change when all prices are raised. *)
From Verif Require Import QcTac Num ModelBase ModelCurves ModelHuang ModelMuda Spec SpecTrade SpecSign SpecHuang SpecUnits Sorter UnitFacts
  HuangFacts MudaWitness Conform.

Definition below_zero : df := frame [B (qz 1) (qz 3) 0; B (qz 2) (qz (-2)) 1; A (qz 1) (qz (-4)) 2; A (qz 1) (qz (-3)) 3; A (qz 3) (qz (-1)) 4].
(** some transaction of bid [i] is at a price above [p] *)
Definition overpays (i : nat) (p : Qc) (x : res (transmgr * extra)) : bool :=
  match x with Ok (tm, _) => existsb (fun t => Nat.eqb (t_bid t) i && qltb p (t_price t)) (tm_trans tm) | _ => false end.
Lemma overpays_not d r x tm ex : x = Ok (tm, ex) -> overpays (lbl r) (price r) x = true -> In r d -> buying r = true -> ~ rational d (tm_trans tm).
Proof.
  intros -> E Hr Bq R. cbn [overpays] in E. apply existsb_exists in E. destruct E as (t & Ht & E). apply andb_true_iff in E. destruct E as [E1 E2].
  apply Nat.eqb_eq in E1. apply qltb_lt in E2. specialize (R t r Ht Hr (eq_sym E1)). rewrite Bq in R. qlra.
Qed.
Lemma huang_negative : exists (S : sorter) (d : df) tm ex, qty_pos d /\ labels_unique d /\ huang_auction S d = Ok (tm, ex) /\ ~ rational d (tm_trans tm).
Proof.
  assert (P : overpays 1 (qz (-2)) (huang_auction SS below_zero) = true) by (vm_compute; reflexivity).
  destruct (huang_auction SS below_zero) as [[tm ex]|] eqn:E; [|discriminate].
  exists SS, below_zero, tm, ex. split; [each_row|]. split; [apply rows_from_unique|]. split; [exact E|].
  apply (overpays_not below_zero (ModelBase.row_of 1 (B (qz 2) (qz (-2)) 1)) _ tm ex eq_refl); [exact P | right; left; reflexivity | reflexivity].
Qed.

Definition nobody : df := frame [B (qz 1) (qz (-2)) 0; A (qz 1) (qz (-4)) 1; A (qz 3) (qz (-1)) 2].
Lemma price_negative : exists (S : sorter) (d : df) p, qty_pos d /\ labels_unique d /\ find_competitive_price S d = Ok (Fin p) /\
  forall r, In r d -> buying r = true -> price r < p.
Proof.
  exists SS, nobody, (qz 0). split; [each_row|]. split; [apply rows_from_unique|]. split; [vm_compute; reflexivity|].
  intros r [<-|[<-|[<-|[]]]] Bq; try discriminate Bq. vm_compute. reflexivity.
Qed.

Definition free_asks : df := frame [B (qz 1) (qz 5) 0; B (qz 1) (qz 3) 1; A (qz 1) (qz 0) 2; A (qz 2) (qz 0) 3].
Definition no_trade (x : res (transmgr * extra)) : bool := match x with Ok (tm, _) => match tm_trans tm with [] => true | _ => false end | _ => false end.
Lemma no_trade_raised c x y : no_trade x = true -> no_trade y = false -> y <> result_raised c x.
Proof. destruct x as [[[n l] e]|]; [|discriminate]. destruct l; [|discriminate]. intros _ H ->. cbn in H. discriminate. Qed.
Lemma huang_raise_zero : exists (S : sorter) (d : df) (c : Qc), compares_prices S /\ qty_pos d /\ price_nonneg d /\ labels_unique d /\ 0 < c /\
  huang_auction S (raised c d) <> result_raised c (huang_auction S d).
Proof.
  exists SS, free_asks, (qz 1). split; [exact stable_compares|]. split; [each_row|]. split; [each_row|]. split; [apply rows_from_unique|]. split; [vm_compute; reflexivity|].
  apply no_trade_raised; vm_compute; reflexivity.
Qed.
Definition free_halves : df := frame [B (qz 1) (qz 5) 0; B (qz 1) (qz 3) 1; A (qz 1) (qz 0) 2; A (qz 2) (qz 0) 3; B (qz 1) (qz 6) 4; A (qz 1) (qz 0) 5].
Definition free_flips : list bool := [true; true; true; true; false; false].
Lemma muda_raise_zero : exists (S : sorter) (d : df) (fl : list bool) (c : Qc), compares_prices S /\ qty_pos d /\ price_nonneg d /\ labels_unique d /\ 0 < c /\
  muda S (raised c d) fl <> result_raised c (muda S d fl).
Proof.
  exists SS, free_halves, free_flips, (qz 1). split; [exact stable_compares|]. split; [each_row|]. split; [each_row|]. split; [apply rows_from_unique|]. split; [vm_compute; reflexivity|].
  intro E. assert (P : existsb (Nat.eqb 5) (match muda SS (raised (qz 1) free_halves) free_flips with Ok (tm, _) => map t_bid (tm_trans tm) | _ => [] end) = true) by (vm_compute; reflexivity).
  rewrite E in P. vm_compute in P. discriminate.
Qed.
