(** Runs that lose most of the welfare. *)
From Verif Require Import QcTac Num ModelBase ModelCurves ModelHuang ModelMuda ModelP2P Spec SpecTrade SpecMuda SpecStats SpecAlloc SpecHuang Sorter
  HuangFacts HuangTop MudaWitness Conform.

Definition alloc_okb (d : df) (x : alloc) : bool :=
  forallb (fun b => forallb (fun s => qleb 0 (x (lbl b) (lbl s))) (all_s d)) (all_b d) &&
  forallb (fun b => qleb (qsumf (fun s => x (lbl b) (lbl s)) (all_s d)) (qty b)) (all_b d) &&
  forallb (fun s => qleb (qsumf (fun b => x (lbl b) (lbl s)) (all_b d)) (qty s)) (all_s d).
Lemma alloc_okb_ok d x : alloc_okb d x = true -> alloc_ok d x.
Proof.
  unfold alloc_okb. rewrite !andb_true_iff, !forallb_forall. intros [[H1 H2] H3]. split; [|split].
  - intros b s Hb Hs. specialize (H1 b Hb). rewrite forallb_forall in H1. apply qleb_le, H1, Hs.
  - intros b Hb. apply qleb_le, (H2 b Hb).
  - intros s Hs. apply qleb_le, (H3 s Hs).
Qed.
Definition amounts (l : list (nat * nat * Qc)) : alloc := fun b s =>
  match find (fun e => Nat.eqb (fst (fst e)) b && Nat.eqb (snd (fst e)) s) l with Some e => snd e | None => 0 end.

(** the best buyer offers 100 for one unit, wins and is rationed to nothing *)
Definition keen : df := frame [B (qz 1) (qz 100) 0; B (qz 6) (qz 12) 1; B (qz 2) (qz 11) 2; A (qz 4) (qz 2) 3; A (qz 4) (qz 10) 4].
Definition keen_best : alloc := amounts [(0, 3, qz 1); (1, 3, qz 3); (1, 4, qz 3); (2, 4, qz 1)]%nat.
Definition keen_row : row := ModelBase.row_of 0 (B (qz 1) (qz 100) 0).
Definition worse (x : alloc) (r : res (transmgr * extra)) : bool :=
  match r with
  | Ok (tm, XHuang ps pb q) => qeqb ps (qz 10) && qeqb pb (qz 11) && qltb (traded_surplus price keen (tm_trans tm) * qz 8) (welfare keen price x * bought keen (tm_trans tm)) &&
      qeqb (traded_by 0 (tm_trans tm)) 0 && qltb 0 (traded_by 1 (tm_trans tm))
  | _ => false
  end.
Lemma huang_ratio_fails : exists (d : df) tm ps pb q c x r1 r2, qty_pos d /\ price_nonneg d /\ labels_unique d /\ prices_distinct d /\ asks_pos d /\
  huang_auction SS d = Ok (tm, XHuang ps pb q) /\ Marginal d ps pb c /\ alloc_ok d x /\
  traded_surplus price d (tm_trans tm) * c < welfare d price x * bought d (tm_trans tm) /\
  In r1 d /\ In r2 d /\ buying r1 = true /\ buying r2 = true /\ price r2 < price r1 /\ wins ps pb r1 = true /\
  traded_by (lbl r1) (tm_trans tm) = 0 /\ 0 < traded_by (lbl r2) (tm_trans tm).
Proof.
  assert (P : worse keen_best (huang_auction SS keen) = true) by (vm_compute; reflexivity).
  destruct (huang_auction SS keen) as [[tm [|ps pb q| | |]]|] eqn:E; try discriminate P. cbn [worse] in P.
  rewrite !andb_true_iff, !qeqb_eq, !qltb_lt in P. destruct P as [[[[-> ->] P] T0] T1].
  exists keen, tm, (qz 10), (qz 11), q, (qz 8), keen_best, keen_row, (ModelBase.row_of 1 (B (qz 6) (qz 12) 1)).
  split; [each_row|]. split; [each_row|]. split; [apply rows_from_unique|]. split; [split; no_dup|]. split; [each_row|].
  split; [exact E|]. split.
  - destruct (huang_marginal SS keen) with (tm := tm) (ps := qz 10) (pb := qz 11) (q := q) as (c & M & At); try each_row; [exact E|].
    replace (qz 8) with c; [exact M|]. rewrite <- (At (qz 11)); [|vm_compute; discriminate ..]. apply Qc_is_canon. vm_compute. reflexivity.
  - split; [apply alloc_okb_ok; vm_compute; reflexivity|]. split; [exact P|]. split; [left; reflexivity|]. split; [right; left; reflexivity|].
    split; [reflexivity|]. split; [reflexivity|]. split; [vm_compute; reflexivity|]. split; [vm_compute; reflexivity|]. split; assumption.
Qed.

(** a meeting without gain uses up the only offer *)
Definition wasted : df := frame [B (qz 1) (qz 10) 0; B (qz 1) (qz 5) 1; A (qz 1) (qz 5) 2].
Definition wasted_best : alloc := amounts [(0, 2, qz 1)]%nat.
Definition no_gain (d : df) (r : res (transmgr * extra)) : bool :=
  match r with Ok (tm, _) => qeqb (traded_surplus price d (tm_trans tm)) 0 | _ => false end.
Lemma p2p_no_gain : exists (d : df) (r : nat -> nat) tm ex x, qty_pos d /\ price_nonneg d /\ map lbl d = seq 0 (length d) /\
  p2p_random d (qf 1 2) r = Ok (tm, ex) /\ traded_surplus price d (tm_trans tm) = 0 /\ alloc_ok d x /\ 0 < welfare d price x.
Proof.
  set (r := fun _ : nat => 1%nat).
  assert (P : no_gain wasted (p2p_random wasted (qf 1 2) r) = true) by (vm_compute; reflexivity).
  destruct (p2p_random wasted (qf 1 2) r) as [[tm ex]|] eqn:E; [|discriminate P]. cbn [no_gain] in P. apply qeqb_eq in P.
  exists wasted, r, tm, ex, wasted_best. split; [each_row|]. split; [each_row|]. split; [reflexivity|]. split; [exact E|]. split; [exact P|].
  split; [apply alloc_okb_ok; vm_compute; reflexivity | vm_compute; reflexivity].
Qed.

(** two halves that could both trade, at prices that do not suit the other *)
Definition apart : df := frame [B (qz 1) (qz 10) 0; A (qz 1) (qz 1) 1; B (qz 1) (qz 30) 2; A (qz 1) (qz 20) 3].
Definition apart_best : alloc := amounts [(0, 1, qz 1); (2, 3, qz 1)]%nat.
Definition idle_prices (r : res (transmgr * extra)) : bool :=
  match r with Ok (tm, XMuda l r (Fin pl) (Fin pr) f) => match tm_trans tm with [] => true | _ => false end | _ => false end.
Lemma muda_no_trade : exists (d : df) (fl : list bool) tm l r pl pr f x, qty_pos d /\ price_nonneg d /\ labels_unique d /\
  muda SS d fl = Ok (tm, XMuda l r (Fin pl) (Fin pr) f) /\ tm_trans tm = [] /\ alloc_ok d x /\ 0 < welfare d price x.
Proof.
  assert (P : idle_prices (muda SS apart [true; true; false; false]) = true) by (vm_compute; reflexivity).
  destruct (muda SS apart [true; true; false; false]) as [[tm ex]|] eqn:E; [|discriminate P]. cbn [idle_prices] in P.
  destruct ex as [| |l r [pl| | |] [pr| | |] f| |]; try discriminate P. destruct (tm_trans tm) eqn:T; [|discriminate P].
  exists apart, [true; true; false; false], tm, l, r, pl, pr, f, apart_best. split; [each_row|]. split; [each_row|]. split; [apply rows_from_unique|].
  split; [exact E|]. split; [exact T|]. split; [apply alloc_okb_ok; vm_compute; reflexivity | vm_compute; reflexivity].
Qed.
