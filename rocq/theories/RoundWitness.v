(** Runs in double precision in which a statement true of the exact mechanism fails. *)
From Verif Require Import QcTac Num NumFacts ModelBase ModelCurves ModelHuang ModelMuda ModelP2P ModelRound ModelFloat Spec SpecTrade SpecMuda SpecRound
  Sorter Conform UpdateFacts MudaWitness RoundFacts RoundTop.

Definition checks (o : res (transmgr * extra)) (f : list trans -> bool) : bool :=
  match o with Ok (tm, _) => f (tm_trans tm) | Err _ => false end.
Lemma checks_ok o f : checks o f = true -> exists tm ex, o = Ok (tm, ex) /\ f (tm_trans tm) = true.
Proof. destruct o as [[tm ex]|e]; simpl; [eauto | discriminate]. Qed.

(** ** Peer to peer *)
(** bid and ask of 3, with a coefficient of 0.2: the price is above the bid *)
Definition dear : df := frame [B (qz 1) (qz 3) 0; A (qz 1) (qz 3) 1].
Lemma dear_run : exists tm ex, p2p_random_r f64 NP dear (tenth 2) (fun _ => 0%nat) = Ok (tm, ex) /\
  exists t x, In t (tm_trans tm) /\ In x dear /\ lbl x = t_bid t /\ t_qty t <> 0 /\ buying x = true /\ price x < t_price t.
Proof.
  destruct (checks_ok (p2p_random_r f64 NP dear (tenth 2) (fun _ => 0%nat))
    (existsb (fun t => existsb (fun x => Nat.eqb (lbl x) (t_bid t) && (qltb 0 (t_qty t) && (buying x && qltb (price x) (t_price t)))) dear)))
    as (tm & ex & E & F); [vm_compute; reflexivity|].
  exists tm, ex. split; [exact E|]. apply existsb_exists in F. destruct F as (t & Ht & F). apply existsb_exists in F. destruct F as (x & Hx & F).
  apply andb_true_iff in F. destruct F as [F1 F]. apply andb_true_iff in F. destruct F as [F2 F]. apply andb_true_iff in F. destruct F as [F3 F].
  apply (proj1 (qltb_lt _ _)) in F. apply (proj1 (qltb_lt _ _)) in F2. apply Nat.eqb_eq in F1.
  exists t, x. repeat split; auto. intro Z. rewrite Z in F2. revert F2. apply Qcle_not_lt, Qcle_refl.
Qed.

(** ** Huang *)
(** 0.1 + 0.2 + 0.3 - 1e-17 is more than what taking 0.1, 0.2 and 0.3 from it in turn leaves room for *)
Definition gap_frame : df := frame
  [A (tenth 1) (qz 1) 0; A (tenth 2) (qz 2) 1; A (tenth 3) (qz 3) 2; A (qz 1) (qz 4) 3; B (f64 (qf 1 100000000000000000)) (qz 11) 4; B (qz 1) (qz 10) 5].
Lemma gap_run : huang_auction_r f64 NP SS gap_frame = Err ValueError.
Proof. vm_compute. reflexivity. Qed.
Lemma gap_exact : exists tm ex, huang_auction SS gap_frame = Ok (tm, ex).
Proof. destruct (huang_auction SS gap_frame) as [[tm ex]|e] eqn:E; [eauto | vm_compute in E; discriminate]. Qed.
(** sellers of 0.2 and 0.5 share a demand of 0.2 *)
Definition tilt : df := frame [A (tenth 2) (qz 1) 0; A (tenth 5) (qz 2) 1; A (qz 1) (qz 5) 2; B (tenth 2) (qz 10) 3; B (qz 1) (qz 7) 4].
Lemma tilt_run : exists tm ex, huang_auction_r f64 NP SS tilt = Ok (tm, ex) /\ bought tilt (tm_trans tm) < sold tilt (tm_trans tm).
Proof.
  destruct (checks_ok (huang_auction_r f64 NP SS tilt) (fun l => qltb (bought tilt l) (sold tilt l))) as (tm & ex & E & F); [vm_compute; reflexivity|].
  exists tm, ex. split; [exact E | apply (proj1 (qltb_lt _ _)), F].
Qed.

(** ** MUDA *)
Fixpoint asks (k : nat) (l : list Z) : list bid := match l with [] => [] | q :: l => A (tenth q) (qf (Z.of_nat k) 2) (Z.of_nat k - 1) :: asks (k + 1) l end.
(** eight sellers whose pairwise sum is not their running sum, facing two buyers who want it all *)
Definition lost : df := frame (asks 1 [3; 4; 6; 9; 5; 3; 3; 4]%Z ++
  [B (tenth 14) (qz 9) 8; B (tenth 23) (qz 8) 9; B (qz 1) (qz 6) 10; A (qz 1) (qz 4) 11]).
Definition lost_flips : list bool := repeat true 10 ++ [false; false].
Lemma lost_run : exists tm ex, muda_r f64 NP SS lost lost_flips = Ok (tm, ex) /\
  exists h p, half_of ex lost h p /\ qz 10 * sold h (tm_trans tm) < bought h (tm_trans tm).
Proof.
  destruct (muda_r f64 NP SS lost lost_flips) as [[tm ex]|e] eqn:E; [|vm_compute in E; discriminate].
  exists tm, ex. split; [reflexivity|].
  assert (F : match muda_r f64 NP SS lost lost_flips with
    | Ok (tm, XMuda l r pl pr f) => qltb (qz 10 * sold (rows_in l lost) (tm_trans tm)) (bought (rows_in l lost) (tm_trans tm)) | _ => false end = true)
    by (vm_compute; reflexivity).
  rewrite E in F. destruct ex as [| |l r pl pr f| |]; try discriminate F.
  exists (rows_in l lost), pr. split; [left; split; reflexivity | apply (proj1 (qltb_lt _ _)), F].
Qed.
(** ten sellers and six buyers of 3.5 in total: the last seller to trade gets a negative quantity *)
Definition sunk : df := frame (asks 1 [3; 8; 9; 4; 3; 4; 1; 3; 7; 9]%Z ++
  [B (tenth 7) (qz 19) 10; B (tenth 3) (qz 18) 11; B (tenth 7) (qz 17) 12; B (tenth 9) (qz 16) 13; B (tenth 6) (qz 15) 14; B (tenth 3) (qz 14) 15;
   B (qz 1) (qz 8) 16; A (qz 1) (qz 4) 17]).
Definition sunk_flips : list bool := repeat true 16 ++ [false; false].
Lemma sunk_run : exists tm ex, muda_r f64 NP SS sunk sunk_flips = Ok (tm, ex) /\ exists t, In t (tm_trans tm) /\ t_qty t < 0.
Proof.
  destruct (checks_ok (muda_r f64 NP SS sunk sunk_flips) (existsb (fun t => qltb (t_qty t) 0))) as (tm & ex & E & F); [vm_compute; reflexivity|].
  exists tm, ex. split; [exact E|]. apply existsb_exists in F. destruct F as (t & Ht & F).
  exists t. split; [exact Ht | apply (proj1 (qltb_lt _ _)), F].
Qed.

(** ** The witnesses are tables of machine numbers *)
Definition good (d : df) : bool :=
  forallb (fun r => qleb 0 (qty r) && (qleb 0 (price r) && (qeqb (f64 (qty r)) (qty r) && qeqb (f64 (price r)) (price r)))) d.
Lemma good_ok d : good d = true -> qty_nonneg d /\ price_nonneg d /\ machine_qty f64 d /\ machine_price f64 d.
Proof.
  intro G.
  assert (K : forall r, In r d -> 0 <= qty r /\ 0 <= price r /\ machine f64 (qty r) /\ machine f64 (price r)).
  { intros r Hr. pose proof (proj1 (forallb_forall _ _) G r Hr) as F.
    apply andb_true_iff in F. destruct F as [F1 F]. apply andb_true_iff in F. destruct F as [F2 F]. apply andb_true_iff in F. destruct F as [F3 F4].
    apply (proj1 (qleb_le _ _)) in F1. apply (proj1 (qleb_le _ _)) in F2. apply (proj1 (qeqb_eq _ _)) in F3. apply (proj1 (qeqb_eq _ _)) in F4. auto. }
  repeat split; intros r Hr; apply (K r Hr).
Qed.

Lemma overfill_witness : exists (d : df) (r : nat -> nat) tm ex, map lbl d = seq 0 (length d) /\ qty_nonneg d /\ price_nonneg d /\ machine_qty f64 d /\ machine_price f64 d /\
  p2p_random_r f64 NP d (qf 1 2) r = Ok (tm, ex) /\ exists x, In x d /\ qty x < traded_by (lbl x) (tm_trans tm).
Proof.
  destruct overfill_run as (tm & ex & E & F). destruct (good_ok overfill) as (G1 & G2 & G3 & G4); [vm_compute; reflexivity|].
  exists overfill, (fun _ => 0%nat), tm, ex. split; [reflexivity|]. repeat (split; [assumption|]).
  destruct (nth_error overfill 0) as [x|] eqn:Ex; [|discriminate]. exists x. split; [apply (nth_error_In overfill 0), Ex | apply F; reflexivity].
Qed.
Lemma dear_witness : exists (d : df) (c : Qc) (r : nat -> nat) tm ex, map lbl d = seq 0 (length d) /\ qty_nonneg d /\ price_nonneg d /\ machine_qty f64 d /\ machine_price f64 d /\
  machine f64 c /\ 0 <= c /\ c <= 1 /\ p2p_random_r f64 NP d c r = Ok (tm, ex) /\
  exists t x, In t (tm_trans tm) /\ In x d /\ lbl x = t_bid t /\ t_qty t <> 0 /\ buying x = true /\ price x < t_price t.
Proof.
  destruct dear_run as (tm & ex & E & F). destruct (good_ok dear) as (G1 & G2 & G3 & G4); [vm_compute; reflexivity|].
  exists dear, (tenth 2), (fun _ => 0%nat), tm, ex. split; [reflexivity|]. repeat (split; [assumption|]).
  split; [apply tenth_machine|]. split; [vm_compute; discriminate|]. split; [vm_compute; discriminate|]. split; [exact E | exact F].
Qed.
Lemma gap_witness : exists (S : sorter) (d : df), labels_unique d /\ qty_nonneg d /\ price_nonneg d /\ machine_qty f64 d /\ machine_price f64 d /\
  huang_auction_r f64 NP S d = Err ValueError /\ exists tm ex, huang_auction S d = Ok (tm, ex).
Proof.
  destruct (good_ok gap_frame) as (G1 & G2 & G3 & G4); [vm_compute; reflexivity|].
  exists SS, gap_frame. split; [no_dup|]. repeat (split; [assumption|]). split; [exact gap_run | exact gap_exact].
Qed.
Lemma tilt_witness : exists (S : sorter) (d : df) tm ex, labels_unique d /\ qty_nonneg d /\ price_nonneg d /\ machine_qty f64 d /\ machine_price f64 d /\
  huang_auction_r f64 NP S d = Ok (tm, ex) /\ bought d (tm_trans tm) < sold d (tm_trans tm).
Proof.
  destruct tilt_run as (tm & ex & E & F). destruct (good_ok tilt) as (G1 & G2 & G3 & G4); [vm_compute; reflexivity|].
  exists SS, tilt, tm, ex. split; [no_dup|]. repeat (split; [assumption|]). exact F.
Qed.
Lemma lost_witness : exists (S : sorter) (d : df) (fl : list bool) tm ex, labels_unique d /\ qty_nonneg d /\ price_nonneg d /\ machine_qty f64 d /\ machine_price f64 d /\
  muda_r f64 NP S d fl = Ok (tm, ex) /\ exists h p, half_of ex d h p /\ qz 10 * sold h (tm_trans tm) < bought h (tm_trans tm).
Proof.
  destruct lost_run as (tm & ex & E & F). destruct (good_ok lost) as (G1 & G2 & G3 & G4); [vm_compute; reflexivity|].
  exists SS, lost, lost_flips, tm, ex. split; [no_dup|]. repeat (split; [assumption|]). exact F.
Qed.
Lemma sunk_witness : exists (S : sorter) (d : df) (fl : list bool) tm ex, labels_unique d /\ qty_nonneg d /\ price_nonneg d /\ machine_qty f64 d /\ machine_price f64 d /\
  muda_r f64 NP S d fl = Ok (tm, ex) /\ exists t, In t (tm_trans tm) /\ t_qty t < 0.
Proof.
  destruct sunk_run as (tm & ex & E & F). destruct (good_ok sunk) as (G1 & G2 & G3 & G4); [vm_compute; reflexivity|].
  exists SS, sunk, sunk_flips, tm, ex. split; [no_dup|]. repeat (split; [assumption|]). exact F.
Qed.
