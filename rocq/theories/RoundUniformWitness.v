(** Runs of the uniform price mechanism in double precision. *)
From Verif Require Import QcTac Num ModelBase ModelCurves ModelHuang ModelMuda ModelMarket ModelUniform ModelRound ModelFloat ModelRoundUniform Spec SpecTrade SpecRound
  Sorter Conform MudaWitness FairRuns UniformTop RoundFacts RoundHuang RoundTop RoundWitness RoundUniform RoundUniformTop.

(** numpy adds the eight buyers to 5.299999999999999, one after the other they add up to 5.300000000000001 *)
Definition dip : df := frame
  ((fix go (i : Z) (l : list Z) := match l with [] => [] | q :: r => B (tenth q) (qz (30 - i)) i :: go (i + 1)%Z r end) 0%Z [2; 1; 2; 6; 10; 13; 7; 12]%Z ++
   [A (tenth 53) (qz 1) 8; A (qz 1) (qz 2) 9])%list.
Lemma dip_run : exists tm ex, uniform_run_r f64 NP SS dip = Ok (tm, ex) /\ exists t, In t (tm_trans tm) /\ t_qty t < 0.
Proof.
  destruct (checks_ok (uniform_run_r f64 NP SS dip) (existsb (fun t => qltb (t_qty t) 0))) as (tm & ex & E & F); [vm_compute; reflexivity|].
  exists tm, ex. split; [exact E|]. apply existsb_exists in F. destruct F as (t & I & F). exists t. split; [exact I | apply (proj1 (qltb_lt _ _)), F].
Qed.
Lemma dip_witness : exists (S : sorter) (d : df) tm ex, labels_unique d /\ qty_nonneg d /\ price_nonneg d /\ machine_qty f64 d /\ machine_price f64 d /\
  uniform_run_r f64 NP S d = Ok (tm, ex) /\ exists t, In t (tm_trans tm) /\ t_qty t < 0.
Proof.
  destruct dip_run as (tm & ex & E & F). destruct (good_ok dip) as (G1 & G2 & G3 & G4); [vm_compute; reflexivity|].
  exists SS, dip, tm, ex. split; [no_dup|]. repeat (split; [assumption|]). exact F.
Qed.
(** a buyer of 1.1 and sellers of 0.1 and 2 *)
Definition uneven : df := frame [B (tenth 11) (qz 9) 0; A (tenth 1) (qz 1) 1; A (qz 2) (qz 2) 2].
Lemma uneven_run : exists tm ex, uniform_run_r f64 NP SS uneven = Ok (tm, ex) /\ sold uneven (tm_trans tm) < bought uneven (tm_trans tm).
Proof.
  destruct (checks_ok (uniform_run_r f64 NP SS uneven) (fun tl => qltb (sold uneven tl) (bought uneven tl))) as (tm & ex & E & F); [vm_compute; reflexivity|].
  exists tm, ex. split; [exact E | apply (proj1 (qltb_lt _ _)), F].
Qed.
Lemma uneven_witness : exists (S : sorter) (d : df) tm ex, labels_unique d /\ qty_nonneg d /\ price_nonneg d /\ machine_qty f64 d /\ machine_price f64 d /\
  (length d < 8)%nat /\ uniform_run_r f64 NP S d = Ok (tm, ex) /\ sold d (tm_trans tm) < bought d (tm_trans tm).
Proof.
  destruct uneven_run as (tm & ex & E & F). destruct (good_ok uneven) as (G1 & G2 & G3 & G4); [vm_compute; reflexivity|].
  exists SS, uneven, tm, ex. split; [no_dup|]. repeat (split; [assumption|]). split; [vm_compute; lia|]. split; [exact E | exact F].
Qed.

(** ** The run with the checks of the interface *)
Lemma run_r_two (R : rounding) (A : adder R) (S : sorter) d b s : In b d -> In s d -> buying b = true -> buying s = false ->
  uniform_run_r R A S d = uniform_price_mechanism_r R A S d.
Proof. intros Hb Hs Bb Bs. unfold uniform_run_r, mechanism, mech_run0. rewrite (two_sided_guard d b s) by assumption. reflexivity. Qed.
Lemma run_r_inv (R : rounding) (A : adder R) (S : sorter) d tm ex : uniform_run_r R A S d = Ok (tm, ex) ->
  tm = tm_init /\ ex = XEmpty \/ uniform_price_mechanism_r R A S d = Ok (tm, ex).
Proof. unfold uniform_run_r, mechanism. apply mech0_inv. Qed.
Lemma none_traded d : bought d (tm_trans tm_init) = 0 /\ sold d (tm_trans tm_init) = 0.
Proof. cbn [tm_trans tm_init]. unfold bought, sold. split; cbn; reflexivity. Qed.

Lemma none_gap d : qabs (bought d (tm_trans tm_init) - sold d (tm_trans tm_init)) = 0.
Proof. destruct (none_traded d) as [-> ->]. apply Qc_is_canon. reflexivity. Qed.
Lemma feasible_none d : qty_nonneg d -> feasible d (tm_trans tm_init).
Proof. intro Hq. split; [intros ? []|]. intros r Hr. exact (Hq r Hr). Qed.
Lemma pow_nonneg u n : 0 <= u -> 0 <= (1 + u) ^ n.
Proof. intro U. induction n; cbn [Qcpower]; [qlra|]. apply qmult_nonneg; [qlra | assumption]. Qed.

Section Run.
  Variables (R : rounding) (A : adder R) (S : sorter) (d : df).
  Hypothesis Hq : qty_nonneg d.
  Hypothesis Hp : price_nonneg d.
  Hypothesis Hm : machine_qty R d.
  Hypothesis Hu : labels_unique d.

  Theorem run_uniform_summary tm ex : uniform_run_r R A S d = Ok (tm, ex) ->
    once (tm_trans tm) /\ refer d (tm_trans tm) /\
    (tm_trans tm = [] \/ exists c p, ex = XUniform (Fin c) (Fin p) /\ find_competitive_price_r R S d = Ok (Fin p) /\
       forall t, In t (tm_trans tm) -> t_price t = p /\ t_source t = (-1)%Z /\ t_active t = false) /\
    (forall t r, In t (tm_trans tm) -> In r d -> lbl r = t_bid t -> t_qty t <= qty r) /\
    (halves R -> machine_price R d -> rational d (tm_trans tm)).
  Proof.
    intro E. destruct (run_r_inv R A S d tm ex E) as [[-> ->]|E'].
    - cbn [tm_trans tm_init]. split; [constructor|]. split; [intros ? []|]. split; [auto|]. split; [intros ? ? [] | intros _ _ ? ? []].
    - destruct (uniform_r_summary R A S d Hq Hp Hm Hu tm ex E') as (c & p & X1 & X2 & X3 & X4 & X5 & X6 & X7).
      split; [exact X3|]. split; [exact X4|]. split; [right; exists c, p; auto|]. split; [exact X6 | exact X7].
  Qed.

  Theorem run_uniform_runs b s : In b d -> In s d -> buying b = true -> buying s = false ->
    uniform_run_r R A S d = Err TypeError /\ (forall x, ~ Crossing (fst (demand_curve_r R S d)) (fst (supply_curve_r R S d)) x) \/
    exists tm c p, uniform_run_r R A S d = Ok (tm, XUniform (Fin c) (Fin p)) /\ Crossing (fst (demand_curve_r R S d)) (fst (supply_curve_r R S d)) (Fin c).
  Proof. intros Hb Hs Bb Bs. rewrite (run_r_two R A S d b s) by assumption. apply uniform_r_runs; assumption. Qed.
  Theorem run_uniform_seq u : (forall l, (length l <= length d)%nat -> A l = seq_sum R l) -> rel_error R u ->
    forall tm ex, uniform_run_r R A S d = Ok (tm, ex) ->
    feasible d (tm_trans tm) /\
    qabs (bought d (tm_trans tm) - sold d (tm_trans tm)) <= (qnat (2 * length d) * (u * (1 + u) ^ length d) + u) * qsumf qty d.
  Proof.
    intros Hs Hr tm ex E. destruct (run_r_inv R A S d tm ex E) as [[-> ->]|E']; [|exact (uniform_r_seq R A S d Hq Hp Hm Hu tm ex u Hs Hr E')].
    pose proof (proj1 Hr) as U. pose proof (qsumf_nonneg qty d Hq) as W0. pose proof (pow_nonneg u (length d) U) as P0. pose proof (qnat_ge0 (2 * length d)) as N0.
    split; [apply feasible_none, Hq|]. rewrite none_gap. apply qmult_nonneg; [|exact W0].
    pose proof (qmult_nonneg _ _ N0 (qmult_nonneg _ _ U P0)). qlra.
  Qed.
  Theorem run_uniform_any u : rel_error R u -> forall tm ex, uniform_run_r R A S d = Ok (tm, ex) ->
    let D := qnat (length d) * (u * (1 + u) ^ length d) * qsumf qty d in
    (forall t, In t (tm_trans tm) -> - (qz 2 * (1 + u) * D) <= t_qty t) /\
    qabs (bought d (tm_trans tm) - sold d (tm_trans tm)) <= (qnat (2 * length d + 2) * (1 + u)) * D + u * qsumf qty d.
  Proof.
    intros Hr tm ex E. destruct (run_r_inv R A S d tm ex E) as [[-> ->]|E']; [|exact (uniform_r_any R A S d Hq Hp Hm Hu tm ex u Hr E')].
    pose proof (proj1 Hr) as U. pose proof (qsumf_nonneg qty d Hq) as W0. pose proof (pow_nonneg u (length d) U) as P0. pose proof (qnat_ge0 (length d)) as N0.
    cbv zeta. split; [intros ? []|]. rewrite none_gap.
    pose proof (qmult_nonneg _ _ (qmult_nonneg _ _ N0 (qmult_nonneg _ _ U P0)) W0) as D0.
    assert (K : 0 <= 1 + u) by qlra. pose proof (qmult_nonneg _ _ (qmult_nonneg _ _ (qnat_ge0 (2 * length d + 2)) K) D0). pose proof (qmult_nonneg _ _ U W0). qlra.
  Qed.
End Run.
Theorem run_uniform_small (S : sorter) (d : df) : qty_nonneg d -> price_nonneg d -> machine_qty f64 d -> machine_price f64 d -> labels_unique d -> (length d < 8)%nat ->
  forall tm ex, uniform_run_r f64 NP S d = Ok (tm, ex) ->
  feasible d (tm_trans tm) /\ rational d (tm_trans tm) /\
  qabs (bought d (tm_trans tm) - sold d (tm_trans tm)) <= (qnat (2 * length d) * (p2 (-53) * (1 + p2 (-53)) ^ length d) + p2 (-53)) * qsumf qty d.
Proof.
  intros Hq Hp Hm Hpr Hu Hl tm ex E.
  assert (Hs : forall l, (length l <= length d)%nat -> NP l = seq_sum f64 l) by (intros l L; apply np_short; lia).
  destruct (run_uniform_seq f64 NP S d Hq Hp Hm Hu _ Hs f64_rel tm ex E) as [F B].
  destruct (run_uniform_summary f64 NP S d Hq Hp Hm Hu tm ex E) as (_ & _ & _ & _ & I). split; [exact F|]. split; [exact (I f64_halves Hpr) | exact B].
Qed.
