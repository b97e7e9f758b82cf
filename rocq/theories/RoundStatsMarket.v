(** The profits after each of the mechanisms in rounded arithmetic, and runs in double precision. *)
From Verif Require Import QcTac Num NumFacts ModelBase ModelHuang ModelMuda ModelMerge ModelMarket ModelStats ModelRound ModelFloat ModelRoundMarket ModelRoundStats
  Spec SpecTrade SpecMuda SpecAlloc SpecStats SpecRound SpecRoundMarket SpecRoundStats Sorter Conform ListFacts TradeFacts P2PFacts P2PTrades AllocFacts StatsFacts MudaWitness
  RoundFacts RoundError RoundP2P RoundMuda RoundTop RoundWitness RoundMerge RoundMarket RoundMarketTop RoundMarketWitness RoundStats RoundStatsTop.

Section Market.
  Variables (R : rounding) (A G : adder R) (S : sorter) (smp : nat -> nat) (cnt : Z) (d : df).
  Hypothesis Hl : map lbl d = seq 0 (length d).
  Hypothesis Hq : qty_pos d.
  Hypothesis Hp : price_nonneg d.
  Hypothesis Hm : machine_qty R d.
  Variables (tm : transmgr) (ex : extra).
  Hypothesis E : run_huang_r R A G S smp cnt d = Ok (tm, ex).
  Theorem huang_r_profits rp fees p rp' : rints R -> machine_price R d -> calculate_profits_r R A G d (tm_trans tm) rp fees = (Ok p, rp') ->
    forall x, In x (pr_bid p) -> 0 <= x.
  Proof.
    intros Hi Hmp. apply profits_r_nonneg. intros t r Ht Hr El.
    destruct (run_r_safe R A G S smp cnt d Hl Hq Hp Hm tm ex E) as (_ & _ & Q & _). split; [apply Q, Ht|]. right.
    exact (run_r_rational_weak R A G S smp cnt d Hl Hq Hp Hm tm ex Hi Hmp E t r Ht Hr El).
  Qed.
  Theorem huang_r_market u rp p rp' : rel_error R u -> (1 + u) ^ length d <= qf 3 2 -> calculate_profits_r R A G d (tm_trans tm) rp None = (Ok p, rp') ->
    exists ps pb q, ex = XHuang ps pb q /\
      (pb - ps) * sold d (tm_trans tm) - (qnat (9 * length d + 12) * u * qsumf qty d * pb + ((1 + u) ^ (longest_side d (tm_trans tm) + 1) - 1) * turnover d (tm_trans tm)) <= pr_market p.
  Proof.
    intros Hrel HB Ep. pose proof (labels_ok d Hl) as Hu.
    - assert (Ne : tm_trans tm <> []) by (intro E0; rewrite E0 in Ep; discriminate Ep). destruct (run_r_safe R A G S smp cnt d Hl Hq Hp Hm tm ex E) as (_ & Rf & Q & [H0|(ps & pb & q & -> & Lp & (y & z & Hy & By & Eps & Hz & Bz & Epb) & T)]); [contradiction|].
      exists ps, pb, q. split; [reflexivity|].
      pose proof (market_r_error R u Hrel A G d (tm_trans tm) rp p rp' Hu Ep) as N.
      pose proof (run_r_balance R A G S smp cnt d Hl Hq Hp Hm u Hrel HB tm _ E) as Bal.
      assert (Sd : forall s c, (forall t r, In t (tm_trans tm) -> In r d -> lbl r = t_bid t -> buying r = s -> t_price t = c) ->
        money s d (tm_trans tm) = c * qsumf t_qty (filter (on_side s d) (tm_trans tm))).
      { intros s c H. unfold money. rewrite <- qsumf_scale. apply qsumf_ext. intros t Ht. apply filter_In in Ht. destruct Ht as [Ht Os].
        destruct (Rf t Ht) as (r & Hr & El). rewrite (on_side_in s d t r Hu Hr El) in Os. apply eqb_prop in Os. rewrite (H t r Ht Hr El Os). reflexivity. }
      assert (M1 : money true d (tm_trans tm) = pb * bought d (tm_trans tm)).
      { apply Sd. intros t r Ht Hr El Bs. specialize (T t r Ht Hr El). rewrite Bs in T. apply T. }
      assert (M2 : money false d (tm_trans tm) = ps * sold d (tm_trans tm)).
      { apply Sd. intros t r Ht Hr El Bs. specialize (T t r Ht Hr El). rewrite Bs in T. apply T. }
      assert (P0 : 0 <= pb).
      { pose proof (np_round_r_nonneg R 5 (price y) (Hp y Hy)) as W. rewrite <- Eps in W. qlra. }
      rewrite M1, M2 in N. set (e1 := ((1 + u) ^ _ - 1) * turnover d (tm_trans tm)) in *. set (e2 := qnat (9 * length d + 12) * u * qsumf qty d) in *.
      set (b := bought d (tm_trans tm)) in *. set (s := sold d (tm_trans tm)) in *.
      apply qabs_le_inv in N. destruct N as [N1 N2]. apply qabs_le_inv in Bal. destruct Bal as [_ B2].
      assert (K : 0 <= pb * (b - s + e2)) by (apply qmult_nonneg; [exact P0 | qlra]).
      replace (pb * (b - s + e2)) with (pb * b - pb * s + e2 * pb) in K by ring. replace ((pb - ps) * s) with (pb * s - ps * s) by ring.
      clearbody e1 e2. clear Ep E T Hrel. generalize dependent (pb * b). generalize (pb * s) (ps * s) (e2 * pb). intros. qlra.
  Qed.
End Market.
Theorem muda_r_profits (R : rounding) (A G : adder R) (S : sorter) (d : df) (fl : list bool) : labels_unique d -> qty_nonneg d -> machine_qty R d ->
  (forall l, (length l <= length d)%nat -> A l = seq_sum R l) -> forall u, rel_error R u -> forall tm ex, muda_r R A S d fl = Ok (tm, ex) ->
  forall rp fees p rp', calculate_profits_r R A G d (tm_trans tm) rp fees = (Ok p, rp') -> forall x, In x (pr_bid p) -> 0 <= x.
Proof.
  intros Hu Hq Hm HA u Hrel tm ex E rp fees p rp'. apply profits_r_nonneg. intros t r Ht Hr El.
  destruct (muda_r_safe R A S d fl Hu tm ex E) as (_ & _ & _ & Ra & _).
  destruct (muda_r_seq R A S d fl Hq Hu Hm HA u Hrel tm ex E) as [[F _] _]. 
  split; [apply F, Ht|]. right. exact (Ra t r Ht Hr El).
Qed.
Theorem p2p_r_profits (R : rounding) (A G : adder R) (d : df) (r : nat -> nat) : map lbl d = seq 0 (length d) -> qty_nonneg d -> machine_qty R d ->
  halves R -> machine_price R d -> forall tm ex, p2p_random_r R A d (qf 1 2) r = Ok (tm, ex) ->
  forall rp fees p rp', calculate_profits_r R A G d (tm_trans tm) rp fees = (Ok p, rp') -> forall x, In x (pr_bid p) -> 0 <= x.
Proof.
  intros Hl Hq Hm Hh Hmp tm ex E rp fees p rp'. apply profits_r_nonneg. intros t x Ht Hx El.
  destruct (p2p_r_safe R A d (qf 1 2) r Hl Hq Hm) as (tm' & gtl & E' & _ & Q & _). rewrite E in E'. injection E' as <- _. split; [apply Q, Ht|].
  destruct (qeq_spec (t_qty t) 0) as [Z|Z]; [left; exact Z|]. right.
  exact (p2p_r_price_half R A d (qf 1 2) r Hl Hq Hm tm ex eq_refl Hh Hmp E t x Ht Hx El Z).
Qed.

(** ** Double precision *)
(** the one buyer of [dear] pays more than its bid: it loses *)
Lemma dear_loss : exists (d : df) (c : Qc) (r : nat -> nat) tm ex, map lbl d = seq 0 (length d) /\ qty_nonneg d /\ price_nonneg d /\ machine_qty f64 d /\ machine_price f64 d /\
  machine f64 c /\ 0 <= c /\ c <= 1 /\ p2p_random_r f64 (np_adder f64) d c r = Ok (tm, ex) /\
  exists p rp' x, calculate_profits_r f64 (np_adder f64) (seq_adder f64) d (tm_trans tm) None None = (Ok p, rp') /\ In x (pr_bid p) /\ x < 0.
Proof.
  destruct (checks_ok (p2p_random_r f64 NP dear (tenth 2) (fun _ => 0%nat))
    (fun l => match fst (calculate_profits_r f64 NP SQ dear l None None) with Ok p => existsb (fun x => qltb x 0) (pr_bid p) | Err _ => false end)) as (tm & ex & E & F); [vm_compute; reflexivity|].
  destruct (good_ok dear) as (G1 & G2 & G3 & G4); [vm_compute; reflexivity|].
  exists dear, (tenth 2), (fun _ => 0%nat), tm, ex. split; [reflexivity|]. repeat (split; [assumption|]).
  split; [apply tenth_machine|]. split; [vm_compute; discriminate|]. split; [vm_compute; discriminate|]. split; [exact E|].
  destruct (calculate_profits_r f64 NP SQ dear (tm_trans tm) None None) as [[p|] rp'] eqn:Ec; [|discriminate F]. cbn [fst] in F.
  apply existsb_exists in F. destruct F as (x & Hx & F). apply (proj1 (qltb_lt _ _)) in F. exists p, rp', x. auto.
Qed.
(** a seller of 10^6 units serves a buyer of 0.3: the prices of the two sides differ by 10^-5, what is sold is
    computed as 10^6 - (10^6 - 0.3) *)
Definition dec (n : Z) : Qc := f64 (qf n 100000).
Definition loss : df := frame
  [B (tenth 3) (dec 100000000003) 0; B (qz 2000000) (dec 100000000002) 1; A (qz 1000000) (qz 1000000) 2; A (qz 3000000) (dec 100000000001) 3].
Lemma loss_witness : exists (S : sorter) (smp : nat -> nat) (cnt : Z) (d : df) tm ex,
  map lbl d = seq 0 (length d) /\ qty_pos d /\ price_nonneg d /\ machine_qty f64 d /\ machine_price f64 d /\
  run_huang_r f64 (np_adder f64) (seq_adder f64) S smp cnt d = Ok (tm, ex) /\
  money true d (tm_trans tm) < money false d (tm_trans tm) /\
  exists p rp', calculate_profits_r f64 (np_adder f64) (seq_adder f64) d (tm_trans tm) None (extra_fees ex) = (Ok p, rp') /\ pr_market p < 0.
Proof.
  assert (K : match run_huang_r f64 NP SQ SS first 0 loss with Ok (tm, ex) =>
      qltb (money true loss (tm_trans tm)) (money false loss (tm_trans tm)) &&
      match fst (calculate_profits_r f64 NP SQ loss (tm_trans tm) None (extra_fees ex)) with Ok p => qltb (pr_market p) 0 | Err _ => false end | Err _ => false end = true) by (vm_compute; reflexivity).
  destruct (run_huang_r f64 NP SQ SS first 0 loss) as [[tm ex]|] eqn:E; [|discriminate].
  destruct (good_ok loss) as (G1 & G2 & G3 & G4); [vm_compute; reflexivity|].
  exists SS, first, 0%Z, loss, tm, ex. split; [reflexivity|]. split; [apply positive_ok; vm_compute; reflexivity|]. repeat (split; [assumption|]).
  apply andb_true_iff in K. destruct K as [K1 K2]. apply (proj1 (qltb_lt _ _)) in K1.
  split; [exact K1|]. destruct (calculate_profits_r f64 NP SQ loss (tm_trans tm) None (extra_fees ex)) as [[p|] rp'] eqn:Ec; [|discriminate K2]. apply (proj1 (qltb_lt _ _)) in K2. exists p, rp'. auto.
Qed.
(** what four very small sellers sell to the buyer does not change what the buyer has left *)
Definition crumbs : df := frame
  [B (qz 1) (qz 3) 0; A (p2 (-54)) (qz 1) 1; A (p2 (-54)) (qz 1) 2; A (p2 (-54)) (qz 1) 3; A (p2 (-54)) (qz 1) 4; A (qz 1) (qz 2) 5].
Lemma crumbs_witness : exists (d : df) (r : nat -> nat) tm ex (obj x : Qc), map lbl d = seq 0 (length d) /\ qty_nonneg d /\ price_nonneg d /\ machine_qty f64 d /\ machine_price f64 d /\
  p2p_random_r f64 (np_adder f64) d (qf 1 2) r = Ok (tm, ex) /\ (forall y, alloc_ok d y -> SpecAlloc.volume d y <= obj) /\
  percentage_traded_r f64 (np_adder f64) obj (tm_trans tm) = Some x /\ 1 < x.
Proof.
  destruct (checks_ok (p2p_random_r f64 NP crumbs (qf 1 2) (fun _ => 0%nat))
    (fun l => match percentage_traded_r f64 NP (qz 1) l with Some x => qltb 1 x | None => false end)) as (tm & ex & E & F); [vm_compute; reflexivity|].
  destruct (percentage_traded_r f64 NP (qz 1) (tm_trans tm)) as [x|] eqn:Ex; [|discriminate]. apply (proj1 (qltb_lt _ _)) in F.
  destruct (good_ok crumbs) as (G1 & G2 & G3 & G4); [vm_compute; reflexivity|].
  exists crumbs, (fun _ => 0%nat), tm, ex, (qz 1), x. split; [reflexivity|]. repeat (split; [assumption|]). split; [|auto].
  intros y (_ & H & _). unfold SpecAlloc.volume. set (b := mkRow 0 (qz 1) (qz 3) 0 true 0 true).
  change (all_b crumbs) with [b] in *. rewrite qsumf_cons, qsumf_nil. specialize (H b (or_introl eq_refl)). change (qty b) with (qz 1) in H. qlra.
Qed.
