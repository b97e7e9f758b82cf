(** Double precision with bounded exponents: whole numbers, statistics, and what happens below the normal numbers. *)
From Verif Require Import QcTac Num NumFacts ModelMerge ModelBase ModelCurves ModelHuang ModelMuda ModelP2P ModelMarket ModelStats ModelUniform ModelRound ModelRoundStats ModelRoundUniform ModelFloat
  ListFacts MergeFacts Spec SpecRound Sorter P2PFacts RoundFacts RoundTop RoundWitness SpecGrid GridFacts GridMuda GridP2P GridHuang GridStats GridTop MudaWitness Conform ModelBounded SpecBounded BoundFacts BoundP2P.

Theorem whole_bounded (A : adder binary64) S d T P : labels_unique d -> whole_table T P d -> (0 <= P)%Z -> (T <= 2 ^ 52)%Z -> (P <= 2 ^ 51)%Z -> (P * T <= 2 ^ 51)%Z ->
  (forall fl, muda_r binary64 A S d fl = muda S d fl) /\
  (forall r, p2p_random_r binary64 A d (qf 1 2) r = p2p_random d (qf 1 2) r) /\
  uniform_run_r binary64 A S d = uniform_run S d /\
  ((Z.of_nat (length d) <= 2 ^ 1022)%Z -> same_result (p2 (-53)) d (huang_auction_r binary64 A S d) (huang_auction S d)).
Proof.
  intros Hu W P0 LT LP LPT. pose proof (whole_gridded T P d W) as F.
  assert (P0' : 0 <= qz P) by (rewrite <- qz_0; apply (proj1 (qz_le _ _)), P0).
  assert (LT' : qz T < p2 (0 + 53)) by (apply Qcle_lt_trans with (p2 52); [apply whole_p2; lia | vm_compute; reflexivity]).
  assert (LP' : qz P <= p2 (0 + 51)) by (apply whole_p2; lia).
  split; [|split; [|split]].
  - intro fl. apply (muda_bounded 0 0 (qz T) (qz P)); try assumption; [lia | lia | lia | apply Qclt_le_weak, LT'|]. rewrite <- qz_mult. apply whole_p2; lia.
  - intro r. apply (p2p_grid_bounded 0 0 (qz T) (qz P) A d F P0' ltac:(lia) (-1)); try assumption; [lia | lia | exists 1%Z; apply Qc_is_canon; vm_compute; reflexivity | vm_compute; discriminate | vm_compute; discriminate | apply Qclt_le_weak, LT'|].
    apply Qcle_trans with (p2 (0 + 51)); [exact LP' | apply p2_le; lia].
  - apply (uniform_bounded 0 0 (qz T) (qz P)); try assumption; [lia | lia | apply Qclt_le_weak, LT'].
  - intro Ln. apply (huang_bounded 0 0 (qz T) (qz P)) with (k := 1022%Z); try assumption; lia.
Qed.
Section Stats.
  Variables (a b : Z) (T P F : Qc) (A G : adder binary64) (d : df) (ts : list trans) (rp : option dict) (fees : option (list Qc)).
  Theorem profits_bounded : (-1074 <= b <= 970)%Z -> (-1074 <= a + b <= 970)%Z ->
    labels_unique d -> gridded_trades (p2 a) (p2 b) T P ts -> gridded_prices (p2 b) P (map price d) ->
    match rp with Some m => gridded_prices (p2 b) P (map snd m) | None => True end ->
    match fees with Some f => (forall x, In x f -> on_grid (p2 (a + b)) x) /\ qsumf qabs f <= F | None => True end ->
    0 <= P -> 0 <= F -> P <= p2 (b + 52) -> (P + P) * T + F <= p2 (a + b + 53) ->
    calculate_profits_r binary64 A G d ts rp fees = calculate_profits d ts rp fees.
  Proof.
    intros Hb Hab Hu Ht Hd Hr Hf P0 F0 LP LB. assert (E : p2 b * p2 a = p2 (a + b)) by (rewrite <- p2_plus; f_equal; lia).
    apply (profits_free (p2 a) (p2 b) T P binary64 A G d ts) with (F := F); try assumption; [rewrite E; exact Hf | | rewrite E; apply b64_below; assumption].
    apply b64_below; [exact Hb|]. replace (b + 53)%Z with (b + 52 + 1)%Z by lia. rewrite p2_succ. clear - LP. qlra.
  Qed.
End Stats.
(** a seller at the smallest price: half of it is rounded to zero *)
Definition least : df := frame [B 1 tiny 0; A 1 tiny 1].
Definition fine (d : df) : bool :=
  forallb (fun r => qleb 0 (qty r) && (qleb 0 (price r) && (qeqb (binary64 (qty r)) (qty r) && qeqb (binary64 (price r)) (price r)))) d.
Lemma fine_ok d : fine d = true -> qty_nonneg d /\ price_nonneg d /\ machine_qty binary64 d /\ machine_price binary64 d.
Proof.
  intro G.
  assert (K : forall r, In r d -> 0 <= qty r /\ 0 <= price r /\ machine binary64 (qty r) /\ machine binary64 (price r)).
  { intros r Hr. pose proof (proj1 (forallb_forall _ _) G r Hr) as F.
    apply andb_true_iff in F. destruct F as [F1 F]. apply andb_true_iff in F. destruct F as [F2 F]. apply andb_true_iff in F. destruct F as [F3 F4].
    apply (proj1 (qleb_le _ _)) in F1. apply (proj1 (qleb_le _ _)) in F2. apply (proj1 (qeqb_eq _ _)) in F3. apply (proj1 (qeqb_eq _ _)) in F4. auto. }
  repeat split; intros r Hr; apply (K r Hr).
Qed.
Definition NB : adder binary64 := np_adder binary64.
Lemma least_run : exists tm ex, p2p_random_r binary64 NB least (qf 1 2) (fun _ => 0%nat) = Ok (tm, ex) /\
  exists t x, In t (tm_trans tm) /\ In x least /\ lbl x = t_bid t /\ buying x = false /\ 0 < t_qty t /\ t_price t < price x.
Proof.
  destruct (checks_ok (p2p_random_r binary64 NB least (qf 1 2) (fun _ => 0%nat))
    (existsb (fun t => existsb (fun x => Nat.eqb (lbl x) (t_bid t) && (negb (buying x) && (qltb 0 (t_qty t) && qltb (t_price t) (price x)))) least))) as (tm & ex & E & F); [vm_compute; reflexivity|].
  exists tm, ex. split; [exact E|]. apply existsb_exists in F. destruct F as (t & Ht & F). apply existsb_exists in F. destruct F as (x & Hx & F).
  apply andb_true_iff in F. destruct F as [F1 F]. apply andb_true_iff in F. destruct F as [F2 F]. apply andb_true_iff in F. destruct F as [F3 F4].
  exists t, x. split; [exact Ht|]. split; [exact Hx|]. split; [apply Nat.eqb_eq, F1|]. split; [apply negb_true_iff, F2|].
  split; [apply (proj1 (qltb_lt _ _)), F3 | apply (proj1 (qltb_lt _ _)), F4].
Qed.
Theorem least_price : exists d r tm ex, map lbl d = seq 0 (length d) /\ qty_nonneg d /\ price_nonneg d /\ machine_qty binary64 d /\ machine_price binary64 d /\
  p2p_random_r binary64 (np_adder binary64) d (qf 1 2) r = Ok (tm, ex) /\
  exists t x, In t (tm_trans tm) /\ In x d /\ lbl x = t_bid t /\ buying x = false /\ 0 < t_qty t /\ t_price t < price x.
Proof.
  destruct least_run as (tm & ex & E & F). destruct (fine_ok least) as (G1 & G2 & G3 & G4); [vm_compute; reflexivity|].
  exists least, (fun _ => 0%nat), tm, ex. split; [reflexivity|]. repeat (split; [assumption|]). exact F.
Qed.
Theorem p2p_price_bounded (A : adder binary64) d r tm ex : map lbl d = seq 0 (length d) -> qty_nonneg d -> machine_qty binary64 d -> machine_price binary64 d ->
  (forall x, In x d -> price_normal (price x)) -> p2p_random_r binary64 A d (qf 1 2) r = Ok (tm, ex) ->
  forall t x, In t (tm_trans tm) -> In x d -> lbl x = t_bid t -> t_qty t <> 0 -> if buying x then t_price t <= price x else price x <= t_price t.
Proof.
  intros Hl Hq Hm Hp Hn E. rewrite (p2p_half A NP d r (labels_ok d Hl) Hq Hm Hp Hn) in E.
  apply (p2p_r_price_half f64 NP d (qf 1 2) r Hl Hq (fun x Hx => b64_machine_f64 _ (Hm x Hx)) tm ex eq_refl f64_halves (fun x Hx => b64_machine_f64 _ (Hp x Hx)) E).
Qed.
