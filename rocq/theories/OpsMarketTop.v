(** [Market.run] and [Market.statistics] on doubles. *)
From Coq Require Import Floats.SpecFloat.
From Verif Require RoundMarketTop RoundStatsMarket RoundMuda.
From Verif Require Import QcTac Num ModelMerge MergeFacts ModelBase ModelCurves ModelHuang ModelMuda ModelMarket ModelStats ModelRound ModelRoundMarket ModelRoundStats ModelFloat ModelBounded
  Spec SpecTrade SpecRound SpecGrid SpecDouble SpecIeee SpecOps SpecRoundMarket Sorter ListFacts StoreFacts RoundFacts BoundFacts DoubleFacts ModelOps ModelOpsMarket OpsFacts OpsRun OpsStats OpsTop OpsMarket.

Lemma b64_rints : rints binary64.
Proof. intros x _ M. apply rint_machine, M. Qed.
Lemma once_len d ts : once ts -> refer d ts -> (length ts <= length d)%nat.
Proof.
  intros O R. rewrite <- (map_length t_bid ts), <- (map_length lbl d). apply NoDup_incl_length; [exact O|]. intros i Hi. apply in_map_iff in Hi. destruct Hi as (t & <- & Ht).
  destruct (R t Ht) as (r & Hr & <-). apply in_map, Hr.
Qed.
Lemma trades_for a b ts : (forall t, In t ts -> inb a 1 (t_qty t) /\ inb b 1 (t_price t)) -> (Z.of_nat (length ts) <= 2 ^ 40)%Z -> double_trades a b ts.
Proof. intros H L. split; [|exact L]. intros t Ht. destruct (H t Ht) as [[Q1 Q2] [P1 P2]]. rewrite qz_1, Qcmult_1_l in Q2, P2. rewrite !pow2_p2. auto. Qed.
Lemma table_widen a b a' b' d : double_table a b d -> (a <= a')%Z -> (b <= b')%Z -> double_table a' b' d.
Proof.
  intros [F L] A B. split; [|exact L]. intros r Hr. destruct (F r Hr) as (Q1 & Q2 & P1 & P2). rewrite pow2_p2 in Q2, P2 |- *. rewrite pow2_p2.
  split; [exact Q1|]. split; [exact (Qcle_trans _ _ _ Q2 (p2_le _ _ A))|]. split; [exact P1 | exact (Qcle_trans _ _ _ P2 (p2_le _ _ B))].
Qed.

Theorem merge_doubles j a b prec smp d cnt : wide_room a b -> double_table a b d -> (-15 <= prec <= 15)%Z ->
  merge_same_price_o (doubles j) (seq_sum_o (doubles j)) prec smp d cnt = merge_same_price_r binary64 (seq_adder binary64) prec smp d cnt.
Proof. intros (A & B & C) H P. apply (merge_in j a b A B ltac:(lia) prec P), table_of, H. Qed.
Theorem split_doubles j a b c d mp tm : wide_room a b -> double_table a b d -> qty_nonneg d -> (forall rows, In rows mp -> (Z.of_nat (length rows) <= 2 ^ 40)%Z) ->
  (0 <= c <= 900)%Z -> (forall t, In t (tm_trans tm) -> machine binary64 (t_qty t) /\ qabs (t_qty t) <= pow2 c) ->
  split_transactions_o (doubles j) (np_sum_o (doubles j)) tm d mp = split_transactions_r binary64 (np_adder binary64) tm d mp.
Proof.
  intros (A & B & C) H Q M Hc T. apply (split_in j a b A B ltac:(lia) c Hc d mp (tm_trans tm) (table_of _ _ _ H) Q M). intros t Ht. destruct (T t Ht). apply dval_in; assumption.
Qed.
(** the run, and the sizes of its transactions *)
Lemma run_in j a b S smp cnt d : wide_room a b -> double_table a b d -> qty_nonneg d ->
  run_huang_o (doubles j) (np_sum_o (doubles j)) (seq_sum_o (doubles j)) S smp cnt d = run_huang_r binary64 (np_adder binary64) (seq_adder binary64) S smp cnt d /\
  forall tm ex, run_huang_r binary64 (np_adder binary64) (seq_adder binary64) S smp cnt d = Ok (tm, ex) -> forall t, In t (tm_trans tm) -> inb (a + 93) 1 (t_qty t).
Proof.
  intros (A & B & C) H Q. pose proof (table_of _ _ _ H) as T. unfold run_huang_o, run_huang_r.
  destruct (merge_in j a b A B ltac:(lia) 5 ltac:(lia) smp d cnt T) as [E1 K1]. rewrite E1.
  destruct (merge_same_price_r binary64 (seq_adder binary64) 5 smp d cnt) as [[[md mp] c]|]; [|split; [reflexivity | discriminate]]. cbn [bind]. destruct (K1 md mp c eq_refl) as [T2 M2].
  assert (E2 : merged_run (huang_auction_o (doubles j) (np_sum_o (doubles j)) S) md = merged_run (huang_auction_r binary64 (np_adder binary64) S) md).
  { unfold merged_run, mech_run0. rewrite (huang_in j (a + 40) (b + 50) ltac:(lia) ltac:(lia) ltac:(lia) S md T2). reflexivity. }
  assert (K2 : forall tm ex, merged_run (huang_auction_r binary64 (np_adder binary64) S) md = Ok (tm, ex) -> forall t, In t (tm_trans tm) -> inb (a + 93) 1 (t_qty t)).
  { intros tm ex E t Ht. unfold merged_run, mech_run0 in E. destruct (lone_buyer md); [discriminate|]. destruct (_ || _); [injection E as <- <-; destruct Ht|].
    destruct (huang_out j (a + 40) (b + 50) ltac:(lia) ltac:(lia) ltac:(lia) S md T2 tm ex E) as [F _]. rewrite Forall_forall in F. replace (a + 93)%Z with (a + 40 + 53)%Z by lia. apply F, Ht. }
  rewrite E2. clear E2. destruct (merged_run _ md) as [[tm0 ex0]|]; [|split; [reflexivity | discriminate]]. cbn [bind]. specialize (K2 tm0 ex0 eq_refl).
  assert (ML : forall rows, In rows mp -> (Z.of_nat (length rows) <= 2 ^ 40)%Z) by (intros rows Hr; specialize (M2 rows Hr); destruct T as [_ L]; lia).
  destruct (split_in j a b A B ltac:(lia) (a + 93) ltac:(lia) d mp (tm_trans tm0) T Q ML K2 tm_init) as [E3 K3]. unfold split_transactions_o, split_transactions_r. rewrite E3. split; [reflexivity|].
  destruct (split_list_r binary64 (np_adder binary64) d mp (tm_trans tm0) tm_init) as [tm1|]; [|discriminate]. cbn [bind]. intros tm ex E. injection E as <- <-. apply (K3 tm1); [intros t [] | reflexivity].
Qed.
Theorem run_doubles j a b S smp cnt d : wide_room a b -> double_table a b d -> qty_nonneg d ->
  run_huang_o (doubles j) (np_sum_o (doubles j)) (seq_sum_o (doubles j)) S smp cnt d = run_huang_r binary64 (np_adder binary64) (seq_adder binary64) S smp cnt d.
Proof. intros H T Q. apply (run_in j a b S smp cnt d H T Q). Qed.

Section Huang.
  Variables (j : Qc) (a b : Z) (S : sorter) (smp : nat -> nat) (cnt : Z) (d : df).
  Hypothesis (Hw : wide_room a b) (Hd : double_table a b d) (Hl : map lbl d = seq 0 (length d)) (Hq : qty_pos d) (Hp : price_nonneg d).
  Notation D := (doubles j).
  Variables (tm : transmgr) (ex : extra).
  Hypothesis E : run_huang_o D (np_sum_o D) (seq_sum_o D) S smp cnt d = Ok (tm, ex).

  Lemma nonneg_d : qty_nonneg d.
  Proof. intros r Hr. apply Qclt_le_weak, Hq, Hr. Qed.
  Lemma machine_d : machine_qty binary64 d /\ machine_price binary64 d.
  Proof. destruct Hd as [F _]. split; intros r Hr; apply (F r Hr). Qed.
  Lemma unique_d : labels_unique d.
  Proof. unfold labels_unique. rewrite Hl. apply seq_NoDup. Qed.
  Lemma run_r : run_huang_r binary64 (np_adder binary64) (seq_adder binary64) S smp cnt d = Ok (tm, ex).
  Proof. rewrite <- (run_doubles j a b S smp cnt d Hw Hd nonneg_d). exact E. Qed.
  Lemma safe : once (tm_trans tm) /\ refer d (tm_trans tm) /\ (forall t, In t (tm_trans tm) -> 0 <= t_qty t /\ t_source t = (-1)%Z /\ t_active t = false) /\
    (forall t r, In t (tm_trans tm) -> In r d -> lbl r = t_bid t -> if buying r then t_price t <= price r else price r <= t_price t).
  Proof.
    destruct (RoundMarketTop.run_r_safe binary64 (np_adder binary64) (seq_adder binary64) S smp cnt d Hl Hq Hp (proj1 machine_d) tm ex run_r) as (A & B & C & _).
    split; [exact A|]. split; [exact B|]. split; [exact C|]. exact (RoundMarketTop.run_r_rational_weak binary64 (np_adder binary64) (seq_adder binary64) S smp cnt d Hl Hq Hp (proj1 machine_d) tm ex b64_rints (proj2 machine_d) run_r).
  Qed.
  Lemma run_trades : double_trades (a + 93) (b + 51) (tm_trans tm).
  Proof.
    destruct Hw as (A & B & C). destruct safe as (S1 & S2 & _). apply trades_for.
    - intros t Ht. split; [apply (proj2 (run_in j a b S smp cnt d Hw Hd nonneg_d) tm ex run_r t Ht)|].
      destruct (RoundMarketTop.run_r_safe binary64 (np_adder binary64) (seq_adder binary64) S smp cnt d Hl Hq Hp (proj1 machine_d) tm ex run_r) as (_ & _ & _ & [Z|(ps & pb & q & _ & _ & (y & z & Hy & _ & Ey & Hz & _ & Ez) & Pr)]).
      + rewrite Z in Ht. destruct Ht.
      + destruct (S2 t Ht) as (r & Hr & Er). specialize (Pr t r Ht Hr Er).
        assert (K : forall x, In x d -> inb (b + 51) 1 (np_round_r binary64 5 (price x))).
        { intros x Hx. pose proof (table_price a b d (table_of _ _ _ Hd) x Hx) as P. apply (inb_e (b + 50)); [|lia]. apply (round_in j a b A B ltac:(lia) 5 ltac:(lia) (price x) P). }
        destruct (buying r); destruct Pr as [-> _]; [rewrite Ez | rewrite Ey]; apply K; assumption.
    - pose proof (once_len d _ S1 S2). destruct Hd as [_ L]. lia.
  Qed.
  Theorem run_profits rp : match rp with Some m => double_list (b + 51) (map snd m) | None => True end ->
    calculate_profits_o D (np_sum_o D) (seq_sum_o D) d (tm_trans tm) rp None = calculate_profits_r binary64 (np_adder binary64) (seq_adder binary64) d (tm_trans tm) rp None.
  Proof.
    intro H. destruct Hw as (A & B & C). apply (profits_doubles j (a + 93) (b + 51) d (tm_trans tm)); [unfold room; lia | exact unique_d | apply (table_widen a b); [exact Hd | lia | lia] | exact run_trades | exact H | exact I].
  Qed.
  Theorem run_percentages o : machine binary64 o -> pow2 (-100) <= o ->
    percentage_traded_o D (np_sum_o D) o (tm_trans tm) = percentage_traded_r binary64 (np_adder binary64) o (tm_trans tm) /\
    percentage_welfare_o D (np_sum_o D) o d (tm_trans tm) = percentage_welfare_r binary64 (np_adder binary64) o d (tm_trans tm).
  Proof.
    intros M L. destruct Hw as (A & B & C). apply (percentages_doubles j (a + 93) (b + 51) d (tm_trans tm)); [unfold room; lia | exact unique_d | apply (table_widen a b); [exact Hd | lia | lia] | exact run_trades | exact M | exact L].
  Qed.
  Theorem run_no_loss rp p rp' : match rp with Some m => double_list (b + 51) (map snd m) | None => True end ->
    calculate_profits_o D (np_sum_o D) (seq_sum_o D) d (tm_trans tm) rp None = (Ok p, rp') -> forall x, In x (pr_bid p) -> 0 <= x.
  Proof.
    intros H P. rewrite run_profits in P by exact H.
    exact (RoundStatsMarket.huang_r_profits binary64 (np_adder binary64) (seq_adder binary64) S smp cnt d Hl Hq Hp (proj1 machine_d) tm ex run_r rp None p rp' b64_rints (proj2 machine_d) P).
  Qed.
End Huang.

Section Muda.
  Variables (j : Qc) (a b : Z) (S : sorter) (d : df) (fl : list bool).
  Hypothesis (Hw : wide_room a b) (Hd : double_table a b d) (Hu : labels_unique d).
  Notation D := (doubles j).
  Theorem muda_run_doubles : mechanism None (fun x => muda_o D (np_sum_o D) S x fl) d = mechanism None (fun x => muda_r binary64 (np_adder binary64) S x fl) d.
  Proof. destruct Hw as (A & B & C). unfold mechanism, mech_run0. rewrite (muda_doubles j a b S d fl) by (assumption || (unfold room; lia)). reflexivity. Qed.
  Variables (tm : transmgr) (l r : list nat) (pl pr : num) (fees : list Qc).
  Hypothesis E : muda_o D (np_sum_o D) S d fl = Ok (tm, XMuda l r pl pr fees).
  Lemma muda_sizes : double_trades (a + 150) (b + 1) (tm_trans tm) /\ double_list (a + 150 + (b + 1)) fees.
  Proof.
    destruct Hw as (A & B & C). pose proof (table_of _ _ _ Hd) as T. destruct (muda_in j a b A B ltac:(lia) S d fl T Hu) as [E1 K]. rewrite E1 in E. destruct (K tm l r pl pr fees E) as (F & L & G & M). destruct Hd as [_ Ld]. split.
    - apply trades_for; [|lia]. intros t Ht. rewrite Forall_forall in F. destruct (F t Ht) as [Q P]. split; [apply (inb_e (a + 53)); [exact Q | lia] | apply (inb_up b 2 1); [exact P | lia | lia]].
    - split; [|lia]. intros x Hx. rewrite Forall_forall in G. specialize (G x Hx). unfold fee_small in G. apply (inb_up _ _ 41) in G; [|lia | lia]. apply (inb_e _ (a + 150 + (b + 1))) in G; [|lia].
      destruct G as [G1 G2]. rewrite qz_1, Qcmult_1_l in G2. rewrite pow2_p2. split; [exact G1 | exact G2].
  Qed.
  Theorem muda_profits_doubles rp : match rp with Some m => double_list (b + 1) (map snd m) | None => True end ->
    calculate_profits_o D (np_sum_o D) (seq_sum_o D) d (tm_trans tm) rp (Some fees) = calculate_profits_r binary64 (np_adder binary64) (seq_adder binary64) d (tm_trans tm) rp (Some fees).
  Proof.
    intro H. destruct Hw as (A & B & C). destruct muda_sizes as [M1 M2]. apply (profits_doubles j (a + 150) (b + 1) d (tm_trans tm)); [unfold room; lia | exact Hu | apply (table_widen a b); [exact Hd | lia | lia] | exact M1 | exact H | exact M2].
  Qed.
  Theorem muda_percentages_doubles o : machine binary64 o -> pow2 (-100) <= o ->
    percentage_traded_o D (np_sum_o D) o (tm_trans tm) = percentage_traded_r binary64 (np_adder binary64) o (tm_trans tm) /\
    percentage_welfare_o D (np_sum_o D) o d (tm_trans tm) = percentage_welfare_r binary64 (np_adder binary64) o d (tm_trans tm).
  Proof.
    intros M L. destruct Hw as (A & B & C). destruct muda_sizes as [M1 M2]. apply (percentages_doubles j (a + 150) (b + 1) d (tm_trans tm)); [unfold room; lia | exact Hu | apply (table_widen a b); [exact Hd | lia | lia] | exact M1 | exact M | exact L].
  Qed.
  Theorem muda_rational_doubles : refer d (tm_trans tm) /\ once (tm_trans tm) /\
    (forall t x, In t (tm_trans tm) -> In x d -> lbl x = t_bid t -> t_qty t <= qty x) /\ rational d (tm_trans tm) /\ (forall f, In f fees -> 0 <= f).
  Proof.
    destruct Hw as (A & B & C). rewrite (muda_doubles j a b S d fl) in E by (assumption || (unfold room; lia)).
    destruct (RoundMuda.muda_r_safe binary64 (np_adder binary64) S d fl Hu tm _ E) as (R1 & R2 & R3 & R4 & _ & (l' & r' & pl' & pr' & f' & Ex & _ & _ & _ & _ & F)). injection Ex as <- <- <- <- <-. auto.
  Qed.
End Muda.
