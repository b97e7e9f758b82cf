(** Property C97: Huang's auction, MUDA, the uniform price mechanism and the statistics on IEEE 754 doubles. *)
From Coq Require Import Floats.SpecFloat.
From Verif Require Import QcTac Num ModelBase ModelCurves ModelHuang ModelMuda ModelMarket ModelStats ModelUniform ModelRound ModelRoundUniform ModelRoundStats ModelFloat ModelBounded
  Spec SpecRound SpecGrid SpecDouble SpecIeee SpecOps Conform Sorter RoundFacts ModelOps OpsFacts OpsTop.

(** C97. The model for given operations is the rounded model if the operations are exact ones followed by a rounding. *)
Theorem C97_rounded : forall (R : rounding) (A : adder R) (S : sorter) (d : df),
  huang_auction_o (rounded R) A S d = huang_auction_r R A S d /\ (forall fl, muda_o (rounded R) A S d fl = muda_r R A S d fl) /\
  uniform_run_o (rounded R) A S d = uniform_run_r R A S d /\ (forall l, np_sum_o (rounded R) l = np_sum R l).
Proof. exact (fun R A S d => conj (huang_rounded R A S d) (conj (muda_rounded R A S d) (conj (uniform_rounded R A S d) (np_sum_rounded R)))). Qed.
Print Assumptions C97_rounded.
(** The operations on values are those of the doubles: the value of a result depends on the values only. *)
Theorem C97_values : forall j x y, proper x -> proper y ->
  of_double j (SFadd 53 1024 x y) = o_add (doubles j) (fval x) (fval y) /\ of_double j (SFsub 53 1024 x y) = o_sub (doubles j) (fval x) (fval y) /\
  of_double j (SFmul 53 1024 x y) = o_mul (doubles j) (fval x) (fval y) /\ (fval y <> 0 -> of_double j (SFdiv 53 1024 x y) = o_div (doubles j) (fval x) (fval y)).
Proof. exact ops_values. Qed.
Print Assumptions C97_values.

(** Quantities of at most [2^a], prices of at most [2^b], [a + b <= 800] and at most [2^40] bids: a run on doubles is a run of the
    rounded model, whatever the value of an infinite result is taken to be. *)
Theorem C97_huang : forall j a b S d, room a b -> double_table a b d ->
  huang_auction_o (doubles j) (np_sum_o (doubles j)) S d = huang_auction_r binary64 (np_adder binary64) S d.
Proof. exact huang_doubles. Qed.
Print Assumptions C97_huang.
Theorem C97_muda : forall j a b S d fl, room a b -> double_table a b d -> labels_unique d ->
  muda_o (doubles j) (np_sum_o (doubles j)) S d fl = muda_r binary64 (np_adder binary64) S d fl.
Proof. exact muda_doubles. Qed.
Print Assumptions C97_muda.
Theorem C97_uniform : forall j a b S d, room a b -> double_table a b d ->
  uniform_run_o (doubles j) (np_sum_o (doubles j)) S d = uniform_run_r binary64 (np_adder binary64) S d.
Proof. exact uniform_doubles. Qed.
Print Assumptions C97_uniform.
(** The statistics of transactions of such sizes; the optimum of a program is at least [2^-100]. *)
Theorem C97_profits : forall j a b d ts, room a b -> labels_unique d -> double_table a b d -> double_trades a b ts ->
  forall rp fees, match rp with Some m => double_list b (map snd m) | None => True end -> match fees with Some f => double_list (a + b) f | None => True end ->
  calculate_profits_o (doubles j) (np_sum_o (doubles j)) (seq_sum_o (doubles j)) d ts rp fees = calculate_profits_r binary64 (np_adder binary64) (seq_adder binary64) d ts rp fees.
Proof. exact profits_doubles. Qed.
Print Assumptions C97_profits.
Theorem C97_percentages : forall j a b d ts, room a b -> labels_unique d -> double_table a b d -> double_trades a b ts ->
  forall o, machine binary64 o -> pow2 (-100) <= o ->
  percentage_traded_o (doubles j) (np_sum_o (doubles j)) o ts = percentage_traded_r binary64 (np_adder binary64) o ts /\
  percentage_welfare_o (doubles j) (np_sum_o (doubles j)) o d ts = percentage_welfare_r binary64 (np_adder binary64) o d ts.
Proof. exact percentages_doubles. Qed.
Print Assumptions C97_percentages.
(** With whole numbers the doubles compute the exact model; in Huang's auction up to the rounding of a share of the excess. *)
Theorem C97_whole : forall j S d (T P : Z), labels_unique d -> whole_table T P d -> (0 <= P)%Z -> (T <= 2 ^ 52)%Z -> (P <= 2 ^ 51)%Z -> (P * T <= 2 ^ 51)%Z -> (Z.of_nat (length d) <= 2 ^ 40)%Z ->
  (forall fl, muda_o (doubles j) (np_sum_o (doubles j)) S d fl = muda S d fl) /\
  uniform_run_o (doubles j) (np_sum_o (doubles j)) S d = uniform_run S d /\
  same_result (p2 (-53)) d (huang_auction_o (doubles j) (np_sum_o (doubles j)) S d) (huang_auction S d).
Proof. exact whole_doubles. Qed.
Print Assumptions C97_whole.

(** Tenths, as doubles: the run on doubles, the run of the rounded model and the exact run.  The first two agree and have
    transactions; the quantities of the exact run are others. *)
Definition t10 (k : Z) : Qc := fval (SFdiv 53 1024 (to_double (qz k)) (to_double (qz 10))).
Definition tens : df := frame [B (t10 11) (t10 90) 0; B (t10 7) (t10 80) 1; A (t10 3) (t10 10) 2; A (t10 6) (t10 20) 3; A (t10 8) (t10 30) 4; B (t10 1) (t10 5) 5].
Definition moved (r : res (transmgr * extra)) : list (nat * Q * Q) :=
  match r with Ok (tm, _) => map (fun t => (t_bid t, this (t_qty t), this (t_price t))) (tm_trans tm) | Err _ => [] end.
Example C97_tens :
  Nat.ltb 2 (length (moved (huang_auction_o (doubles 0) (np_sum_o (doubles 0)) stable_sorter tens))) = true /\
  moved (huang_auction_o (doubles 0) (np_sum_o (doubles 0)) stable_sorter tens) = moved (huang_auction_r binary64 (np_adder binary64) stable_sorter tens) /\
  moved (uniform_run_o (doubles 1) (np_sum_o (doubles 1)) stable_sorter tens) = moved (uniform_run_r binary64 (np_adder binary64) stable_sorter tens) /\
  moved (uniform_run_o (doubles 1) (np_sum_o (doubles 1)) stable_sorter tens) <> moved (uniform_run stable_sorter tens) /\
  Nat.ltb 2 (length (moved (uniform_run stable_sorter tens))) = true.
Proof. split; [vm_compute; reflexivity|]. split; [vm_compute; reflexivity|]. split; [vm_compute; reflexivity|]. split; [vm_compute; discriminate | vm_compute; reflexivity]. Qed.
(** Quantities of [2^1023]: a sum is infinite, and the value given to it matters. *)
Definition vast : df := frame [B (p2 1023) (qz 9) 0; B (p2 1023) (qz 8) 1; A (p2 1023) 1 2; A (p2 1023) (qz 2) 3; A (p2 1023) (qz 10) 4].
Example C97_room_needed :
  moved (uniform_run_o (doubles 0) (np_sum_o (doubles 0)) stable_sorter vast) <> moved (uniform_run_r binary64 (np_adder binary64) stable_sorter vast).
Proof. vm_compute. discriminate. Qed.
(** MUDA on tenths, with fees that are no tenths *)
Definition fees_of (r : res (transmgr * extra)) : list Q := match r with Ok (_, XMuda _ _ _ _ f) => map this f | _ => [] end.
Definition tens2 : df := frame [B (t10 11) (t10 90) 0; B (t10 7) (t10 80) 1; A (t10 3) (t10 10) 2; A (t10 6) (t10 20) 3; A (t10 8) (t10 30) 4; B (t10 4) (t10 70) 5; A (t10 5) (t10 15) 6; B (t10 3) (t10 60) 7].
Definition tens_flips : list bool := [true; false; true; false; true; true; false; false].
Definition muda_10 : res (transmgr * extra) := muda_o (doubles 0) (np_sum_o (doubles 0)) stable_sorter tens2 tens_flips.
Definition muda_10r : res (transmgr * extra) := muda_r binary64 (np_adder binary64) stable_sorter tens2 tens_flips.
Example C97_tens_muda : moved muda_10 = moved muda_10r /\ fees_of muda_10 = fees_of muda_10r /\
  (exists q, In q (fees_of muda_10) /\ Qeq_bool q 0%Q = false) /\ Nat.ltb 2 (length (moved muda_10)) = true.
Proof.
  split; [vm_compute; reflexivity|]. split; [vm_compute; reflexivity|]. split; [|vm_compute; reflexivity].
  apply Exists_exists. assert (E : existsb (fun q => negb (Qeq_bool q 0%Q)) (fees_of muda_10) = true) by (vm_compute; reflexivity).
  apply existsb_exists in E. destruct E as (q & H & N). apply Exists_exists. exists q. split; [exact H|]. destruct (Qeq_bool q 0%Q); [discriminate | reflexivity].
Qed.
