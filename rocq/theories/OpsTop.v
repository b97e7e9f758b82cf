(** Doubles and rounded operations: the statements for tables. *)
From Coq Require Import Floats.SpecFloat.
From Verif Require Import QcTac Num ModelMerge MergeFacts ModelBase ModelCurves ModelHuang ModelMuda ModelMarket ModelStats ModelUniform ModelRound ModelRoundUniform ModelRoundStats ModelFloat ModelBounded
  Spec SpecRound SpecGrid SpecDouble SpecIeee SpecOps RoundFacts BoundFacts BoundTop DoubleFacts IeeeOps IeeeTop ModelOps OpsFacts OpsRun OpsStats.

Lemma table_of a b d : double_table a b d -> table_in a b d.
Proof.
  intros [F L]. split; [|exact L]. apply Forall_forall. intros r Hr. destruct (F r Hr) as (A & B & C & E). rewrite pow2_p2 in B, E.
  split; split; try assumption; rewrite qz_1, Qcmult_1_l; assumption.
Qed.
Theorem huang_doubles j a b S d : room a b -> double_table a b d -> huang_auction_o (doubles j) (np_sum_o (doubles j)) S d = huang_auction_r binary64 (np_adder binary64) S d.
Proof. intros (A & B & C) H. apply (huang_in j a b A B C), table_of, H. Qed.
Theorem muda_doubles j a b S d fl : room a b -> double_table a b d -> labels_unique d -> muda_o (doubles j) (np_sum_o (doubles j)) S d fl = muda_r binary64 (np_adder binary64) S d fl.
Proof. intros (A & B & C) H U. apply (muda_in j a b A B C); [apply table_of, H | exact U]. Qed.
Theorem uniform_doubles j a b S d : room a b -> double_table a b d -> uniform_run_o (doubles j) (np_sum_o (doubles j)) S d = uniform_run_r binary64 (np_adder binary64) S d.
Proof. intros (A & B & C) H. apply (uniform_in j a b A B C), table_of, H. Qed.

(** ** The operations do not depend on how a value is written *)
Lemma of_same j v x y : float_of v x -> float_of v y -> of_double j x = of_double j y.
Proof. intros X Y. destruct (float_unique v x y X Y) as [->|(s & s' & -> & ->)]; reflexivity. Qed.
Lemma back x : proper x -> proper (to_double (fval x)) /\ fval (to_double (fval x)) = fval x.
Proof. intro H. apply to_double_ok. apply (proj2 (rounds_machine _ _ binary64_rounds _)), proper_number, H. Qed.
Theorem ops_values j x y : proper x -> proper y ->
  of_double j (SFadd 53 1024 x y) = o_add (doubles j) (fval x) (fval y) /\ of_double j (SFsub 53 1024 x y) = o_sub (doubles j) (fval x) (fval y) /\
  of_double j (SFmul 53 1024 x y) = o_mul (doubles j) (fval x) (fval y) /\ (fval y <> 0 -> of_double j (SFdiv 53 1024 x y) = o_div (doubles j) (fval x) (fval y)).
Proof.
  intros X Y. destruct (back x X) as [X1 X2]. destruct (back y Y) as [Y1 Y2]. set (x' := to_double (fval x)) in *. set (y' := to_double (fval y)) in *.
  split; [|split; [|split]].
  - apply (of_same j (fval x + fval y)); [apply add_ok; assumption|]. pose proof (add_ok x' y' X1 Y1) as K. rewrite X2, Y2 in K. exact K.
  - apply (of_same j (fval x - fval y)); [apply sub_ok; assumption|]. pose proof (sub_ok x' y' X1 Y1) as K. rewrite X2, Y2 in K. exact K.
  - apply (of_same j (fval x * fval y)); [apply mul_ok; assumption|]. pose proof (mul_ok x' y' X1 Y1) as K. rewrite X2, Y2 in K. exact K.
  - intro N. apply (of_same j (fval x / fval y)); [apply div_ok; assumption|]. assert (N' : fval y' <> 0) by (rewrite Y2; exact N). pose proof (div_ok x' y' X1 Y1 N') as K. rewrite X2, Y2 in K. exact K.
Qed.

(** ** Whole numbers *)
Lemma qz_opp z : qz (- z) = - qz z.
Proof. apply Qc_is_canon. rewrite this_opp, !this_qz. reflexivity. Qed.
Lemma whole_double (T P : Z) d : whole_table T P d -> (0 <= P)%Z -> (T <= 2 ^ 52)%Z -> (P <= 2 ^ 51)%Z -> (Z.of_nat (length d) <= 2 ^ 40)%Z -> double_table 52 51 d.
Proof.
  intros [F Q] P0 HT HP L. split; [|exact L]. intros r Hr. destruct (F r Hr) as ((m & M0 & Em) & (n & N0 & En)).
  assert (M1 : qty r <= qz T).
  { apply Qcle_trans with (qsumf qty d); [|exact Q]. apply (qsumf_in_le qty d r); [|exact Hr]. intros x Hx. destruct (F x Hx) as ((m' & M' & ->) & _). rewrite <- qz_0. apply (proj1 (qz_le _ _)), M'. }
  assert (M2 : (m <= T)%Z) by (rewrite Em in M1; apply (proj2 (qz_le _ _)) in M1; exact M1).
  assert (W : forall z, (0 <= z <= 2 ^ 53)%Z -> binary64 (qz z) = qz z).
  { intros z Hz. pose proof (grid_machine 0 z ltac:(unfold okE; lia) Hz) as G. rewrite p2_0, Qcmult_1_r in G. exact G. }
  rewrite Em, En, !pow2_p2, !p2_nonneg_int by lia. assert (Qm : 0 <= qz m) by (rewrite <- qz_0; apply (proj1 (qz_le _ _)), M0).
  split; [apply W; lia|]. split; [rewrite qabs_pos by exact Qm; apply (proj1 (qz_le _ _)); lia|].
  assert (An : qabs (qz n) = qz (Z.abs n)).
  { unfold qabs. destruct (qle_spec 0 (qz n)) as [K|K]; rewrite <- qz_0 in K.
    - apply (proj2 (qz_le _ _)) in K. rewrite Z.abs_eq by exact K. reflexivity.
    - apply (proj2 (qz_lt _ _)) in K. rewrite Z.abs_neq by lia. symmetry. apply qz_opp. }
  split; [|rewrite An; apply (proj1 (qz_le _ _)); lia].
  destruct (Z.le_ge_cases 0 n) as [K|K]; [apply W; lia|]. unfold machine. replace n with (- - n)%Z by lia. rewrite qz_opp, (rnd_opp binary64), W by lia. reflexivity.
Qed.
Theorem whole_doubles j S d (T P : Z) : labels_unique d -> whole_table T P d -> (0 <= P)%Z -> (T <= 2 ^ 52)%Z -> (P <= 2 ^ 51)%Z -> (P * T <= 2 ^ 51)%Z -> (Z.of_nat (length d) <= 2 ^ 40)%Z ->
  (forall fl, muda_o (doubles j) (np_sum_o (doubles j)) S d fl = muda S d fl) /\
  uniform_run_o (doubles j) (np_sum_o (doubles j)) S d = uniform_run S d /\
  same_result (p2 (-53)) d (huang_auction_o (doubles j) (np_sum_o (doubles j)) S d) (huang_auction S d).
Proof.
  intros U W P0 HT HP HPT L. pose proof (whole_double T P d W P0 HT HP L) as D. assert (R : room 52 51) by (unfold room; lia).
  destruct (whole_bounded (np_adder binary64) S d T P U W P0 HT HP HPT) as (M & _ & N & H). split; [|split].
  - intro fl. rewrite (muda_doubles j 52 51 S d fl R D U). apply M.
  - rewrite (uniform_doubles j 52 51 S d R D). exact N.
  - rewrite (huang_doubles j 52 51 S d R D). apply H. lia.
Qed.

(** ** Statistics *)
Lemma dval_in e x : machine binary64 x -> qabs x <= pow2 e -> inb e 1 x.
Proof. intros M L. rewrite pow2_p2 in L. split; [exact M | rewrite qz_1, Qcmult_1_l; exact L]. Qed.
Section Statistics.
  Variables (j : Qc) (a b : Z) (d : df) (ts : list trans).
  Hypothesis (Hr : room a b) (Hu : labels_unique d) (Hd : double_table a b d) (Ht : double_trades a b ts).
  Lemma prices_of r : In r d -> inb b 1 (price r).
  Proof. intro H. destruct Hd as [F _]. destruct (F r H) as (_ & _ & P & Q). apply dval_in; assumption. Qed.
  Lemma trades_of t : In t ts -> inb a 1 (t_qty t) /\ inb b 1 (t_price t).
  Proof. intro H. destruct Ht as [F _]. destruct (F t H) as (A & B & P & Q). split; apply dval_in; assumption. Qed.
  Theorem profits_doubles rp fees : match rp with Some m => double_list b (map snd m) | None => True end -> match fees with Some f => double_list (a + b) f | None => True end ->
    calculate_profits_o (doubles j) (np_sum_o (doubles j)) (seq_sum_o (doubles j)) d ts rp fees = calculate_profits_r binary64 (np_adder binary64) (seq_adder binary64) d ts rp fees.
  Proof.
    intros R F. destruct Hr as (A & B & C). apply (profits_in j a b A B C d ts Hu prices_of trades_of (proj2 Ht)).
    - destruct rp as [m|]; [|exact I]. destruct R as [R _]. apply Forall_forall. intros x Hx. destruct (R x Hx). apply dval_in; assumption.
    - destruct fees as [f|]; [|apply Hd]. destruct F as [F L]. split; [|exact L]. apply Forall_forall. intros x Hx. destruct (F x Hx). replace (b + a)%Z with (a + b)%Z by lia. apply dval_in; assumption.
  Qed.
  Theorem percentages_doubles o : machine binary64 o -> pow2 (-100) <= o ->
    percentage_traded_o (doubles j) (np_sum_o (doubles j)) o ts = percentage_traded_r binary64 (np_adder binary64) o ts /\
    percentage_welfare_o (doubles j) (np_sum_o (doubles j)) o d ts = percentage_welfare_r binary64 (np_adder binary64) o d ts.
  Proof.
    intros M L. rewrite pow2_p2 in L. destruct Hr as (A & B & C). split; [eapply (traded_in j a b); try eassumption; [exact trades_of | apply Ht] | eapply (welfare_in j a b); try eassumption; [exact prices_of | exact trades_of | apply Ht]].
  Qed.
End Statistics.
