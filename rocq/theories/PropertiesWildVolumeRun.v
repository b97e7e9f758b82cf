(** C111: Market.run('huang') with infinite and NaN prices: who trades with whom, and how much. *)
From Verif Require Import QcTac Num ModelBase ModelHuang ModelStats ModelAny ModelWild ModelWildMarket ModelWildVolume
  Spec SpecWild SpecWildMarket SpecWildUniform SpecWildVolumeBound Solver WildSort WildVolumeRun.

(** Prices are rounded to five digits before the auction; still, every buyer that trades accepts the price of every seller that trades, without rounding. *)
Theorem C111_accept : forall S smp cnt d, w_positions d -> w_qty_pos d -> priced true d -> priced false d -> asks_not_negative d -> forall ts e,
  w_run_huang S smp cnt d = Ok (ts, e) -> forall x y, In x d -> In y d -> w_buying x = true -> w_buying y = false ->
  In (w_lbl x) (map x_bid ts) -> In (w_lbl y) (map x_bid ts) -> nleb (w_price y) (w_price x) = true.
Proof. exact traders_accept. Qed.
Print Assumptions C111_accept.
(** So the ratio of the traded volume stays between 0 and 1. *)
Theorem C111_within : forall S smp cnt d, w_positions d -> w_qty_pos d -> priced true d -> priced false d -> asks_not_negative d -> forall ts e,
  w_run_huang S smp cnt d = Ok (ts, e) -> forall sv, solver_ok sv -> within d sv ts.
Proof. exact run_within. Qed.
Print Assumptions C111_within.

(** ** Examples *)
Definition bid (i : nat) (q : Qc) (p : num) (b : bool) : wrow := mkWRow i q p (Z.of_nat i) b 0 true.
Definition show_ratio (r : res (option Qc)) : option (option Q) := match r with Ok o => Some (option_map this o) | Err _ => None end.
Definition run_ratio (d : wdf) : option (option Q) :=
  match w_run_huang w_stable (fun _ => 0%nat) 9 d with Ok (T, _) => show_ratio (w_percentage fm_solver d T) | Err _ => None end.
(** the buyers at inf are merged, as are the two buyers that differ in the sixth digit *)
Definition ex_merge : wdf := [bid 0 1 PInf true; bid 1 1 PInf true; bid 2 1 (Fin (qf 4000001 1000000)) true; bid 3 1 (Fin (qz 4)) true;
  bid 4 (qz 2) (Fin 1) false; bid 5 (qz 3) (Fin (qz 3)) false; bid 6 1 NaN false].
Example C111_ex : run_ratio ex_merge = Some (Some (1 # 2)%Q).
Proof. vm_compute. reflexivity. Qed.
(** With sellers below 0 the ratio can be 2, without NaN too: the demand curve ends at price 0, and a buyer at -3 trades with sellers at -2 and -1. *)
Definition negative : wdf := [bid 0 1 (Fin (qz 5)) true; bid 1 1 (Fin (- qz 3)) true; bid 2 1 (Fin (- qz 2)) false; bid 3 1 (Fin (- qz 1)) false; bid 4 1 (Fin (- qf 1 2)) false].
Example C111_negative_ex : run_ratio negative = Some (Some 2%Q).
Proof. vm_compute. reflexivity. Qed.
Theorem C111_negative_refuted : ~ (forall S smp cnt d, w_positions d -> w_qty_pos d -> priced true d -> priced false d -> no_nan d -> forall ts e,
  w_run_huang S smp cnt d = Ok (ts, e) -> forall sv, solver_ok sv -> within d sv ts).
Proof.
  intro H. destruct (w_run_huang w_stable (fun _ => 0%nat) 9 negative) as [[ts e]|] eqn:E; [|vm_compute in E; discriminate].
  assert (Q : w_qty_pos negative) by (intros x [<-|[<-|[<-|[<-|[<-|[]]]]]]; reflexivity).
  assert (F : no_nan negative) by (intros x [<-|[<-|[<-|[<-|[<-|[]]]]]]; discriminate).
  assert (B : priced true negative) by (exists (bid 0 1 (Fin (qz 5)) true); repeat split; [left; reflexivity | discriminate]).
  assert (L : priced false negative) by (exists (bid 2 1 (Fin (- qz 2)) false); repeat split; [right; right; left; reflexivity | discriminate]).
  pose proof (H w_stable (fun _ => 0%nat) 9%Z negative eq_refl Q B L F ts e E fm_solver fm_solver_ok (qz 2)) as K. clear H.
  assert (P : w_percentage fm_solver negative ts = Ok (Some (qz 2))).
  { pose proof C111_negative_ex as R. unfold run_ratio in R. rewrite E in R. destruct (w_percentage fm_solver negative ts) as [[x|]|]; cbn [show_ratio option_map] in R; try discriminate R. injection R as R. do 2 f_equal. apply Qc_is_canon. rewrite R. reflexivity. }
  destruct (K P) as [_ C]. apply C. reflexivity.
Qed.
Print Assumptions C111_negative_refuted.
