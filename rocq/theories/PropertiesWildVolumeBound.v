(** C110: with infinite and NaN prices, percentage_traded stays between 0 and 1. *)
From Verif Require Import QcTac Num ModelBase ModelHuang ModelP2P ModelStats ModelAny ModelWild ModelWildMuda ModelWildP2P ModelWildUniform ModelWildVolume
  Spec SpecWild SpecWildMarket SpecWildUniform SpecWildVolumeBound Solver WildSort WildVolumeBound.

(** Peer to peer trading and MUDA, for any prices. *)
Theorem C110_p2p : forall sv c d r T g, w_positions d -> w_qty_nonneg d -> solver_ok sv -> w_p2p c d r = Ok (T, g) -> within d sv T.
Proof. exact p2p_within. Qed.
Print Assumptions C110_p2p.
Theorem C110_muda : forall sv S d fl ts e, w_positions d -> w_qty_nonneg d -> solver_ok sv -> w_muda S d fl = Ok (ts, e) -> within d sv ts.
Proof. exact muda_within. Qed.
Print Assumptions C110_muda.
(** The Huang auction and the uniform price mechanism, if nobody asks for less than 0. *)
Theorem C110_huang : forall sv S d ts e, w_positions d -> w_qty_nonneg d -> asks_not_negative d -> solver_ok sv -> w_huang S d = Ok (ts, e) -> within d sv ts.
Proof. exact huang_within. Qed.
Print Assumptions C110_huang.
Theorem C110_uniform : forall sv S d ts q p, w_positions d -> w_qty_nonneg d -> asks_not_negative d -> solver_ok sv -> w_uniform_run S d = Ok (ts, Some (q, p)) -> within d sv ts.
Proof. exact uniform_within. Qed.
Print Assumptions C110_uniform.

(** ** Examples *)
Definition bid (i : nat) (q : Qc) (p : num) (b : bool) : wrow := mkWRow i q p (Z.of_nat i) b 0 true.
Definition show_ratio (r : res (option Qc)) : option (option Q) := match r with Ok o => Some (option_map this o) | Err _ => None end.
(** Otherwise a NaN bid can trade, which could not have traded with anybody: the ratio is 2. *)
Definition nan_negative : wdf := [bid 0 1 (Fin (qz 5)) true; bid 1 1 NaN true; bid 2 1 (Fin (- qz 2)) false; bid 3 1 (Fin (- qz 1)) false; bid 4 1 (Fin (- qz 1)) false].
Example C110_negative_ex : match w_huang w_stable nan_negative with Ok (T, _) => show_ratio (w_percentage fm_solver nan_negative T) | Err _ => None end = Some (Some 2%Q).
Proof. vm_compute. reflexivity. Qed.
Theorem C110_negative_refuted : ~ (forall sv S d ts e, w_positions d -> w_qty_nonneg d -> solver_ok sv -> w_huang S d = Ok (ts, e) -> within d sv ts).
Proof.
  intro H. destruct (w_huang w_stable nan_negative) as [[ts e]|] eqn:E; [|vm_compute in E; discriminate].
  assert (Q : w_qty_nonneg nan_negative) by (intros x [<-|[<-|[<-|[<-|[<-|[]]]]]]; discriminate).
  pose proof (H fm_solver w_stable nan_negative ts e eq_refl Q fm_solver_ok E (qz 2)) as K. clear H.
  assert (P : w_percentage fm_solver nan_negative ts = Ok (Some (qz 2))).
  { pose proof C110_negative_ex as R. rewrite E in R. destruct (w_percentage fm_solver nan_negative ts) as [[x|]|]; cbn [show_ratio option_map] in R; try discriminate R. injection R as R. do 2 f_equal. apply Qc_is_canon. rewrite R. reflexivity. }
  destruct (K P) as [_ L]. apply L. reflexivity.
Qed.
Print Assumptions C110_negative_refuted.
(** one of two possible units is traded *)
Definition ex_inf : wdf := [bid 0 1 PInf true; bid 1 1 (Fin (qz 4)) true; bid 2 1 (Fin 1) false; bid 3 (qz 2) (Fin (qz 3)) false; bid 4 1 NaN false].
Example C110_ex : match w_huang w_stable ex_inf with Ok (T, _) => show_ratio (w_percentage fm_solver ex_inf T) | Err _ => None end = Some (Some (1 # 2)%Q).
Proof. vm_compute. reflexivity. Qed.
(** The uniform price mechanism: the ratio can be larger than 1 even without NaN, with a buyer below the (negative) asks. *)
Definition negative : wdf := [bid 0 1 (Fin (qz 5)) true; bid 1 1 (Fin (- qz 3)) true; bid 2 1 (Fin (- qz 2)) false; bid 3 (qz 2) (Fin (- qz 1)) false; bid 4 1 (Fin (- qz 1)) false].
Example C110_uniform_ex : match w_uniform_run w_stable negative with Ok (T, Some _) => show_ratio (w_percentage fm_solver negative T) | _ => None end = Some (Some (3 # 2)%Q).
Proof. vm_compute. reflexivity. Qed.
Theorem C110_uniform_refuted : ~ (forall sv S d ts q p, w_positions d -> w_qty_nonneg d -> no_nan d -> solver_ok sv -> w_uniform_run S d = Ok (ts, Some (q, p)) -> within d sv ts).
Proof.
  intro H. destruct (w_uniform_run w_stable negative) as [[ts [[q p]|]]|] eqn:E; [|vm_compute in E; discriminate..].
  assert (Q : w_qty_nonneg negative) by (intros x [<-|[<-|[<-|[<-|[<-|[]]]]]]; discriminate).
  assert (F : no_nan negative) by (intros x [<-|[<-|[<-|[<-|[<-|[]]]]]]; discriminate).
  pose proof (H fm_solver w_stable negative ts q p eq_refl Q F fm_solver_ok E (qf 3 2)) as K. clear H.
  assert (P : w_percentage fm_solver negative ts = Ok (Some (qf 3 2))).
  { pose proof C110_uniform_ex as R. rewrite E in R. destruct (w_percentage fm_solver negative ts) as [[x|]|]; cbn [show_ratio option_map] in R; try discriminate R. injection R as R. do 2 f_equal. apply Qc_is_canon. rewrite R. reflexivity. }
  destruct (K P) as [_ L]. apply L. reflexivity.
Qed.
Print Assumptions C110_uniform_refuted.
