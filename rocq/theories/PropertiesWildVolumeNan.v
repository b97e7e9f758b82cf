(** C112: peer to peer trading reaches one half of the volume that can be traded, also when some prices are NaN. *)
From Verif Require Import QcTac Num ModelBase ModelHuang ModelP2P ModelMarket ModelStats ModelAny ModelWild ModelWildP2P ModelWildVolume Spec SpecAlloc SpecWild SpecWildMarket SpecWildP2P SpecWildVolume Solver WildVolume WildVolumeNan.

(** The run is that of a table with rational prices in which NaN bids to buy are below all asks and NaN asks are above all bids: same bids, quantities, sources, flags and trading list; only the prices of transactions differ. *)
Theorem C112_capped : forall c c' d P r, w_positions d -> beyond P d ->
  match w_p2p c d r, p2p_random (map (cap_nan P) d) c' r with
  | Ok (T, g), Ok (tm, XP2P g') => Forall2 same_but_price T (tm_trans tm) /\ g = g'
  | Err e, Err e' => e = e'
  | _, _ => False
  end.
Proof. exact p2p_capped. Qed.
Print Assumptions C112_capped.
(** At least one half of the maximum is traded. *)
Theorem C112_half : forall sv c d r T g x, w_positions d -> w_qty_nonneg d -> solver_ok sv -> w_p2p c d r = Ok (T, g) ->
  w_percentage sv d T = Ok (Some x) -> 1 / qz 2 <= x.
Proof. exact half_any. Qed.
Print Assumptions C112_half.

(** ** Examples *)
Definition bid (i : nat) (q : Qc) (p : num) (b : bool) : wrow := mkWRow i q p (Z.of_nat i) b 0 true.
Definition first (_ : nat) : nat := 0%nat.
Definition ex_nan : wdf := [bid 0 1 PInf true; bid 1 1 (Fin (qz 2)) true; bid 2 1 NaN true; bid 3 1 (Fin 1) false; bid 4 1 (Fin (qz 3)) false; bid 5 1 NaN false].
Definition ratio : option Qc :=
  match w_p2p (qf 1 2) ex_nan first with Ok (T, _) => match w_percentage fm_solver ex_nan T with Ok o => o | Err _ => None end | Err _ => None end.
(** the bids at NaN meet others and each other, but one of two units is traded *)
Example C112_ex : option_map this ratio = Some (1 # 2)%Q.
Proof. vm_compute. reflexivity. Qed.
Example C112_capped_ex : match w_p2p (qf 1 2) ex_nan first, p2p_random (map (cap_nan (qz 4)) ex_nan) (qf 1 2) first with
  | Ok (T, g), Ok (tm, XP2P g') => map (fun t => (x_bid t, this (x_qty t))) T = map (fun t => (t_bid t, this (t_qty t))) (tm_trans tm) /\ g = g' /\ length T <> 0%nat | _, _ => False end.
Proof. vm_compute. repeat split; discriminate. Qed.
Lemma ratio_some : exists x, ratio = Some x /\ this x = (1 # 2)%Q.
Proof. pose proof C112_ex as E. destruct ratio as [x|]; [|discriminate E]. exists x. split; [reflexivity|]. cbn [option_map] in E. congruence. Qed.
(** No bound above one half holds. *)
Theorem C112_more_refuted : ~ (forall sv c d r T g x, w_positions d -> w_qty_nonneg d -> solver_ok sv -> w_p2p c d r = Ok (T, g) ->
  w_percentage sv d T = Ok (Some x) -> 1 / qz 2 < x).
Proof.
  intro H. destruct ratio_some as (x & E & Ex). unfold ratio in E.
  destruct (w_p2p (qf 1 2) ex_nan first) as [[T g]|] eqn:E1; [|discriminate E].
  destruct (w_percentage fm_solver ex_nan T) as [o|] eqn:E2; [|discriminate E]. subst o.
  assert (W : w_positions ex_nan) by (unfold w_positions; vm_compute; reflexivity).
  assert (N : w_qty_nonneg ex_nan) by (intros z Hz; cbn [ex_nan In] in Hz; repeat (destruct Hz as [<- | Hz]; [vm_compute; discriminate|]); contradiction).
  pose proof (H fm_solver (qf 1 2) ex_nan first T g x W N fm_solver_ok E1 E2) as K.
  clear - K Ex. unfold Qclt in K. rewrite Ex in K. vm_compute in K. discriminate K.
Qed.
Print Assumptions C112_more_refuted.
