(** C109: maximum_traded_volume and percentage_traded with infinite and NaN prices. *)
From Verif Require Import QcTac Num ModelBase ModelHuang ModelP2P ModelStats ModelAny ModelWild ModelWildP2P ModelWildVolume Spec SpecAlloc SpecWild SpecWildMarket SpecWildP2P SpecWildVolume Solver WildVolume.

(** The linear program is that of a table with rational prices. *)
Theorem C109_program : forall P d, w_positions d -> beyond P d -> w_volume_lp d = volume_lp (map (cap_nan P) d).
Proof. exact volume_cap. Qed.
Print Assumptions C109_program.
(** So the ratio is half of the total quantity over the largest volume that bids with prices could trade; there is one, it can be 0, and then the result is None. *)
Theorem C109_meaning : forall sv d ts, w_positions d -> w_qty_nonneg d -> solver_ok sv ->
  exists a vmax, w_alloc d a /\ w_volume d a = vmax /\ (forall a', w_alloc d a' -> w_volume d a' <= vmax) /\
    w_percentage sv d ts = Ok (if qltb 0 vmax then Some (qsumf x_qty ts / qz 2 / vmax) else None).
Proof. exact volume_meaning. Qed.
Print Assumptions C109_meaning.
(** Peer to peer trading reaches at least one half of it, also with infinite prices. *)
Theorem C109_p2p_half : forall sv c d r T g x, w_positions d -> w_qty_nonneg d -> no_nan d -> solver_ok sv -> w_p2p c d r = Ok (T, g) ->
  w_percentage sv d T = Ok (Some x) -> 1 / qz 2 <= x.
Proof. exact half_traded. Qed.
Print Assumptions C109_p2p_half.

(** ** Examples *)
Definition bid (i : nat) (q : Qc) (p : num) (b : bool) : wrow := mkWRow i q p (Z.of_nat i) b 0 true.
Definition first (_ : nat) : nat := 0%nat.
Definition show_ratio (r : res (option Qc)) : option (option Q) := match r with Ok o => Some (option_map this o) | Err _ => None end.
(** one of two possible units is traded, at an infinite price; the bid at NaN has no part *)
Definition ex_inf : wdf := [bid 0 1 PInf true; bid 1 1 (Fin (qz 2)) true; bid 2 1 (Fin 1) false; bid 3 1 (Fin (qz 3)) false; bid 4 1 NaN false].
Example C109_ex : match w_p2p (qf 1 2) ex_inf first with Ok (T, _) => show_ratio (w_percentage fm_solver ex_inf T) | Err _ => None end = Some (Some (1 # 2)%Q).
Proof. vm_compute. reflexivity. Qed.
(** only NaN on one side: nothing can be traded *)
Example C109_none_ex : show_ratio (w_percentage fm_solver [bid 0 1 PInf true; bid 1 1 NaN false] []) = Some None.
Proof. vm_compute. reflexivity. Qed.
(** a seller at inf trades with a buyer at inf *)
Example C109_both_ex : show_ratio (w_percentage fm_solver [bid 0 1 PInf true; bid 1 1 PInf false] [mkATrans 0 1 PInf (-1) false; mkATrans 1 1 PInf (-1) false]) = Some (Some 1%Q).
Proof. vm_compute. reflexivity. Qed.
