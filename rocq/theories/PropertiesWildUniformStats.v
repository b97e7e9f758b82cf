(** C107: profits after the uniform price mechanism with infinite and NaN prices. *)
From Verif Require Import QcTac Num ModelBase ModelCurves ModelHuang ModelMarket ModelUniform ModelAny ModelWild ModelWildStats ModelWildUniform
  Spec SpecWild SpecWildMuda SpecWildStats SpecWildUniform Sorter WildSort WildUniformStats.

(** Nobody has a loss, and the profit of no player is NaN, also at an infinite price. *)
Theorem C107_players : forall S d, w_qty_nonneg d -> asks_not_negative d -> NoDup (map w_lbl d) -> forall ts q p, w_uniform_run S d = Ok (ts, Some (q, p)) ->
  Forall (at_least 0) (w_players d ts w_price).
Proof. exact uniform_players. Qed.
Print Assumptions C107_players.

(** At a finite price the market maker keeps the fees only. *)
Theorem C107_market : forall S d, w_qty_nonneg d -> asks_not_negative d -> NoDup (map w_lbl d) -> forall ts q p, w_uniform_run S d = Ok (ts, Some (q, p)) ->
  forall r fees, p = Fin r -> w_market d ts fees = nadd (Fin 0) (nsum fees).
Proof. exact uniform_maker. Qed.
Print Assumptions C107_market.

(** At an infinite price its profit is NaN, whatever the fees are. *)
Theorem C107_market_nan : forall S d, w_qty_nonneg d -> asks_not_negative d -> forall ts q p, w_uniform_run S d = Ok (ts, Some (q, p)) ->
  forall fees, p = PInf -> w_market d ts fees = NaN.
Proof. exact uniform_maker_infinite. Qed.
Print Assumptions C107_market_nan.

(** ** Examples *)
Definition bid (i : nat) (q : Qc) (p : num) (b : bool) : wrow := mkWRow i q p (Z.of_nat i) b 0 true.
Definition plain (v : num) : option (option Q) := match v with Fin q => Some (Some (this q)) | PInf | NInf => Some None | NaN => None end.
(** price; profits of the players; profit of the market maker without fees *)
Definition show (d : wdf) : option (option (option Q) * list (option (option Q)) * option (option Q)) :=
  match w_uniform_run w_stable d with
  | Ok (ts, Some (_, p)) => Some (plain p, map plain (w_players d ts w_price), plain (w_market d ts []))
  | _ => None
  end.
(** four units on offer, two wanted at any price: the price is 3 *)
Example C107_finite_ex : show [bid 0 (qz 2) PInf true; bid 1 (qz 1) (Fin (qz 4)) true; bid 2 (qz 2) (Fin 1) false; bid 3 (qz 2) (Fin (qz 3)) false] =
  Some (Some (Some 3%Q), [Some None; Some (Some 1%Q); Some (Some 4%Q); Some (Some 0%Q)], Some (Some 0%Q)).
Proof. vm_compute. reflexivity. Qed.
(** two units on offer, two wanted at any price: an infinite price; the buyer pays what it bids, and [inf - inf] is left out, which counts as 0 *)
Definition ex_pair : wdf := [bid 0 (qz 2) PInf true; bid 1 (qz 2) (Fin (qz 3)) false].
Example C107_infinite_ex : show ex_pair = Some (Some None, [Some (Some 0%Q); Some None], None).
Proof. vm_compute. reflexivity. Qed.
(** so that the profit of the market maker is a number is not true in general *)
Theorem C107_market_refuted : exists S d ts q p, w_qty_pos d /\ asks_not_negative d /\ NoDup (map w_lbl d) /\ no_nan d /\
  w_uniform_run S d = Ok (ts, Some (q, p)) /\ w_market d ts [] = NaN.
Proof.
  destruct (w_uniform_run w_stable ex_pair) as [[ts [[q p]|]]|e] eqn:E; try (vm_compute in E; discriminate).
  exists w_stable, ex_pair, ts, q, p. split; [|split; [|split; [|split; [|split; [exact E|]]]]].
  - intros x [<-|[<-|[]]]; apply qltb_lt; reflexivity.
  - intros x [<-|[<-|[]]]; intros; try discriminate; reflexivity.
  - repeat constructor; cbn; intuition discriminate.
  - intros x [<-|[<-|[]]]; discriminate.
  - vm_compute in E. injection E as <- <- <-. vm_compute. reflexivity.
Qed.
Print Assumptions C107_market_refuted.
