(** C108: infinite and NaN prices in peer to peer trading, and the profits after it. *)
From Verif Require Import QcTac Num ModelBase ModelHuang ModelP2P ModelMuda ModelAny ModelWild ModelWildMuda ModelWildStats ModelWildP2P Spec SpecWild SpecWildMuda SpecWildMarket SpecWildStats SpecWildP2P WildP2P.

(** Rational prices: the mechanism of the main model. *)
Theorem C108_finite : forall c (d : df) r,
  match p2p_random d c r with
  | Ok (tm, XP2P g) => w_p2p c (map wrow_of d) r = Ok (map same_trans (tm_trans tm), g)
  | Ok _ => False
  | Err e => w_p2p c (map wrow_of d) r = Err e
  end.
Proof. exact p2p_finite. Qed.
Print Assumptions C108_finite.

(** Any prices: a run returns; its transactions are those of the meetings, two for each; nobody gets more than the bid. *)
Theorem C108_meetings : forall c d, w_positions d -> w_qty_nonneg d -> forall r, exists T g, w_p2p c d r = Ok (T, g) /\ meetings c d (concat g) T /\
  (forall x, In x d -> 0 <= w_gets T (w_lbl x) /\ w_gets T (w_lbl x) <= w_qty x).
Proof. exact p2p_meetings. Qed.
Print Assumptions C108_meetings.
(** A bid at NaN gets nothing. *)
Theorem C108_nan : forall c d r T g x t, w_positions d -> w_qty_nonneg d -> w_p2p c d r = Ok (T, g) -> In x d -> w_price x = NaN -> In t T -> x_bid t = w_lbl x ->
  x_qty t = 0 /\ x_price t = Fin 0 /\ x_active t = true.
Proof. exact p2p_nan. Qed.
Print Assumptions C108_nan.
(** Infinite prices: who meets and how much is traded is as with any [P] above all finite prices, and any other coefficient. *)
Theorem C108_large_prices : forall c c' d P r, no_nan d -> beyond P d ->
  match w_p2p c d r, p2p_random (map (cap_row P) d) c' r with
  | Ok (T, g), Ok (tm, XP2P g') => Forall2 same_but_price T (tm_trans tm) /\ g = g'
  | Err e, Err e' => e = e'
  | _, _ => False
  end.
Proof. exact p2p_large. Qed.
Print Assumptions C108_large_prices.
(** The price of a deal: when exactly it is NaN; otherwise it lies between the two bids. *)
Theorem C108_price : forall c pb ps, 0 <= c -> c <= 1 -> nleb ps pb = true ->
  (w_mix c pb ps = NaN <-> (pb = PInf /\ ps = NInf) \/ (c = 0 /\ infinite pb) \/ (c = 1 /\ infinite ps)) /\
  (w_mix c pb ps <> NaN -> nleb ps (w_mix c pb ps) = true /\ nleb (w_mix c pb ps) pb = true).
Proof. exact mix_cases. Qed.
Print Assumptions C108_price.

(** Profits: nobody has a loss and no profit of a player is NaN, whatever the prices are. *)
Theorem C108_players : forall c d r T g, 0 <= c -> c <= 1 -> w_positions d -> w_qty_nonneg d -> w_p2p c d r = Ok (T, g) -> Forall (at_least 0) (w_players d T w_price).
Proof. exact p2p_players. Qed.
Print Assumptions C108_players.
(** The market maker has the fees if the money of every transaction is a number, and NaN otherwise. *)
Theorem C108_market : forall c d r T g fees, w_positions d -> w_qty_nonneg d -> w_p2p c d r = Ok (T, g) ->
  w_market d T fees = nadd (if forallb paid_number T then Fin 0 else NaN) (nsum fees).
Proof. exact p2p_market. Qed.
Print Assumptions C108_market.

(** ** Examples *)
Definition bid (i : nat) (q : Qc) (p : num) (b : bool) : wrow := mkWRow i q p (Z.of_nat i) b 0 true.
Definition first (_ : nat) : nat := 0%nat.
Definition plain (v : num) : option (option Q) := match v with Fin q => Some (Some (this q)) | PInf | NInf => Some None | NaN => None end.
(** bid, quantity and price of the transactions; profits of the players; profit of the market maker without fees *)
Definition show (c : Qc) (d : wdf) :=
  match w_p2p c d first with
  | Ok (T, _) => Some (map (fun t => (x_bid t, this (x_qty t), plain (x_price t))) T, map plain (w_players d T w_price), plain (w_market d T []))
  | Err _ => None
  end.
Definition num_ (q : Q) : option (option Q) := Some (Some q).
Definition inf_ : option (option Q) := Some None.

(** buyer 0 at any price gets one unit of two, at an infinite price: in the same round buyer 1 gets the other one at 5/2.  Buyer 0 pays what it bids, and
    [inf - inf] is left out, which counts as 0 *)
Definition ex_inf : wdf := [bid 0 (qz 2) PInf true; bid 1 1 (Fin (qz 3)) true; bid 2 1 (Fin 1) false; bid 3 1 (Fin (qz 2)) false].
Example C108_inf_ex : show (qf 1 2) ex_inf =
  Some ([(0%nat, 1%Q, inf_); (2%nat, 1%Q, inf_); (1%nat, 1%Q, num_ (5 # 2)); (3%nat, 1%Q, num_ (5 # 2))], [num_ 0; num_ (1 # 2); inf_; num_ (1 # 2)], None).
Proof. vm_compute. reflexivity. Qed.
Example C108_hyp_ex : w_positions ex_inf /\ no_nan ex_inf /\ beyond (qz 100) ex_inf.
Proof.
  split; [reflexivity|]. split; [intros x [<-|[<-|[<-|[<-|[]]]]]; discriminate|]. split; [reflexivity|].
  intros x q [<-|[<-|[<-|[<-|[]]]]] H; try discriminate; injection H as <-; split; reflexivity.
Qed.
(** with the coefficient 0 the sellers set the price, and [inf * 0] makes it NaN *)
Example C108_zero_ex : show 0 ex_inf =
  Some ([(0%nat, 1%Q, None); (2%nat, 1%Q, None); (1%nat, 1%Q, num_ 2); (3%nat, 1%Q, num_ 2)], [num_ 0; num_ 1; num_ 0; num_ 0], None).
Proof. vm_compute. reflexivity. Qed.
(** a seller at inf and a bid at NaN meet the others but do not deal; the market maker has 0 *)
Example C108_pass_ex : show (qf 1 2) [bid 0 1 (Fin (qz 3)) true; bid 1 1 NaN true; bid 2 1 PInf false; bid 3 1 (Fin 1) false] =
  Some ([(0%nat, 0%Q, num_ 0); (2%nat, 0%Q, num_ 0); (1%nat, 0%Q, num_ 0); (3%nat, 0%Q, num_ 0); (0%nat, 1%Q, num_ 2); (3%nat, 1%Q, num_ 2); (1%nat, 0%Q, num_ 0); (2%nat, 0%Q, num_ 0)],
    [num_ 1; num_ 0; num_ 0; num_ 1], num_ 0).
Proof. vm_compute. reflexivity. Qed.
(** that the market maker gets a number if all quantities are positive and no price is NaN is not true *)
Theorem C108_market_refuted : exists c d r T g, 0 < c /\ c < 1 /\ w_positions d /\ w_qty_pos d /\ no_nan d /\ w_p2p c d r = Ok (T, g) /\ w_market d T [] = NaN.
Proof.
  destruct (w_p2p (qf 1 2) ex_inf first) as [[T g]|e] eqn:E; [|vm_compute in E; discriminate].
  exists (qf 1 2), ex_inf, first, T, g. split; [reflexivity|]. split; [reflexivity|]. split; [reflexivity|]. split; [|split; [|split; [exact E|]]].
  - intros x [<-|[<-|[<-|[<-|[]]]]]; reflexivity.
  - intros x [<-|[<-|[<-|[<-|[]]]]]; discriminate.
  - vm_compute in E. injection E as <- <-. vm_compute. reflexivity.
Qed.
Print Assumptions C108_market_refuted.
(** that a deal has a price that is a number, or infinite, is not true: with the coefficient 0 a bid at inf makes it NaN *)
Theorem C108_price_refuted : exists d r T g t, w_positions d /\ w_qty_pos d /\ no_nan d /\ w_p2p 0 d r = Ok (T, g) /\ In t T /\ 0 < x_qty t /\ x_price t = NaN.
Proof.
  destruct (w_p2p 0 ex_inf first) as [[T g]|e] eqn:E; [|vm_compute in E; discriminate]. exists ex_inf, first, T, g.
  assert (H : exists t, In t T /\ 0 < x_qty t /\ x_price t = NaN) by (vm_compute in E; injection E as <- <-; eexists; split; [left; reflexivity | split; reflexivity]).
  destruct H as (t & H). exists t. split; [reflexivity|]. split; [|split; [|split; [exact E | exact H]]].
  - intros x [<-|[<-|[<-|[<-|[]]]]]; reflexivity.
  - intros x [<-|[<-|[<-|[<-|[]]]]]; discriminate.
Qed.
Print Assumptions C108_price_refuted.
