(** C105: profits with infinite and NaN prices. *)
From Verif Require Import QcTac Num ModelBase ModelHuang ModelMuda ModelMerge ModelMarket ModelStats ModelAny ModelWild ModelWildMuda ModelWildMarket ModelWildStats
  Spec SpecWild SpecWildMuda SpecWildMarket SpecWildStats Sorter WildSort WildStats WildStatsMaker.

(** Rational prices, reservation prices and fees: the profits of the main model. *)
Theorem C105_finite : forall d ts rp fees, labels_unique d ->
  w_profits (map wrow_of d) (map same_trans ts) (map (fun p => (fst p, Fin (snd p))) rp) (option_map (map Fin) fees) = lift_profits (fst (calculate_profits d ts (Some rp) fees)).
Proof. exact profits_lift. Qed.
Print Assumptions C105_finite.

(** Players, for any values of the bids: infinite if a deal for a positive quantity is worth infinitely much; otherwise the sum over the deals
    whose worth is a number.  Deals that are worth NaN are left out. *)
Theorem C105_players : forall val d ts, (forall tr, In tr (w_join ts d) -> 0 <= x_qty (fst tr) /\ w_rent val tr <> NInf) ->
  w_players d ts val = map (fun u => if existsb (endless val) (w_deals d ts u) then PInf else Fin (qsumf (finite_gain val) (w_deals d ts u))) (w_users d).
Proof. exact players_exact. Qed.
Print Assumptions C105_players.

(** The market maker: NaN is not left out. *)
Theorem C105_market : forall d ts fees, (forall tr, In tr (w_join ts d) -> 0 <= x_qty (fst tr) /\ x_price (fst tr) <> NInf /\ x_price (fst tr) <> NaN) ->
  w_market d ts fees = nadd (nsub (w_turnover true d ts) (w_turnover false d ts)) (nsum fees).
Proof. exact market_exact. Qed.
Print Assumptions C105_market.

(** After MUDA nobody has a loss, and no profit is NaN. *)
Theorem C105_muda_players : forall S d fl ts e, w_qty_nonneg d -> NoDup (map w_lbl d) -> w_muda S d fl = Ok (ts, e) -> Forall (at_least 0) (w_players d ts w_price).
Proof. exact muda_players. Qed.
Print Assumptions C105_muda_players.

(** After [Market.run('huang')] a loss is at most half a unit of the fifth digit for each unit traded, and no profit is NaN. *)
Theorem C105_huang_players : forall S smp cnt d, w_positions d -> w_qty_pos d -> priced true d -> priced false d ->
  (forall x, In x d -> w_buying x = false -> nltb (w_price x) (Fin 0) = false) -> forall ts e, w_run_huang S smp cnt d = Ok (ts, e) ->
  Forall2 (fun u v => at_least (- (1 / qz 200000 * qsumf (fun tr => x_qty (fst tr)) (w_deals d ts u))) v) (w_users d) (w_players d ts w_price).
Proof. exact huang_players. Qed.
Print Assumptions C105_huang_players.

(** After [Market.run('huang')] the profit of the market maker is a nonnegative number, also with infinite prices. *)
Theorem C105_huang_market : forall S smp cnt d, w_positions d -> w_qty_pos d -> priced true d -> priced false d -> forall rp ts e,
  (forall x, In x d -> w_buying x = false -> nltb (w_price x) (Fin 0) = false) -> w_run_huang S smp cnt d = Ok (ts, e) ->
  forall p, w_profits d ts rp None = Ok p -> exists q, wp_market p = Fin q /\ 0 <= q.
Proof. exact huang_maker. Qed.
Print Assumptions C105_huang_market.

(** After MUDA at finite prices it is the sum of the fees. *)
Theorem C105_muda_market : forall S d fl ts e pl pr, w_qty_nonneg d -> NoDup (map w_lbl d) -> w_muda S d fl = Ok (ts, e) -> e_price_left e = Fin pl -> e_price_right e = Fin pr ->
  w_market d ts (e_fees e) = nsum (e_fees e) /\ fee_like (w_market d ts (e_fees e)).
Proof. exact muda_maker. Qed.
Print Assumptions C105_muda_market.

(** ** Examples *)
Definition bid (i : nat) (q : Qc) (p : num) (b : bool) : wrow := mkWRow i q p (Z.of_nat i) b 0 true.
Definition first (_ : nat) : nat := 0%nat.
(** a number to look at; [None] twice is infinite, once is NaN *)
Definition plain (v : num) : option (option Q) := match v with Fin q => Some (Some (this q)) | PInf | NInf => Some None | NaN => None end.
Definition show (r : res wprofits) : option (list (option (option Q)) * list (option (option Q)) * option (option Q)) :=
  match r with Ok p => Some (map plain (wp_bid p), map plain (wp_reservation p), plain (wp_market p)) | Err _ => None end.
Definition num_ (q : Q) : option (option Q) := Some (Some q).
Definition inf_ : option (option Q) := Some None.

(** buyer 0 buys a unit at any price and pays 3; seller 2 gets 2; the market keeps 1.  Valued at 5, buyer 0 gains 2 *)
Definition ex_h : wdf := [bid 0 (qz 1) PInf true; bid 1 (qz 2) (Fin (qz 3)) true; bid 2 (qz 2) (Fin 1) false; bid 3 (qz 3) (Fin (qz 2)) false; bid 4 1 NaN true].
Example C105_huang_ex : match w_run_huang w_stable first 0 ex_h with Ok (ts, _) => show (w_profits ex_h ts [(0%nat, Fin (qz 5))] None) =
  Some ([inf_; num_ 0; num_ 1; num_ 0; num_ 0], [num_ 2; num_ 0; num_ 1; num_ 0; num_ 0], num_ 1) | Err _ => False end.
Proof. vm_compute. reflexivity. Qed.
Example C105_huang_hyp_ex : map w_lbl ex_h = seq 0 5 /\ forallb (fun x => qltb 0 (w_qty x)) ex_h = true.
Proof. vm_compute. auto. Qed.
(** deals by hand: user 0 bought at any price for an infinite price (NaN, left out) and one unit for 2 below its bid; user 1 sold at an infinite price *)
Definition ex_t : list (atrans Qc num) := [mkATrans 0 1 PInf (-1) false; mkATrans 1 1 (Fin (qz 3)) (-1) false; mkATrans 2 1 PInf (-1) false; mkATrans 2 1 (Fin (qz 3)) (-1) false].
Definition ex_d : wdf := [mkWRow 0 1 PInf 0 true 0 true; mkWRow 1 1 (Fin (qz 5)) 0 true 0 true; mkWRow 2 (qz 2) (Fin 1) 1 false 0 true].
Example C105_players_ex : map plain (w_players ex_d ex_t w_price) = [num_ 2; inf_] /\ map (fun u => length (w_deals ex_d ex_t u)) (w_users ex_d) = [2; 2]%nat /\
  plain (w_turnover true ex_d ex_t) = inf_ /\ plain (w_turnover false ex_d ex_t) = inf_ /\ plain (w_market ex_d ex_t []) = None.
Proof. vm_compute. auto. Qed.
(** no transaction *)
Example C105_empty_ex : show (w_profits ex_d [] [] None) = None.
Proof. vm_compute. reflexivity. Qed.
(** MUDA at the prices 6 and 5 with a buyer at any price, who takes the place of buyer 1 and pays a fee of 6; the fee stays with the market *)
Definition ex_m : wdf := [bid 0 (qz 2) PInf true; bid 1 1 (Fin (qz 11)) true; bid 2 (qz 2) (Fin 1) false; bid 3 (qz 5) (Fin (qz 6)) false;
                          bid 4 1 (Fin (qz 8)) true; bid 5 1 (Fin (qz 2)) false; bid 6 (qz 3) (Fin (qz 5)) true; bid 7 (qz 4) (Fin (qz 7)) false].
Definition halves : list bool := [true; true; true; true; false; false; false; false].
Example C105_muda_ex : match w_muda w_stable ex_m halves with
  | Ok (ts, e) => show (w_profits ex_m ts [] (Some (e_fees e))) =
      Some ([inf_; num_ 0; num_ 8; num_ 0; num_ 2; num_ 4; num_ 0; num_ 0], [inf_; num_ 0; num_ 8; num_ 0; num_ 2; num_ 4; num_ 0; num_ 0], num_ 6) /\
      (plain (e_price_left e), plain (e_price_right e)) = (num_ 6, num_ 5)
  | Err _ => False end.
Proof. vm_compute. auto. Qed.
(** the same table with the price 100 instead of the infinite one, in the main model and here *)
Example C105_finite_ex : match w_muda w_stable (map wrow_of (map (cap_row (qz 100)) ex_m)) halves with
  | Ok (ts, e) => show (w_profits (map wrow_of (map (cap_row (qz 100)) ex_m)) ts [] (Some (e_fees e))) =
      Some ([num_ 190; num_ 0; num_ 8; num_ 0; num_ 2; num_ 4; num_ 0; num_ 0], [num_ 190; num_ 0; num_ 8; num_ 0; num_ 2; num_ 4; num_ 0; num_ 0], num_ 6)
  | Err _ => False end.
Proof. vm_compute. reflexivity. Qed.

(** ** What is not so *)
Definition few : wdf := [bid 0 1 PInf true; bid 1 1 (Fin 1) false; bid 2 1 (Fin (qz 2)) false].
(** All bids in one half, one buyer at any price: the price is infinite and the profit of the market maker is NaN. *)
Theorem C105_muda_market_refuted : ~ (forall S d fl ts e, w_qty_pos d -> NoDup (map w_lbl d) -> w_muda S d fl = Ok (ts, e) -> w_market d ts (e_fees e) <> NaN).
Proof.
  intro H. destruct (w_muda w_stable few [true; true; true]) as [[ts e]|er] eqn:E; [|vm_compute in E; discriminate E].
  refine (H w_stable few [true; true; true] ts e _ _ E _).
  - intros x [<-|[<-|[<-|[]]]]; reflexivity.
  - cbn. repeat constructor; cbn; intuition discriminate.
  - vm_compute in E. injection E as <- <-. vm_compute. reflexivity.
Qed.
Print Assumptions C105_muda_market_refuted.
