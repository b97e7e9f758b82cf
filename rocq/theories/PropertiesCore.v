(** Property C93: competitive equilibrium, envy, and groups of bids that could do better on their own. *)
From Verif Require Import QcTac Num ModelBase ModelCurves ModelHuang ModelMuda ModelP2P ModelMarket ModelUniform Spec SpecTrade SpecMuda SpecHuang SpecAlloc SpecCore
  Sorter Conform PlotWitness CoreFacts CoreTop CoreWitness.

(** C93, the uniform price mechanism.  At every price at which demand and supply balance, the quantities of the mechanism are
    the best for every single bid: all of it if it gains, nothing if it loses. *)
Theorem C93_quantities :
  forall (S : sorter) (d : df) tm ex p0, qty_pos d -> price_nonneg d -> labels_unique d ->
    uniform_run S d = Ok (tm, ex) -> clearing d price p0 -> forall r, In r d -> content p0 (tm_trans tm) r.
Proof. exact (fun S d tm ex p0 Hq Hp Hu => uniform_content S d Hq Hp Hu tm ex p0). Qed.
Print Assumptions C93_quantities.
(** At the price of the mechanism this holds exactly if that price balances demand and supply, that is, if the bids that are
    strictly better than the price offer no more than the quantity traded, on either side. *)
Theorem C93_equilibrium :
  forall (S : sorter) (d : df) tm c p, qty_pos d -> price_nonneg d -> labels_unique d ->
    uniform_run S d = Ok (tm, XUniform (Fin c) (Fin p)) ->
    ((forall r, In r d -> content p (tm_trans tm) r) <-> clearing d price p) /\
    (clearing d price p <-> wanted_above d price p <= c /\ offered_below d price p <= c).
Proof. exact (fun S d tm c p Hq Hp Hu E => conj (uniform_equilibrium S d Hq Hp Hu tm c p E) (uniform_clears S d Hq Hp tm c p E)). Qed.
Print Assumptions C93_equilibrium.
(** It does when prices are distinct and one of the two marginal bids is only partly used. *)
Theorem C93_clears :
  forall (S : sorter) (d : df) tm c p ps pb, qty_pos d -> price_nonneg d -> labels_unique d -> asks_pos d -> prices_distinct d ->
    uniform_run S d = Ok (tm, XUniform (Fin c) (Fin p)) -> Marginal d ps pb c -> c < demand_at d pb \/ c < supply_at d ps ->
    clearing d price p.
Proof. exact (fun S d tm c p ps pb Hq Hp Hu Ha Hd E => uniform_split S d Hq Hp Hu tm c p E Ha Hd ps pb). Qed.
Print Assumptions C93_clears.
(** Then no bid would rather have the transaction of another one ... *)
Theorem C93_no_envy :
  forall (S : sorter) (d : df) tm c p, qty_pos d -> price_nonneg d -> labels_unique d ->
    uniform_run S d = Ok (tm, XUniform (Fin c) (Fin p)) -> clearing d price p ->
    forall r t, In r d -> In t (tm_trans tm) -> ~ envies (tm_trans tm) r t.
Proof. exact (fun S d tm c p Hq Hp Hu => uniform_no_envy S d Hq Hp Hu tm c p). Qed.
Print Assumptions C93_no_envy.
(** ... and no group of bids could gain more by trading among themselves. *)
Theorem C93_core :
  forall (S : sorter) (d : df) tm c p, qty_pos d -> price_nonneg d -> labels_unique d ->
    uniform_run S d = Ok (tm, XUniform (Fin c) (Fin p)) -> clearing d price p ->
    forall g y, incl g d -> ~ blocks (tm_trans tm) g y.
Proof. exact (fun S d tm c p Hq Hp Hu => uniform_core S d Hq Hp Hu tm c p). Qed.
Print Assumptions C93_core.
(** Otherwise both can fail, even on distinct prices: the price is the middle between the two marginal prices, below what an
    unserved buyer bids. *)
Theorem C93_middle_refuted :
  ~ (forall (S : sorter) (d : df) tm c p, qty_pos d -> price_nonneg d -> labels_unique d -> asks_pos d -> prices_distinct d ->
       uniform_run S d = Ok (tm, XUniform (Fin c) (Fin p)) -> forall r t, In r d -> In t (tm_trans tm) -> ~ envies (tm_trans tm) r t) /\
  ~ (forall (S : sorter) (d : df) tm c p, qty_pos d -> price_nonneg d -> labels_unique d -> asks_pos d -> prices_distinct d ->
       uniform_run S d = Ok (tm, XUniform (Fin c) (Fin p)) -> forall g y, incl g d -> ~ blocks (tm_trans tm) g y).
Proof. exact (conj middle_envy middle_blocked). Qed.
Print Assumptions C93_middle_refuted.

(** C93, the Huang auction on distinct prices: no bid would rather have the transaction of a bid of its own side that offers no
    more than it does ... *)
Theorem C93_huang_no_envy :
  forall (S : sorter) (d : df) tm ps pb q, qty_nonneg d -> price_nonneg d -> labels_unique d -> prices_distinct d ->
    huang_auction S d = Ok (tm, XHuang ps pb q) ->
    forall r r' t, In r d -> In r' d -> buying r' = buying r -> qty r' <= qty r -> In t (tm_trans tm) -> t_bid t = lbl r' ->
      ~ envies (tm_trans tm) r t.
Proof. exact (fun S d tm ps pb q Hq Hp Hu Hd => huang_no_envy S d Hq Hp Hu Hd tm ps pb q). Qed.
Print Assumptions C93_huang_no_envy.
(** ... but possibly that of a bid that offers more. *)
Theorem C93_huang_envy_refuted :
  ~ (forall (S : sorter) (d : df) tm ps pb q, qty_pos d -> price_nonneg d -> labels_unique d -> asks_pos d -> prices_distinct d ->
       huang_auction S d = Ok (tm, XHuang ps pb q) ->
       forall r r' t, In r d -> In r' d -> buying r' = buying r -> In t (tm_trans tm) -> t_bid t = lbl r' -> ~ envies (tm_trans tm) r t).
Proof. exact huang_envy. Qed.
Print Assumptions C93_huang_envy_refuted.
(** The two bids that set the prices gain nothing and could always gain by trading with each other. *)
Theorem C93_huang_blocked :
  forall (S : sorter) (d : df) tm ps pb q, qty_pos d -> price_nonneg d -> labels_unique d -> prices_distinct d ->
    huang_auction S d = Ok (tm, XHuang ps pb q) ->
    exists b s y, In b d /\ In s d /\ buying b = true /\ buying s = false /\ price b = pb /\ price s = ps /\
      own_gain (tm_trans tm) b = 0 /\ own_gain (tm_trans tm) s = 0 /\ blocks (tm_trans tm) [b; s] y.
Proof. exact (fun S d tm ps pb q Q Hp Hu Hd E => huang_blocked S d (fun r H => Qclt_le_weak _ _ (Q r H)) Hp Hu Hd tm ps pb q E Q). Qed.
Print Assumptions C93_huang_blocked.

(** C93, MUDA: within a half, a bid does not want the transaction of a bid of its side that gains less per unit, and a bid of the
    short side that of nobody; fees are not part of the comparison. *)
Theorem C93_muda_no_envy :
  forall (S : sorter) (d : df) (fl : list bool) tm ex, qty_nonneg d -> labels_unique d -> muda S d fl = Ok (tm, ex) ->
    forall h q, half_of ex d h (Fin q) ->
    forall r r' t, In r h -> In r' h -> In t (tm_trans tm) -> t_bid t = lbl r' ->
      (buying r' = buying r /\ gain q r' < gain q r) \/ buying r = negb (long_side h q) -> ~ envies (tm_trans tm) r t.
Proof. exact muda_no_envy. Qed.
Print Assumptions C93_muda_no_envy.
(** It may want that of a better bid, even on distinct prices, and pairs could do better on their own. *)
Theorem C93_muda_refuted :
  ~ (forall (S : sorter) (d : df) (fl : list bool) tm ex, qty_pos d -> price_nonneg d -> labels_unique d -> asks_pos d -> prices_distinct d ->
       muda S d fl = Ok (tm, ex) -> forall h q, half_of ex d h (Fin q) ->
       forall r r' t, In r h -> In r' h -> In t (tm_trans tm) -> t_bid t = lbl r' -> ~ envies (tm_trans tm) r t) /\
  ~ (forall (S : sorter) (d : df) (fl : list bool) tm ex, qty_pos d -> price_nonneg d -> labels_unique d -> asks_pos d -> prices_distinct d ->
       muda S d fl = Ok (tm, ex) -> forall h q, half_of ex d h (Fin q) -> forall g y, incl g h -> ~ blocks (tm_trans tm) g y).
Proof. exact (conj muda_envy muda_blocked). Qed.
Print Assumptions C93_muda_refuted.
(** C93, random meetings: a bid may want the transaction of a bid that is just like it, and a pair could do better. *)
Theorem C93_p2p_refuted :
  ~ (forall (d : df) (c : Qc) (r : nat -> nat) tm ex, qty_pos d -> price_nonneg d -> labels_unique d -> asks_pos d -> 0 <= c -> c <= 1 ->
       p2p_random d c r = Ok (tm, ex) ->
       forall x x' t, In x d -> In x' d -> buying x' = buying x -> price x' = price x -> qty x' = qty x ->
         In t (tm_trans tm) -> t_bid t = lbl x' -> ~ envies (tm_trans tm) x t) /\
  ~ (forall (d : df) (c : Qc) (r : nat -> nat) tm ex, qty_pos d -> price_nonneg d -> labels_unique d -> asks_pos d -> 0 <= c -> c <= 1 ->
       p2p_random d c r = Ok (tm, ex) -> forall g y, incl g d -> ~ blocks (tm_trans tm) g y).
Proof. exact (conj p2p_envy p2p_blocked). Qed.
Print Assumptions C93_p2p_refuted.

(** the seller at 6 is partly used and sets the price 6, which clears; in [late] the price is 5, the buyer at 8 gets nothing *)
Example C93_example :
  let d := frame [B (qz 3) (qz 9) 0; B (qz 1) (qz 8) 1; B (qz 2) (qz 4) 2; A (qz 2) (qz 1) 3; A (qz 3) (qz 6) 4] in
  let see := fun d => match uniform_run SS d with
    | Ok (tm, XUniform (Fin c) (Fin p)) => Some (this c, this p, map (fun r => (this (traded_by (lbl r) (tm_trans tm)), this (own_gain (tm_trans tm) r))) d,
        (this (wanted_above d price p), this (offered_below d price p)))
    | _ => None end in
  see d = Some (4%Q, 6%Q, [(3, 9); (1, 2); (0, 0); (2, 10); (2, 0)]%Q, (4, 2)%Q) /\
  see late = Some (1%Q, 5%Q, [(1, 4); (0, 0); (1, 4)]%Q, (2, 1)%Q).
Proof. vm_compute. split; reflexivity. Qed.
