(** Specifications for the figures.  Independent of the model of the plotting functions. *)
From Verif Require Import QcTac Num ModelBase Spec.

(** what [step(xs, ys, where='post')] shows at abscissa [x]: [ys[i]] on the interval from [xs[i]] to [xs[i+1]] *)
Definition Drawn (xs ys : list num) (x v : Qc) : Prop :=
  exists i a b, nth_error xs i = Some (Fin a) /\ nth_error xs (S i) = Some (Fin b) /\ a <= x /\ x < b /\ nth_error ys i = Some (Fin v).
(** [m] is the largest price of a buyer, 0 without buyers *)
Definition best_bid (d : df) (m : Qc) : Prop :=
  (forall r, In r d -> buying r = true -> price r <= m) /\ (m = 0 \/ exists r, In r d /\ buying r = true /\ price r = m).
(** right end of the figure: the larger total quantity times the margin *)
Definition extent (mx : Qc) (d : df) : Qc := qmax (total_demand d) (total_supply d) * mx.

(** the undirected graph with the given edges joins [u] and [v] *)
Definition joins (es : list (option Z * option Z)) (u v : Z) : Prop := In (Some u, Some v) es \/ In (Some v, Some u) es.
(** the label of an edge states the quantity of the buyer's transaction [t] *)
Definition labelled (d : df) (t : trans) (e : (option Z * option Z) * Qc) : Prop :=
  exists x y, In x d /\ In y d /\ buying x = true /\ buying y = false /\ lbl x = t_bid t /\ Z.of_nat (lbl y) = t_source t /\
    e = ((Some (user x), Some (user y)), t_qty t).
(** bid [x] and bid [y] have a transaction with each other *)
Definition met (tl : list trans) (x y : row) : Prop :=
  exists t, In t tl /\ (t_bid t = lbl x /\ t_source t = Z.of_nat (lbl y) \/ t_bid t = lbl y /\ t_source t = Z.of_nat (lbl x)).
