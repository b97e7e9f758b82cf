(** What is said about profits with infinite and NaN prices. *)
From Verif Require Import QcTac Num ModelBase ModelStats ModelAny ModelWild ModelWildMuda ModelWildStats Spec SpecWild SpecWildMuda.

(** the deals of the user [u]: its bids with their transactions *)
Definition w_deals (d : wdf) (ts : list (atrans Qc num)) (u : Z) : list (atrans Qc num * wrow) := filter (fun tr => Z.eqb (w_user (snd tr)) u) (w_join ts d).
(** what a unit of the deal is worth to the user, for the values [val]: value minus price for buyers, price minus value for sellers *)
Definition w_rent (val : wrow -> num) (tr : atrans Qc num * wrow) : num :=
  if w_buying (snd tr) then nsub (val (snd tr)) (x_price (fst tr)) else nsub (x_price (fst tr)) (val (snd tr)).
(** an infinite gain *)
Definition endless (val : wrow -> num) (tr : atrans Qc num * wrow) : bool := match w_rent val tr with PInf => qltb 0 (x_qty (fst tr)) | _ => false end.
(** the gain of a deal with finite prices; nothing if a price is infinite *)
Definition finite_gain (val : wrow -> num) (tr : atrans Qc num * wrow) : Qc := match w_rent val tr with Fin g => g * x_qty (fst tr) | _ => 0 end.
(** money that one side pays or gets *)
Definition w_turnover (b : bool) (d : wdf) (ts : list (atrans Qc num)) : num :=
  let l := filter (fun tr => Bool.eqb (w_buying (snd tr)) b) (w_join ts d) in
  let inf := fun tr : atrans Qc num * wrow => match x_price (fst tr) with PInf => true | _ => false end in
  if existsb (fun tr => inf tr && qeqb (x_qty (fst tr)) 0) l then NaN
  else if existsb inf l then PInf
  else Fin (qsumf (fun tr => match x_price (fst tr) with Fin p => p * x_qty (fst tr) | _ => 0 end) l).
(** the result of the main model as extended numbers *)
Definition lift_profits (r : res profits) : res wprofits :=
  match r with Ok p => Ok (mkWProfits (map Fin (pr_bid p)) (map Fin (pr_reservation p)) (Fin (pr_market p))) | Err e => Err e end.
(** a profit that is infinite or a number that is at least [x]; not NaN and not [-inf] *)
Definition at_least (x : Qc) (v : num) : Prop := v = PInf \/ exists q, v = Fin q /\ x <= q.
