(** pymarket/statistics/profits.py on tables and transactions whose prices can be infinite or NaN (see ModelWild.v).

    Quantities are exact rationals.  What happens to the dictionary of the caller is in ModelStats.v. *)
From Verif Require Import QcTac Num ModelBase ModelHuang ModelMuda ModelStats ModelAny ModelWild ModelWildMuda.

(** [transactions.merge(tmp, on='bid')] (profits.py:86) *)
Definition w_join (ts : list (atrans Qc num)) (d : wdf) : list (atrans Qc num * wrow) :=
  flat_map (fun t => map (fun r => (t, r)) (filter (fun r => Nat.eqb (w_lbl r) (x_bid t)) d)) ts.
(** profits.py:107-125 [get_gain] *)
Definition w_gap (price_x price_y : num) (buys : bool) : num := let gap := nsub price_y price_x in if buys then gap else nopp gap.
Definition w_gain (price_x price_y : num) (buys : bool) (quantity : Qc) : num := nmul (w_gap price_x price_y buys) (Fin quantity).
(** [sorted(bids.user.unique())] *)
Definition w_users (d : wdf) : list Z := zsort (uniqueZ (map w_user d)).
(** profits.py:88-91: [groupby('user')['gain'].sum()] skips NaN; a user without transactions has 0 *)
Definition w_players (d : wdf) (ts : list (atrans Qc num)) (val : wrow -> num) : list num :=
  map (fun u => nsum_skip (map (fun tr => w_gain (x_price (fst tr)) (val (snd tr)) (w_buying (snd tr)) (x_qty (fst tr)))
                               (filter (fun tr => Z.eqb (w_user (snd tr)) u) (w_join ts d))))
      (w_users d).
(** [values.sum()] of numpy does not skip NaN *)
Definition nsum (l : list num) : num := fold_left nadd l (Fin 0).
(** profits.py:93-102 *)
Definition w_market (d : wdf) (ts : list (atrans Qc num)) (fees : list num) : num :=
  let merged := w_join ts d in
  let paid b := nsum (map (fun tr => nmul (x_price (fst tr)) (Fin (x_qty (fst tr)))) (filter (fun tr => Bool.eqb (w_buying (snd tr)) b) merged)) in
  nadd (nsub (paid true) (paid false)) (nsum fees).

Record wprofits := mkWProfits { wp_bid : list num; wp_reservation : list num; wp_market : num }.
(** [reservation_prices.get(bid, price)] on the filled dictionary (profits.py:69-73, 82-85) *)
Definition w_val (rp : list (nat * num)) (r : wrow) : num :=
  match find (fun p => Nat.eqb (fst p) (w_lbl r)) rp with Some (_, v) => v | None => w_price r end.
(** profits.py:6-104 [calculate_profits]; ValueError as in ModelStats.v *)
Definition w_profits (d : wdf) (ts : list (atrans Qc num)) (rp : list (nat * num)) (fees : option (list num)) : res wprofits :=
  let fs := match fees with Some f => f | None => repeat (Fin 0) (length (uniqueZ (map w_user d))) end in
  match w_join ts d with
  | [] => Err ValueError
  | _ => Ok (mkWProfits (w_players d ts w_price) (w_players d ts (w_val rp)) (w_market d ts fs))
  end.
