(** The statistics of /repo in rounded arithmetic; see ModelRound.v for what a [rounding] and an [adder] are.
    The linear programs are solved outside of pymarket: the optimum that the solver reports is an argument
    [objective] here. *)
From Verif Require Import QcTac ModelBase ModelMuda ModelStats ModelRound.

Section RoundedStats.
  Variable R : rounding.
  (** the sum of an array or column *)
  Variable A : adder R.
  (** the sum of a group of rows (pandas) *)
  Variable G : adder R.

  (** profits.py:107-125 [get_gain]: the difference and the product are rounded *)
  Definition get_gain_r (price_x price_y : Qc) (buys : bool) (quantity : Qc) : Qc :=
    let gap := R (price_y - price_x) in
    R ((if buys then gap else - gap) * quantity).
  (** profits.py:81-90: users without rows get 0, as does the sum of an empty group *)
  Definition player_profits_r (d : df) (ts : list trans) (val : row -> Qc) : list Qc :=
    map (fun u => G (map (fun tr => get_gain_r (t_price (fst tr)) (val (snd tr)) (buying (snd tr)) (t_qty (fst tr)))
                         (filter (fun tr => Z.eqb (user (snd tr)) u) (join ts d))))
        (users_sorted d).
  (** profits.py:92-102 *)
  Definition market_profit_r (d : df) (ts : list trans) (fees : list Qc) : Qc :=
    let merged := join ts d in
    let paid := A (map (fun tr => R (t_price (fst tr) * t_qty (fst tr))) (filter (fun tr => buying (snd tr)) merged)) in
    let received := A (map (fun tr => R (t_price (fst tr) * t_qty (fst tr))) (filter (fun tr => negb (buying (snd tr))) merged)) in
    R (R (paid - received) + A fees).
  (** profits.py:6-104 [calculate_profits]; ValueError if no transaction belongs to a bid, as in [ModelStats.v] *)
  Definition calculate_profits_r (d : df) (ts : list trans) (rp : option dict) (fees : option (list Qc))
    : res profits * option dict :=
    let m := dict_fill (match rp with Some m => m | None => [] end) d in
    let fs := match fees with Some f => f | None => repeat 0 (length (uniqueZ (map user d))) end in
    let val := fun r => match dict_get m (lbl r) with Some v => v | None => price r end in
    (match join ts d with
     | [] => Err ValueError
     | _ => Ok (mkProfits (player_profits_r d ts price) (player_profits_r d ts val) (market_profit_r d ts fs))
     end, option_map (fun _ => m) rp).

  (** [if objective > 0: return x / objective else None] *)
  Definition ratio_r (x objective : Qc) : option Qc := if qltb 0 objective then Some (R (x / objective)) else None.
  (** maximum_traded_volume.py:122-131, after the program is solved *)
  Definition percentage_traded_r (objective : Qc) (ts : list trans) : option Qc :=
    ratio_r (R (A (map t_qty ts) / qz 2)) objective.
  (** maximum_aggregated_utility.py:157-174, after the program is solved *)
  Definition percentage_welfare_r (objective : Qc) (d : df) (ts : list trans) : option Qc :=
    let merged := join ts d in
    let mb := filter (fun tr => buying (snd tr)) merged in
    let ms := filter (fun tr => negb (buying (snd tr))) merged in
    let profit_buyers := A (map (fun tr => R (R (price (snd tr) - t_price (fst tr)) * t_qty (fst tr))) mb) in
    let profit_sellers := A (map (fun tr => R (R (t_price (fst tr) - price (snd tr)) * t_qty (fst tr))) ms) in
    ratio_r (R (profit_buyers + profit_sellers)) objective.
End RoundedStats.
