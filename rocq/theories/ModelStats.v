(** Model of pymarket/statistics/*.py and of [Market.statistics]. *)
From Verif Require Import QcTac Num ModelBase ModelHuang ModelMuda ModelMarket.

(** ** Linear programs handed to pulp: maximise, all variables >= 0 *)
Definition var := (nat * nat)%type.
Record lp := mkLP {
  lp_vars : list var;
  lp_obj : list (var * Qc);          (* objective: sum of coefficient * variable *)
  lp_cons : list (list var * Qc) }.  (* sum of variables <= bound *)

Definition assignment := var -> Qc.
Definition lp_value (p : lp) (a : assignment) : Qc := qsumf (fun vc => snd vc * a (fst vc)) (lp_obj p).
Definition lp_feasible (p : lp) (a : assignment) : Prop :=
  (forall v, In v (lp_vars p) -> 0 <= a v) /\
  (forall c, In c (lp_cons p) -> qsumf a (fst c) <= snd c).
Definition lp_optimal (p : lp) (a : assignment) : Prop :=
  lp_feasible p a /\ forall a', lp_feasible p a' -> lp_value p a' <= lp_value p a.

(** The solver is not modelled: it is any function that returns an optimum whenever there is one
    ([None]: status other than Optimal). *)
Definition solver := lp -> option assignment.
Definition solver_ok (sv : solver) : Prop :=
  forall p, (exists a, lp_optimal p a) -> exists a, sv p = Some a /\ lp_optimal p a.

(** [(status, objective, variables)] *)
Definition lp_result := option (Qc * list (var * Qc)).
Definition solve_lp (sv : solver) (p : lp) : lp_result :=
  match sv p with
  | None => None
  | Some a => Some (lp_value p a, map (fun v => (v, a v)) (lp_vars p))
  end.

(** [bids.iloc[i, 0]], [bids.iloc[i, 1]] *)
Definition iloc_qty (d : df) (i : nat) : res Qc :=
  match nth_error d i with Some r => Ok (qty r) | None => Err IndexError end.
Definition iloc_price (d : df) (i : nat) : res Qc :=
  match nth_error d i with Some r => Ok (price r) | None => Err IndexError end.

Fixpoint mapM {A B} (f : A -> res B) (l : list A) : res (list B) :=
  match l with
  | [] => Ok []
  | x :: r => y <- f x ;; ys <- mapM f r ;; Ok (y :: ys)
  end.

(** all (buyer label, seller label) pairs *)
Definition pair_index (d : df) : list var :=
  flat_map (fun i => map (fun j => (i, j)) (map lbl (sellers d))) (map lbl (buyers d)).

Definition var_eqb (v w : var) : bool := Nat.eqb (fst v) (fst w) && Nat.eqb (snd v) (snd w).
Definition var_mem (v : var) (l : list var) : bool := existsb (var_eqb v) l.

(** ** maximum_traded_volume.py *)

(** lines 54-55: the list [index] *)
Fixpoint compatible (d : df) (l : list var) : res (list var) :=
  match l with
  | [] => Ok []
  | v :: r =>
      pb <- iloc_price d (fst v) ;;
      ps <- iloc_price d (snd v) ;;
      rest <- compatible d r ;;
      Ok (if qleb ps pb then v :: rest else rest)
  end.

(** lines 61-67: the capacity constraints over the variables of [index] *)
Definition buyer_cons (d : df) (index : list var) : res (list (list var * Qc)) :=
  mapM (fun b => q <- iloc_qty d b ;;
          Ok (filter (fun v => var_mem v index) (map (fun j => (b, j)) (map lbl (sellers d))), q))
       (map lbl (buyers d)).
Definition seller_cons (d : df) (index : list var) : res (list (list var * Qc)) :=
  mapM (fun s => q <- iloc_qty d s ;;
          Ok (filter (fun v => var_mem v index) (map (fun i => (i, s)) (map lbl (buyers d))), q))
       (map lbl (sellers d)).

(** maximum_traded_volume.py:50-67: the model that is built *)
Definition volume_lp (d : df) : res lp :=
  index <- compatible d (pair_index d) ;;
  cb <- buyer_cons d index ;;
  cs <- seller_cons d index ;;
  Ok (mkLP index (map (fun v => (v, 1)) index) (cb ++ cs)).

(** maximum_traded_volume.py:7-79.  The variables are listed in the order of [index]. *)
Definition maximum_traded_volume (sv : solver) (d : df) : res lp_result :=
  p <- volume_lp d ;; Ok (solve_lp sv p).

(** [if objective > 0: return x / objective else None]; [None > 0] raises TypeError *)
Definition ratio (x : Qc) (r : lp_result) : res (option Qc) :=
  match r with
  | None => Err TypeError
  | Some (obj, _) => if qltb 0 obj then Ok (Some (x / obj)) else Ok None
  end.

(** maximum_traded_volume.py:82-131 [percentage_traded] (reservation prices are not used) *)
Definition percentage_traded (sv : solver) (d : df) (ts : list trans) : res (option Qc) :=
  r <- maximum_traded_volume sv d ;;
  ratio (qsum (map t_qty ts) / qz 2) r.

(** ** maximum_aggregated_utility.py *)

(** A python dictionary from labels to prices, in insertion order. *)
Definition dict := list (nat * Qc).
Fixpoint dict_get (m : dict) (i : nat) : option Qc :=
  match m with
  | [] => None
  | (j, v) :: r => if Nat.eqb j i then Some v else dict_get r i
  end.
(** the loops [if i not in reservation_prices: reservation_prices[i] = x.price]
    (maximum_aggregated_utility.py:77-79,151-153, profits.py:71-73): the dictionary afterwards *)
Definition dict_fill (m : dict) (d : df) : dict :=
  fold_left (fun acc r => match dict_get acc (lbl r) with
                          | Some _ => acc
                          | None => acc ++ [(lbl r, price r)]
                          end) d m.

Definition dict_lookup (m : dict) (i : nat) : res Qc :=
  match dict_get m i with Some v => Ok v | None => Err KeyError end.

(** maximum_aggregated_utility.py:72-97: the model that is built for the (filled) prices *)
Definition welfare_lp (d : df) (rp : dict) : res lp :=
  let index := pair_index d in
  coeffs <- mapM (fun v => pb <- dict_lookup rp (fst v) ;; ps <- dict_lookup rp (snd v) ;;
                           Ok (v, pb - ps)) index ;;
  cb <- buyer_cons d index ;;
  cs <- seller_cons d index ;;
  Ok (mkLP index coeffs (cb ++ cs)).

(** maximum_aggregated_utility.py:7-107.  Returns the result and the dictionary passed by the caller
    after the call ([None] in, [None] out). *)
Definition maximum_aggregated_utility (sv : solver) (d : df) (rp : option dict)
  : res (lp_result * option dict) :=
  let m := dict_fill (match rp with Some m => m | None => [] end) d in
  p <- welfare_lp d m ;;
  Ok (solve_lp sv p, option_map (fun _ => m) rp).

(** [transactions.merge(tmp, on='bid')]: inner join on the bid label *)
Definition join (ts : list trans) (d : df) : list (trans * row) :=
  flat_map (fun t => map (fun r => (t, r)) (filter (fun r => Nat.eqb (lbl r) (t_bid t)) d)) ts.

(** maximum_aggregated_utility.py:110-174 [percentage_welfare]; the argument
    [reservation_prices] is overwritten in line 150 and the new dictionary is passed in line 155 as a
    surplus positional argument, so that [maximum_aggregated_utility] sees [reservation_prices=None] *)
Definition percentage_welfare (sv : solver) (d : df) (ts : list trans) (rp : option dict)
  : res (option Qc) :=
  '(r, _) <- maximum_aggregated_utility sv d None ;;
  let merged := join ts d in
  let mb := filter (fun tr => buying (snd tr)) merged in
  let ms := filter (fun tr => negb (buying (snd tr))) merged in
  let profit_buyers := qsum (map (fun tr => (price (snd tr) - t_price (fst tr)) * t_qty (fst tr)) mb) in
  let profit_sellers := qsum (map (fun tr => (t_price (fst tr) - price (snd tr)) * t_qty (fst tr)) ms) in
  ratio (profit_buyers + profit_sellers) r.

(** ** profits.py *)

(** profits.py:107-125 [get_gain] *)
Definition get_gain (price_x price_y : Qc) (buys : bool) (quantity : Qc) : Qc :=
  let gap := price_y - price_x in
  (if buys then gap else - gap) * quantity.

(** [sorted(bids.user.unique())] *)
Fixpoint zinsert (x : Z) (l : list Z) : list Z :=
  match l with
  | [] => [x]
  | y :: r => if (x <=? y)%Z then x :: l else y :: zinsert x r
  end.
Definition zsort (l : list Z) : list Z := fold_right zinsert [] l.
Definition users_sorted (d : df) : list Z := zsort (uniqueZ (map user d)).

(** profits.py:81-90: profit of every user, for a price column [val] *)
Definition player_profits (d : df) (ts : list trans) (val : row -> Qc) : list Qc :=
  map (fun u => qsum (map (fun tr => get_gain (t_price (fst tr)) (val (snd tr)) (buying (snd tr)) (t_qty (fst tr)))
                          (filter (fun tr => Z.eqb (user (snd tr)) u) (join ts d))))
      (users_sorted d).

(** profits.py:92-102: profit of the market maker *)
Definition market_profit (d : df) (ts : list trans) (fees : list Qc) : Qc :=
  let merged := join ts d in
  qsum (map (fun tr => t_price (fst tr) * t_qty (fst tr)) (filter (fun tr => buying (snd tr)) merged))
  - qsum (map (fun tr => t_price (fst tr) * t_qty (fst tr)) (filter (fun tr => negb (buying (snd tr))) merged))
  + qsum fees.

Record profits := mkProfits { pr_bid : list Qc; pr_reservation : list Qc; pr_market : Qc }.

(** profits.py:6-104 [calculate_profits]: the result and the caller's dictionary afterwards.
    [merged.apply(lambda x: get_gain(x), axis=1)] (profits.py:87) on a table without rows returns an
    empty table and not a column, and assigning a table to the column [gain] raises ValueError.  The
    dictionary is filled before (profits.py:71-73). *)
Definition calculate_profits (d : df) (ts : list trans) (rp : option dict) (fees : option (list Qc))
  : res profits * option dict :=
  let m := dict_fill (match rp with Some m => m | None => [] end) d in
  let fs := match fees with Some f => f | None => repeat 0 (length (uniqueZ (map user d))) end in
  let val := fun r => match dict_get m (lbl r) with Some v => v | None => price r end in
  (match join ts d with
   | [] => Err ValueError
   | _ => Ok (mkProfits (player_profits d ts price) (player_profits d ts val) (market_profit d ts fs))
   end, option_map (fun _ => m) rp).

(** ** market.py:157-193 [Market.statistics] *)
Definition extra_fees (x : extra) : option (list Qc) :=
  match x with XMuda _ _ _ _ f => Some f | _ => None end.

(** market.py:14-19 [STATS], in dictionary order *)
Inductive stat := STraded | SWelfare | SProfits.
Inductive stat_value := VRatio (x : option Qc) | VProfits (p : profits).
Definition STATS : list stat := [STraded; SWelfare; SProfits].
Definition stat_eqb (a b : stat) : bool :=
  match a, b with STraded, STraded | SWelfare, SWelfare | SProfits, SProfits => true | _, _ => false end.

(** one statistic: its value and the caller's dictionary afterwards *)
Definition run_stat (sv : solver) (m : market) (rp : option dict) (s : stat)
  : res stat_value * option dict :=
  let d := get_df (mk_bm m) in
  let ts := tm_trans (mk_trans m) in
  match s with
  | STraded => (x <- percentage_traded sv d ts ;; Ok (VRatio x), rp)
  | SWelfare => (x <- percentage_welfare sv d ts rp ;; Ok (VRatio x), rp)
  | SProfits => let '(p, rp') := calculate_profits d ts rp (extra_fees (mk_extra m)) in
                (x <- p ;; Ok (VProfits x), rp')
  end.

(** the loop of market.py:183-190 over the remaining statistics *)
Fixpoint stats_loop (sv : solver) (m : market) (rp : option dict) (exclude : list stat) (l : list stat)
  : option dict * res (list (stat * stat_value)) :=
  match l with
  | [] => (rp, Ok [])
  | s :: r =>
      if existsb (stat_eqb s) exclude then stats_loop sv m rp exclude r
      else match run_stat sv m rp s with
           | (Err e, rp') => (rp', Err e)
           | (Ok v, rp') =>
               let '(rp'', o) := stats_loop sv m rp' exclude r in
               (rp'', match o with Ok vs => Ok ((s, v) :: vs) | Err e => Err e end)
           end
  end.

(** [statistics]: the market afterwards, the caller's dictionary afterwards, and the result.
    [self.stats] is not part of the state because nothing reads it back. *)
Definition statistics (sv : solver) (m : market) (rp : option dict) (exclude : list stat)
  : market * option dict * res (list (stat * stat_value)) :=
  let '(rp', o) := stats_loop sv m rp exclude STATS in (m, rp', o).

(** ** A client session: a sequence of calls on one market *)
Inductive op :=
| OAccept (b : bid) | ORun (a : algo) | OStats (rp : option dict) (exclude : list stat).
Definition step (S : sorter) (sv : solver) (m : market) (o : op) : market :=
  match o with
  | OAccept b => fst (accept_bid m b)
  | ORun a => fst (market_run S m a)
  | OStats rp ex => fst (fst (statistics sv m rp ex))
  end.
Definition session (S : sorter) (sv : solver) (m : market) (ops : list op) : market :=
  fold_left (step S sv) ops m.
