(** pymarket/statistics/maximum_traded_volume.py on tables whose prices can be infinite or NaN (see ModelWild.v).

    Quantities are exact rationals, so the bounds of the linear program are as in ModelStats.v; prices are only compared. *)
From Verif Require Import QcTac Num ModelBase ModelHuang ModelMuda ModelMarket ModelStats ModelAny ModelWild.

(** [bids.iloc[i, 0]], [bids.iloc[i, 1]] *)
Definition w_iloc_qty (d : wdf) (i : nat) : res Qc := match nth_error d i with Some r => Ok (w_qty r) | None => Err IndexError end.
Definition w_iloc_price (d : wdf) (i : nat) : res num := match nth_error d i with Some r => Ok (w_price r) | None => Err IndexError end.
(** maximum_traded_volume.py:54-55 *)
Definition w_pair_index (d : wdf) : list var := flat_map (fun i => map (fun j => (i, j)) (map w_lbl (w_sellers d))) (map w_lbl (w_buyers d)).
Fixpoint w_compatible (d : wdf) (l : list var) : res (list var) :=
  match l with
  | [] => Ok []
  | v :: r =>
      pb <- w_iloc_price d (fst v) ;;
      ps <- w_iloc_price d (snd v) ;;
      rest <- w_compatible d r ;;
      Ok (if nleb ps pb then v :: rest else rest)
  end.
(** maximum_traded_volume.py:61-67 *)
Definition w_buyer_cons (d : wdf) (index : list var) : res (list (list var * Qc)) :=
  mapM (fun b => q <- w_iloc_qty d b ;;
          Ok (filter (fun v => var_mem v index) (map (fun j => (b, j)) (map w_lbl (w_sellers d))), q))
       (map w_lbl (w_buyers d)).
Definition w_seller_cons (d : wdf) (index : list var) : res (list (list var * Qc)) :=
  mapM (fun s => q <- w_iloc_qty d s ;;
          Ok (filter (fun v => var_mem v index) (map (fun i => (i, s)) (map w_lbl (w_buyers d))), q))
       (map w_lbl (w_sellers d)).
(** maximum_traded_volume.py:50-67 *)
Definition w_volume_lp (d : wdf) : res lp :=
  index <- w_compatible d (w_pair_index d) ;;
  cb <- w_buyer_cons d index ;;
  cs <- w_seller_cons d index ;;
  Ok (mkLP index (map (fun v => (v, 1)) index) (cb ++ cs)).
(** maximum_traded_volume.py:7-79 *)
Definition w_max_volume (sv : solver) (d : wdf) : res lp_result := p <- w_volume_lp d ;; Ok (solve_lp sv p).
(** maximum_traded_volume.py:82-131 [percentage_traded] *)
Definition w_percentage (sv : solver) (d : wdf) (ts : list (atrans Qc num)) : res (option Qc) :=
  r <- w_max_volume sv d ;;
  ratio (qsum (map x_qty ts) / qz 2) r.
