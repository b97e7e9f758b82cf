(** [Market.run('huang')] on bids whose prices can be infinite or NaN: pymarket/bids/processing.py, transactions/processing.py and
    mechanisms/mechanism.py on the tables of ModelWild.v.

    Quantities are exact rationals, as in ModelMerge.v. *)
From Verif Require Import QcTac Num ModelBase ModelHuang ModelMerge ModelAny ModelWild.

(** processing.py:247 [np.round(x, prec)]: infinite values and NaN are not changed *)
Definition n_round (prec : Z) (x : num) : num := match x with Fin q => Fin (np_round prec q) | _ => x end.

(** processing.py:248 keys of [groupby]: the distinct values in ascending order; NaN is no key, so the rows with this price are
    in no group (pandas 0.25.3, the version pinned by the repository) *)
Fixpoint n_insert (x : num) (l : list num) : list num :=
  match l with
  | [] => [x]
  | y :: r => if nltb x y then x :: l else if neqb x y then l else y :: n_insert x r
  end.
Definition n_keys (l : list num) : list num := fold_right (fun x ks => match x with NaN => ks | _ => n_insert x ks end) [] l.

(** processing.py:246-249 for one side, as [ModelMerge.merge_groups] *)
Fixpoint w_merge_groups (prec : Z) (smp : nat -> nat) (side : wdf) (keys : list num) (g : nat) (cnt : Z)
  : res (list (wrow * list nat) * nat * Z) :=
  match keys with
  | [] => Ok ([], g, cnt)
  | k :: r =>
      let rows := filter (fun x => neqb (n_round prec (w_price x)) k) side in
      '(u, cnt1) <- new_id (map w_user rows) cnt ;;
      let new := mkWRow g (qsum (map w_qty rows)) k u
                   (sample smp (3 * g) (map w_buying rows) true)
                   (sample smp (3 * g + 1) (map w_time rows) 0)
                   (sample smp (3 * g + 2) (map w_div rows) true) in
      '(rest, g', cnt2) <- w_merge_groups prec smp side r (S g) cnt1 ;;
      Ok ((new, map w_lbl rows) :: rest, g', cnt2)
  end.
Definition w_side_keys (prec : Z) (side : wdf) : list num := n_keys (map (fun x => n_round prec (w_price x)) side).
Definition w_user_max (d : wdf) : Z :=
  match d with [] => 0%Z | r :: t => fold_left Z.max (map w_user t) (w_user r) end.

(** processing.py:79-270 [merge_same_price] *)
Definition w_merge (prec : Z) (smp : nat -> nat) (d : wdf) (cnt0 : Z) : res (wdf * list (list nat) * Z) :=
  let c0 := new_player_id (w_user_max d + 1)%Z cnt0 in
  let buy := w_buyers d in
  let sell := w_sellers d in
  '(mb, g1, c1) <- w_merge_groups prec smp buy (w_side_keys prec buy) 0 c0 ;;
  '(ms, _, c2) <- w_merge_groups prec smp sell (w_side_keys prec sell) g1 c1 ;;
  Ok (map fst (mb ++ ms), map snd (mb ++ ms), c2).

(** [bids.iloc[rows, :]] *)
Fixpoint w_iloc (d : wdf) (rows : list nat) : res wdf :=
  match rows with
  | [] => Ok []
  | i :: r =>
      match nth_error d i with
      | None => Err IndexError
      | Some x => xs <- w_iloc d r ;; Ok (x :: xs)
      end
  end.
(** transactions/processing.py:53-79 without fees, as [ModelMerge.split_one] *)
Definition w_split_one (bids : wdf) (maping : list (list nat)) (t : atrans Qc num) : res (list (atrans Qc num)) :=
  match nth_error maping (x_bid t) with
  | None => Err KeyError
  | Some rows =>
      rs <- w_iloc bids rows ;;
      let total := qsum (map w_qty rs) in
      if qeqb total 0 then
        match rows with [] => Ok [] | _ => Err NaNProduced end
      else Ok (map (fun ir => mkATrans (fst ir) (x_qty t * (w_qty (snd ir) / total)) (x_price t) (x_source t) (x_active t))
                   (combine rows rs))
  end.
Fixpoint w_split (bids : wdf) (maping : list (list nat)) (ts : list (atrans Qc num)) : res (list (atrans Qc num)) :=
  match ts with
  | [] => Ok []
  | t :: r => l <- w_split_one bids maping t ;; l' <- w_split bids maping r ;; Ok (l ++ l')
  end.

(** mechanism.py:130-139 [Mechanism._run] on the merged table, as [ModelMarket.merged_run].  The theorems that speak of NaN
    prices assume a bid with a price on either side: what pandas does with a table that has rows but no group was not checked. *)
Definition w_merged_run (S : wsorter) (bids : wdf) : res (list (atrans Qc num) * option (num * num * Qc)) :=
  if match bids with [r] => w_buying r | _ => false end then Err KeyError
  else
    let nb := length (w_buyers bids) in
    if Nat.eqb nb 0 || Nat.eqb nb (length bids) then Ok ([], None) else w_huang S bids.

(** market.py:120-155, mechanism.py:72-174, huang_auction.py:208-231: [Market.run('huang')] on the table [d] of the market *)
Definition w_run_huang (S : wsorter) (smp : nat -> nat) (cnt : Z) (d : wdf) : res (list (atrans Qc num) * option (num * num * Qc)) :=
  '(new_bids, maping, _) <- w_merge 5 smp d cnt ;;
  '(ts, ex) <- w_merged_run S new_bids ;;
  ts' <- w_split d maping ts ;;
  Ok (ts', ex).
