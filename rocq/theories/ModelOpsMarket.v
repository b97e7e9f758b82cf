(** Merging, splitting and [Market.run("huang")] for given operations of arithmetic; ModelRoundMarket.v with the operations
    of ModelOps.v. *)
From Verif Require Import QcTac Num ModelBase ModelCurves ModelHuang ModelMerge ModelMarket ModelRound ModelOps.

Section Market.
  Variable O : arith.
  (** the sum of an array (numpy) and the sum of a group (pandas) *)
  Variables A G : list Qc -> Qc.

  (** [np.round(x, prec)] of bids/processing.py:246.  numpy multiplies by [10^prec], takes [np.rint], which is exact, and divides;
      with a negative [prec] it divides by [10^-prec] first and multiplies afterwards *)
  Definition np_round_o (prec : Z) (x : Qc) : Qc :=
    if (0 <=? prec)%Z then o_div O (qz (rint (o_mul O x (qz (10 ^ prec))))) (qz (10 ^ prec))
    else o_mul O (qz (rint (o_div O x (qz (10 ^ (- prec)))))) (qz (10 ^ (- prec))).

  (** bids/processing.py:246-249 for one side *)
  Fixpoint merge_groups_o (prec : Z) (smp : nat -> nat) (side : df) (keys : list Qc) (g : nat) (cnt : Z)
    : res (list (row * list nat) * nat * Z) :=
    match keys with
    | [] => Ok ([], g, cnt)
    | k :: r =>
        let rows := filter (fun x => qeqb (np_round_o prec (price x)) k) side in
        '(u, cnt1) <- new_id (map user rows) cnt ;;
        let new := mkRow g (G (map qty rows)) k u
                     (sample smp (3 * g) (map buying rows) true)
                     (sample smp (3 * g + 1) (map time rows) 0)
                     (sample smp (3 * g + 2) (map divisible rows) true) in
        '(rest, g', cnt2) <- merge_groups_o prec smp side r (S g) cnt1 ;;
        Ok ((new, map lbl rows) :: rest, g', cnt2)
    end.
  Definition side_keys_o (prec : Z) (side : df) : list Qc :=
    group_keys (map (fun x => np_round_o prec (price x)) side).
  (** bids/processing.py:79-270 [merge_same_price] *)
  Definition merge_same_price_o (prec : Z) (smp : nat -> nat) (d : df) (cnt0 : Z)
    : res (df * list (list nat) * Z) :=
    let c0 := new_player_id (user_max d + 1)%Z cnt0 in
    let buy := buyers d in
    let sell := sellers d in
    '(mb, g1, c1) <- merge_groups_o prec smp buy (side_keys_o prec buy) 0 c0 ;;
    '(ms, _, c2) <- merge_groups_o prec smp sell (side_keys_o prec sell) g1 c1 ;;
    Ok (map fst (mb ++ ms), map snd (mb ++ ms), c2).

  (** transactions/processing.py:53-79 without fees, one transaction *)
  Definition split_one_o (bids : df) (maping : list (list nat)) (t : trans) : res (list trans) :=
    match nth_error maping (t_bid t) with
    | None => Err KeyError
    | Some rows =>
        rs <- iloc bids rows ;;
        let total := A (map qty rs) in
        if qeqb total 0 then
          match rows with [] => Ok [] | _ => Err NaNProduced end
        else Ok (map (fun ir => mkTrans (fst ir) (o_mul O (t_qty t) (o_div O (qty (snd ir)) total))
                                  (t_price t) (t_source t) (t_active t))
                     (combine rows rs))
    end.
  Fixpoint split_list_o (bids : df) (maping : list (list nat)) (ts : list trans) (acc : transmgr) : res transmgr :=
    match ts with
    | [] => Ok acc
    | t :: r =>
        l <- split_one_o bids maping t ;;
        split_list_o bids maping r (add_all acc l)
    end.
  (** transactions/processing.py:10-79 [split_transactions_merged_players], called without fees *)
  Definition split_transactions_o (transactions : transmgr) (bids : df) (maping : list (list nat)) : res transmgr :=
    split_list_o bids maping (tm_trans transactions) tm_init.

  (** mechanism.py:72-174 with [merge=True] around huang_auction.py:208-231: what [Market.run("huang")] computes *)
  Definition run_huang_o (S : sorter) (smp : nat -> nat) (cnt : Z) (bids : df) : res (transmgr * extra) :=
    '(new_bids, maping, _) <- merge_same_price_o 5 smp bids cnt ;;
    '(trans, ex) <- merged_run (huang_auction_o O A S) new_bids ;;
    trans' <- split_transactions_o trans bids maping ;;
    Ok (trans', ex).
End Market.
