(** Merging, splitting and [Market.run("huang")] in rounded arithmetic; see ModelRound.v for what a
    [rounding] and an [adder] are. *)
From Verif Require Import QcTac Num ModelBase ModelCurves ModelHuang ModelMerge ModelMarket ModelRound.

Section RoundedMarket.
  Variable R : rounding.
  (** the sum of an array (numpy) *)
  Variable A : adder R.
  (** the sum of a group: pandas adds the elements of a group one after the other.  Simplification: the
      compensation that pandas 1.2 and later add to this sum is not modelled. *)
  Variable G : adder R.

  (** [np.round(x, prec)] of bids/processing.py:246: [x * 10^prec] and the quotient by [10^prec] are
      rounded, [np.rint] is not; with a negative [prec] the quotient by [10^-prec] and the product are *)
  Definition np_round_r (prec : Z) (x : Qc) : Qc := R (qz (rint (R (x * pow10 prec))) / pow10 prec).

  (** bids/processing.py:246-249 for one side *)
  Fixpoint merge_groups_r (prec : Z) (smp : nat -> nat) (side : df) (keys : list Qc) (g : nat) (cnt : Z)
    : res (list (row * list nat) * nat * Z) :=
    match keys with
    | [] => Ok ([], g, cnt)
    | k :: r =>
        let rows := filter (fun x => qeqb (np_round_r prec (price x)) k) side in
        '(u, cnt1) <- new_id (map user rows) cnt ;;
        let new := mkRow g (G (map qty rows)) k u
                     (sample smp (3 * g) (map buying rows) true)
                     (sample smp (3 * g + 1) (map time rows) 0)
                     (sample smp (3 * g + 2) (map divisible rows) true) in
        '(rest, g', cnt2) <- merge_groups_r prec smp side r (S g) cnt1 ;;
        Ok ((new, map lbl rows) :: rest, g', cnt2)
    end.
  Definition side_keys_r (prec : Z) (side : df) : list Qc :=
    group_keys (map (fun x => np_round_r prec (price x)) side).
  (** bids/processing.py:79-270 [merge_same_price] *)
  Definition merge_same_price_r (prec : Z) (smp : nat -> nat) (d : df) (cnt0 : Z)
    : res (df * list (list nat) * Z) :=
    let c0 := new_player_id (user_max d + 1)%Z cnt0 in
    let buy := buyers d in
    let sell := sellers d in
    '(mb, g1, c1) <- merge_groups_r prec smp buy (side_keys_r prec buy) 0 c0 ;;
    '(ms, _, c2) <- merge_groups_r prec smp sell (side_keys_r prec sell) g1 c1 ;;
    Ok (map fst (mb ++ ms), map snd (mb ++ ms), c2).

  (** transactions/processing.py:53-79 without fees, one transaction: the quotient by the total and the
      product with the quantity of the transaction are rounded *)
  Definition split_one_r (bids : df) (maping : list (list nat)) (t : trans) : res (list trans) :=
    match nth_error maping (t_bid t) with
    | None => Err KeyError
    | Some rows =>
        rs <- iloc bids rows ;;
        let total := A (map qty rs) in
        if qeqb total 0 then
          match rows with [] => Ok [] | _ => Err NaNProduced end
        else Ok (map (fun ir => mkTrans (fst ir) (R (t_qty t * R (qty (snd ir) / total)))
                                  (t_price t) (t_source t) (t_active t))
                     (combine rows rs))
    end.
  Fixpoint split_list_r (bids : df) (maping : list (list nat)) (ts : list trans) (acc : transmgr) : res transmgr :=
    match ts with
    | [] => Ok acc
    | t :: r =>
        l <- split_one_r bids maping t ;;
        split_list_r bids maping r (add_all acc l)
    end.
  (** transactions/processing.py:10-79 [split_transactions_merged_players], called without fees *)
  Definition split_transactions_r (transactions : transmgr) (bids : df) (maping : list (list nat)) : res transmgr :=
    split_list_r bids maping (tm_trans transactions) tm_init.

  (** mechanism.py:72-174 with [merge=True] around huang_auction.py:208-231: what [Market.run("huang")]
      computes on the table [bids] *)
  Definition run_huang_r (S : sorter) (smp : nat -> nat) (cnt : Z) (bids : df) : res (transmgr * extra) :=
    '(new_bids, maping, _) <- merge_same_price_r 5 smp bids cnt ;;
    '(trans, ex) <- merged_run (huang_auction_r R A S) new_bids ;;
    trans' <- split_transactions_r trans bids maping ;;
    Ok (trans', ex).
End RoundedMarket.
