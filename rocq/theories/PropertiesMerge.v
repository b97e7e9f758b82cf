(** Properties C14 - C18: merging bids of equal price, splitting transactions, Market.run("huang"). *)
From Verif Require Import QcTac Num ModelBase ModelCurves ModelHuang ModelMerge ModelMarket Spec SpecTrade SpecMerge
  Sorter Conform MergeFacts HuangMarketFacts StoreFacts SplitFees.

(** C14. Partition by side and rounded price. *)
Theorem C14_merge_partition :
  forall (prec : Z) (smp : nat -> nat) (d : df) (cnt : Z), exists md mp c,
  merge_same_price prec smp d cnt = Ok (md, mp, c) /\
  length mp = length md /\ map lbl md = seq 0 (length md) /\ Permutation (concat mp) (map lbl d) /\
  (forall i r rows, nth_error md i = Some r -> nth_error mp i = Some rows ->
     group_of prec d r <> [] /\ rows = map lbl (group_of prec d r) /\ qty r = qsumf qty (group_of prec d r) /\
     In (time r) (map time (group_of prec d r)) /\ In (divisible r) (map divisible (group_of prec d r))) /\
  (exists mb ms, md = mb ++ ms /\ (forall r, In r mb -> buying r = true) /\ (forall r, In r ms -> buying r = false) /\
     StronglySorted Qclt (map price mb) /\ StronglySorted Qclt (map price ms)).
Proof. exact merge_statement. Qed.
Print Assumptions C14_merge_partition.
Example C14_example :
  match merge_same_price 1 (fun _ => 7%nat)
    (frame [B (qz 1) (qf 104 100) 4; A (qz 2) (qz 1) 5; B (qz 3) (qf 96 100) 6; B (qz 4) (qz 3) 7]) 0 with
  | Ok (md, mp, c) => (map (fun r => (this (qty r), this (price r), user r, buying r)) md, mp, c)
                      = ([(4%Q, 1%Q, 8%Z, true); (4%Q, 3%Q, 7%Z, true); (2%Q, 1%Q, 5%Z, false)], [[0; 2]; [3]; [1]]%nat, 9%Z)
  | Err _ => False
  end.
Proof. vm_compute. reflexivity. Qed.

(** C14. The rounding used for grouping: the nearest multiple of 10^-prec, halves to even. *)
Theorem C14_power :
  forall prec : Z, ((0 <= prec)%Z -> pow10 prec = qz (10 ^ prec)) /\ ((prec <= 0)%Z -> pow10 prec * qz (10 ^ (- prec)) = 1).
Proof. exact pow10_statement. Qed.
Print Assumptions C14_power.
Theorem C14_rounding :
  forall (prec : Z) (x : Qc), exists n,
  np_round prec x = qz n / pow10 prec /\
  qabs (x * pow10 prec - qz n) <= qf 1 2 /\
  (qabs (x * pow10 prec - qz n) = qf 1 2 -> Z.even n = true).
Proof. exact rounding_statement. Qed.
Print Assumptions C14_rounding.
(** to tens *)
Example C14_tens_example :
  map (fun x => this (np_round (-1) x)) [qz 15; qz 25; qz (-5); qz 26; qf 1 2] = [20; 20; 0; 30; 0]%Q.
Proof. vm_compute. reflexivity. Qed.
Example C14_rounding_example :
  map (fun x => this (np_round 1 x)) [qf 25 100; qf 35 100; qf (-25) 100; qf 26 100] = [1 # 5; 2 # 5; - 1 # 5; 3 # 10]%Q.
Proof. vm_compute. reflexivity. Qed.

(** C15. Proportional split. *)
Theorem C15_split_proportional :
  forall (tm : transmgr) (d : df) (mp : list (list nat)), map lbl d = seq 0 (length d) ->
  (forall t, In t (tm_trans tm) -> exists rs, nth_error mp (t_bid t) = Some (map lbl rs) /\
     (forall r, In r rs -> In r d) /\ qsumf qty rs <> 0) ->
  exists tm' ls, split_transactions_merged_players tm d mp None = Ok (tm', None) /\
    tm_trans tm' = concat ls /\ n_trans tm' = length (concat ls) /\
    Forall2 (fun t l => exists rows, nth_error mp (t_bid t) = Some rows /\ Split d rows t l) (tm_trans tm) ls.
Proof. exact split_statement. Qed.
Print Assumptions C15_split_proportional.
Example C15_example :
  match split_transactions_merged_players (add_all tm_init [mkTrans 1 (qz 2) (qz 7) (-1) false])
          (frame [B (qz 1) (qz 7) 0; A (qz 1) (qz 1) 1; B (qz 3) (qz 7) 2]) [[1]; [0; 2]]%nat None with
  | Ok (tm, None) => map show_t (tm_trans tm) = [(0%nat, 1 # 2, 7, (-1)%Z, false); (2%nat, 3 # 2, 7, (-1)%Z, false)]%Q
  | _ => False
  end.
Proof. vm_compute. reflexivity. Qed.

(** C16. Market.run("huang") on the submitted bids, unless all of them are bids to buy at one price (C84). *)
Theorem C16_market_run_huang :
  forall (S : sorter) (m : market) (smp : nat -> nat) (cnt : Z),
  let d := get_df (mk_bm m) in
  qty_pos d -> price_nonneg d -> ~ lone_price (np_round 5) d ->
  exists tm ex, snd (market_run S m (AHuang smp cnt)) = Ok (tm, ex) /\
    bought d (tm_trans tm) = sold d (tm_trans tm) /\ once (tm_trans tm) /\ refer d (tm_trans tm) /\
    feasible d (tm_trans tm) /\
    (tm_trans tm = [] \/ exists ps pb q, ex = XHuang ps pb q /\ q = bought d (tm_trans tm) /\ ps < pb /\
      forall t r, In t (tm_trans tm) -> In r d -> lbl r = t_bid t ->
        if buying r then t_price t = pb /\ pb < price r else t_price t = ps /\ price r < ps).
Proof. exact market_run_huang. Qed.
Print Assumptions C16_market_run_huang.
(** two buyers whose prices round to the same value share a merged bid *)
Example C16_example :
  let m := fst (accept_bid (fst (accept_bid (fst (accept_bid (fst (accept_bid (fst (accept_bid market_init
     (B (qz 1) (qf 9000001 1000000) 0))) (B (qz 3) (qf 9000002 1000000) 1))) (B (qz 1) (qz 8) 2)))
     (A (qz 2) (qz 1) 3))) (A (qz 5) (qz 6) 4)) in
  show (snd (market_run stable_sorter m (AHuang (fun _ => 0%nat) 0))) =
  Some ([(3%nat, 2, 6, (-1)%Z, false); (0%nat, 1 # 2, 8, (-1)%Z, false); (1%nat, 3 # 2, 8, (-1)%Z, false)], SH 6 8 2)%Q.
Proof. vm_compute. reflexivity. Qed.

(** C17 is false: with a fees dictionary the call raises as soon as a transaction is on a merged group
    of two or more bids, whatever the table and the fees. *)
Theorem C17_split_fees_refuted :
  forall (tm : transmgr) (d : df) (mp : list (list nat)) fees t rows,
  In t (tm_trans tm) -> nth_error mp (t_bid t) = Some rows -> (2 <= length rows)%nat ->
  exists e, split_transactions_merged_players tm d mp (Some fees) = Err e.
Proof. exact split_fees_raise. Qed.
Print Assumptions C17_split_fees_refuted.
Example C17_example :
  split_transactions_merged_players (add_all tm_init [mkTrans 0 1 1 (-1) false])
    (frame [B 1 1 0; B 1 1 1]) [[0; 1]]%nat (Some [(2%Z, 1)]) = Err AttributeError.
Proof. vm_compute. reflexivity. Qed.
(** Exactly when the call returns: every transaction is on a known group of bids of the table whose total quantity is not
    zero, and with fees on a group of at most one bid. The fees are returned as they were. *)
Theorem C17_split_returns_iff :
  forall (d : df) (mp : list (list nat)) (tm : transmgr) fees,
    (exists r, split_transactions_merged_players tm d mp fees = Ok r) <->
    forall t, In t (tm_trans tm) -> exists rows, nth_error mp (t_bid t) = Some rows /\ (forall i, In i rows -> (i < length d)%nat) /\
      (rows = [] \/ group_total d rows <> 0) /\ (fees <> None -> (length rows <= 1)%nat).
Proof. exact split_returns. Qed.
Print Assumptions C17_split_returns_iff.
Theorem C17_fees_unchanged :
  forall (d : df) (mp : list (list nat)) (tm : transmgr) fees tm' fees',
    split_transactions_merged_players tm d mp fees = Ok (tm', fees') -> fees' = fees.
Proof. exact split_fees_kept. Qed.
Print Assumptions C17_fees_unchanged.
(** What remains true: with groups of one bid only, transactions and fees are returned unchanged. *)
Theorem C17_split_fees_partial :
  forall (tm : transmgr) (d : df) (mp : list (list nat)) fees, map lbl d = seq 0 (length d) ->
  (forall t, In t (tm_trans tm) -> exists r, nth_error mp (t_bid t) = Some [lbl r] /\ In r d /\ qty r <> 0) ->
  exists tm', split_transactions_merged_players tm d mp (Some fees) = Ok (tm', Some fees) /\
    Forall2 (fun t t' => nth_error mp (t_bid t) = Some [t_bid t'] /\ t_qty t' = t_qty t /\ t_price t' = t_price t /\
               t_source t' = t_source t /\ t_active t' = t_active t) (tm_trans tm) (tm_trans tm').
Proof. exact split_fees_single. Qed.
Print Assumptions C17_split_fees_partial.
Example C17_single_example :
  match split_transactions_merged_players (add_all tm_init [mkTrans 0 1 1 (-1) false])
    (frame [B 1 1 0; B (qz 2) 1 1]) [[1]]%nat (Some [(1%Z, qz 4)]) with
  | Ok (tm, Some f) => map show_t (tm_trans tm) = [(1%nat, 1, 1, (-1)%Z, false)]%Q /\ length f = 1%nat
  | _ => False
  end.
Proof. vm_compute. split; reflexivity. Qed.

(** C18. Users of merged bids: fresh and distinct for groups, kept for single bids. *)
Theorem C18_merged_users :
  forall (prec : Z) (smp : nat -> nat) (d : df) (cnt : Z), exists md mp c,
  merge_same_price prec smp d cnt = Ok (md, mp, c) /\
  (forall i r rows, nth_error md i = Some r -> nth_error mp i = Some rows ->
     if Nat.ltb 1 (length rows) then forall x, In x d -> (user x < user r)%Z
     else exists x, In x d /\ rows = [lbl x] /\ user r = user x) /\
  (forall i j r s rows rows', nth_error md i = Some r -> nth_error mp i = Some rows ->
     nth_error md j = Some s -> nth_error mp j = Some rows' ->
     (2 <= length rows)%nat -> (2 <= length rows')%nat -> user r = user s -> i = j).
Proof. exact user_ids. Qed.
Print Assumptions C18_merged_users.
Example C18_example :
  match merge_same_price 0 (fun _ => 0%nat) (frame [B 1 1 3; B 1 1 4; A 1 1 3; A 1 1 5; A 1 (qz 2) 5]) 100 with
  | Ok (md, _, _) => map user md = [6; 7; 5]%Z
  | _ => False
  end.
Proof. vm_compute. reflexivity. Qed.

(** One generator: the user of a single bid is kept, groups get consecutive numbers from [index] on, and an empty list
    raises. *)
Theorem C18_generator :
  (forall index c, new_player_id index c = index) /\
  (forall us c, new_id us c = if Nat.eqb (length us) 0 then Err IndexError else if Nat.ltb 1 (length us) then Ok (c, (c + 1)%Z) else Ok (hd 0%Z us, c)) /\
  (forall calls c, Forall (fun us => us <> []) calls -> exists c' ids,
     fold_left (fun acc us => '(cnt, ids) <- acc ;; '(u, cnt') <- new_id us cnt ;; Ok (cnt', ids ++ [u])) calls (Ok (c, [])) = Ok (c', ids) /\
     Forall2 (fun us u => match us with [v] => u = v | _ => (c <= u < c')%Z end) calls ids /\ (c <= c')%Z).
Proof. exact generator_calls. Qed.
Print Assumptions C18_generator.

(** The counter is shared: creating a second generator makes the first one return an id again. *)
Theorem C18_interleaved_generators_refuted :
  exists (index1 index2 : Z) (us1 us2 : list Z) (u1 u2 c1 c3 : Z),
    let c0 := new_player_id index1 0 in                 (* g1 = new_player_id(index1) *)
    new_id us1 c0 = Ok (u1, c1) /\                      (* u1 = g1(us1) *)
    let c2 := new_player_id index2 c1 in                (* g2 = new_player_id(index2) *)
    new_id us2 c2 = Ok (u2, c3) /\                      (* u2 = g1(us2) *)
    (length us1 > 1)%nat /\ (length us2 > 1)%nat /\ us1 <> us2 /\ u1 = u2.
Proof. exact shared_counter. Qed.
Print Assumptions C18_interleaved_generators_refuted.
