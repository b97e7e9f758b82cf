(** C100. Markets made of generated bids: which runs succeed, and what the offsets mean. *)
From Verif Require Import QcTac Num ModelBase ModelHuang ModelMuda ModelP2P ModelMerge ModelDatasets ModelMarket ModelStats Spec SpecTrade SpecMerge SpecAlloc SpecStats SpecHuang SpecShort SpecGen
  Sorter Conform Solver PropertiesStats GenFacts GenIdle GenTop.

(** The table of the market: buyers first, one user per bid, positions as users, quantities in [0, 1), prices of each side
    different and in the unit interval that starts at the offset of the side. *)
Theorem C100_table :
  forall (nb ns : nat) (os ob : Qc) (bs : list bid), made nb ns os ob bs -> let d := table_of bs in
    length d = (nb + ns)%nat /\ map lbl d = seq 0 (nb + ns) /\ map user d = map Z.of_nat (seq 0 (nb + ns)) /\ prices_distinct d /\
    forall r, In r d -> user r = Z.of_nat (lbl r) /\ 0 <= qty r /\ qty r < 1 /\
      (buying r = true <-> (lbl r < nb)%nat) /\ (if buying r then ob <= price r /\ price r < ob + 1 else os <= price r /\ price r < os + 1).
Proof. exact made_table. Qed.
Print Assumptions C100_table.

(** With any positive grid size there is such a market. *)
Theorem C100_exists :
  forall nb ns os ob (r : chooser) eps, 0 < eps -> exists bs, generate nb ns os ob r eps = Ok bs /\ made nb ns os ob bs.
Proof. exact made_exists. Qed.
Print Assumptions C100_exists.

(** Peer to peer runs never fail, and neither do MUDA runs (which toss one coin per bid). *)
Theorem C100_p2p :
  forall (bs : list bid) (S : sorter) c r, exists tm ex, snd (market_run S (market_of bs) (AP2P c r)) = Ok (tm, ex).
Proof. exact made_p2p. Qed.
Print Assumptions C100_p2p.
Theorem C100_muda :
  forall nb ns os ob (bs : list bid), made nb ns os ob bs -> forall (S : sorter) fl, length fl = (nb + ns)%nat ->
    exists tm ex, snd (market_run S (market_of bs) (AMuda fl)) = Ok (tm, ex).
Proof. exact made_muda. Qed.
Print Assumptions C100_muda.

(** Huang runs fail exactly when there is trade and a bid that trades has, with the bids of its side at its rounded price, no quantity. *)
Theorem C100_huang :
  forall nb ns os ob (bs : list bid), made nb ns os ob bs -> forall (S : sorter) smp cnt, 0 < np_round 5 os -> 0 <= os -> 0 <= ob -> (0 < ns)%nat ->
    (zero_wins (table_of bs) -> snd (market_run S (market_of bs) (AHuang smp cnt)) = Err NaNProduced) /\
    (~ zero_wins (table_of bs) -> exists tm ex, snd (market_run S (market_of bs) (AHuang smp cnt)) = Ok (tm, ex)).
Proof. exact made_huang. Qed.
Print Assumptions C100_huang.
Theorem C100_huang_positive :
  forall nb ns os ob (bs : list bid), made nb ns os ob bs -> forall (S : sorter) smp cnt, qty_pos (table_of bs) -> 0 <= os -> 0 <= ob -> (0 < ns)%nat ->
    exists tm ex, snd (market_run S (market_of bs) (AHuang smp cnt)) = Ok (tm, ex).
Proof. exact made_huang_pos. Qed.
Print Assumptions C100_huang_positive.

(** Offsets [ob + 1 <= os]: nothing is traded by any mechanism; the Huang auction returns no transactions; both shares are 0/0; and after the
    Huang auction [statistics] raises unless the profits are excluded. *)
Theorem C100_apart :
  forall nb ns os ob (bs : list bid), made nb ns os ob bs -> forall S : sorter, ob + 1 <= os ->
    (forall c r tm ex, snd (market_run S (market_of bs) (AP2P c r)) = Ok (tm, ex) -> idle (tm_trans tm)) /\
    (forall fl tm ex, snd (market_run S (market_of bs) (AMuda fl)) = Ok (tm, ex) -> idle (tm_trans tm)) /\
    (0 <= ob -> (0 < ns)%nat -> forall smp cnt, exists tm, snd (market_run S (market_of bs) (AHuang smp cnt)) = Ok (tm, XEmpty) /\ tm_trans tm = []).
Proof. exact made_apart. Qed.
Print Assumptions C100_apart.
Theorem C100_apart_shares :
  forall nb ns os ob (bs : list bid), made nb ns os ob bs -> forall (S : sorter) sv a rp, ob + 1 <= os -> solver_ok sv ->
    let m' := fst (market_run S (market_of bs) a) in
    percentage_traded sv (get_df (mk_bm m')) (tm_trans (mk_trans m')) = Ok None /\
    percentage_welfare sv (get_df (mk_bm m')) (tm_trans (mk_trans m')) rp = Ok None.
Proof. exact made_apart_shares. Qed.
Print Assumptions C100_apart_shares.
Theorem C100_apart_statistics :
  forall nb ns os ob (bs : list bid), made nb ns os ob bs -> forall (S : sorter) sv smp cnt rp ex,
    ob + 1 <= os -> 0 <= ob -> (0 < ns)%nat -> solver_ok sv -> ~ In SProfits ex ->
    snd (statistics sv (fst (market_run S (market_of bs) (AHuang smp cnt))) rp ex) = Err ValueError.
Proof. exact made_apart_stats. Qed.
Print Assumptions C100_apart_statistics.
(** docs/"Efficiency and performance.ipynb": [generate(i, i, 2, 1)], [run('huang')], [statistics()] *)
Theorem C100_notebook :
  forall (S : sorter) sv i (bs : list bid) smp cnt, (0 < i)%nat -> made i i (qz 2) 1 bs -> solver_ok sv ->
    snd (statistics sv (fst (market_run S (market_of bs) (AHuang smp cnt))) None []) = Err ValueError.
Proof. exact notebook. Qed.
Print Assumptions C100_notebook.

(** Offsets [os + 1 <= ob]: every peer to peer run trades all of the short side, so the share of the volume is 1, or 0/0 if one side has no quantity. *)
Theorem C100_over :
  forall nb ns os ob (bs : list bid), made nb ns os ob bs -> forall (S : sorter) sv c r tm ex, os + 1 <= ob -> solver_ok sv ->
    snd (market_run S (market_of bs) (AP2P c r)) = Ok (tm, ex) ->
    let d := table_of bs in let best := qmin (total_demand d) (total_supply d) in
    bought d (tm_trans tm) = best /\ percentage_traded sv d (tm_trans tm) = Ok (if qltb 0 best then Some 1 else None).
Proof. exact made_over. Qed.
Print Assumptions C100_over.

(** The auction on the generated table gives up less than one unit of the quantity at which the curves cross. *)
Theorem C100_loss :
  forall nb ns os ob (bs : list bid), made nb ns os ob bs -> forall (S : sorter) tm ps pb q, qty_pos (table_of bs) -> 0 <= os -> 0 <= ob ->
    huang_auction S (table_of bs) = Ok (tm, XHuang ps pb q) ->
    exists c, Marginal (table_of bs) ps pb c /\ bought (table_of bs) (tm_trans tm) < c /\ c < bought (table_of bs) (tm_trans tm) + 1.
Proof. exact made_loss. Qed.
Print Assumptions C100_loss.

(** the first positions of the grid, in order, except for the prices of the buyers, which fall; [z] = false leaves position 0 out if it can *)
Definition drawn (z : bool) (k n q : nat) : list nat :=
  let l := if z then seq 0 q else if Nat.ltb q n then seq 1 q else seq 0 q in if Nat.eqb k 1 then rev l else l.
Lemma drawn_len z k n q : (q <= n)%nat -> length (drawn z k n q) = q.
Proof. intros _. unfold drawn. destruct z, (Nat.ltb q n), (Nat.eqb k 1); rewrite ?rev_length, ?seq_length; reflexivity. Qed.
Lemma drawn_nodup z k n q : (q <= n)%nat -> NoDup (drawn z k n q).
Proof. intros _. unfold drawn. destruct z, (Nat.ltb q n), (Nat.eqb k 1); try apply NoDup_rev; apply seq_NoDup. Qed.
Lemma drawn_range z k n q i : (q <= n)%nat -> In i (drawn z k n q) -> (i < n)%nat.
Proof.
  intros L. unfold drawn. destruct z; [|destruct (Nat.ltb_spec q n)]; destruct (Nat.eqb k 1); rewrite <- ?in_rev, in_seq; lia.
Qed.
Definition chooser_of (z : bool) : chooser := mkChooser (drawn z) (drawn_len z) (drawn_nodup z) (drawn_range z).
Definition drawn_bids (nb ns : nat) (os ob : Qc) (z : bool) : list bid :=
  match generate nb ns os ob (chooser_of z) (qf 1 4) with Ok l => l | Err _ => [] end.
Lemma drawn_made nb ns os ob z : made nb ns os ob (drawn_bids nb ns os ob z).
Proof.
  destruct (made_exists nb ns os ob (chooser_of z) (qf 1 4)) as (bs & E & M); [reflexivity|]. unfold drawn_bids. rewrite E. exact M.
Qed.

(** [run('huang')] does fail for some generated bids: quantity 0 can be drawn. *)
Theorem C100_huang_always_refuted :
  exists nb ns os ob bs S smp cnt, made nb ns os ob bs /\ 0 < np_round 5 os /\ 0 <= ob /\ (0 < ns)%nat /\
    snd (market_run S (market_of bs) (AHuang smp cnt)) = Err NaNProduced.
Proof.
  exists 3%nat, 3%nat, 1, (qz 2), (drawn_bids 3 3 1 (qz 2) true), SS, (fun _ => 0%nat), 0%Z.
  split; [apply drawn_made|]. split; [reflexivity|]. split; [discriminate|]. split; [repeat constructor|]. vm_compute. reflexivity.
Qed.
Print Assumptions C100_huang_always_refuted.

Definition show_run (x : res (transmgr * extra)) : option (list (nat * Q)) :=
  match x with Ok (tm, _) => Some (map (fun t => (t_bid t, this (t_qty t))) (tm_trans tm)) | Err _ => None end.
(** three buyers and three sellers with quantities 1/4, 1/2, 3/4, with the offsets of the notebook and the other way round *)
Example C100_example :
  let m := market_of (drawn_bids 3 3 (qz 2) 1 false) in let m' := market_of (drawn_bids 3 3 1 (qz 2) false) in
  let hu := AHuang (fun _ => 0%nat) 0 in let p2p := AP2P (qf 1 2) (fun _ => 0%nat) in
  map (fun r => (this (qty r), this (price r))) (get_df (mk_bm m'))
    = [(1#4, 11#4); (1#2, 5#2); (3#4, 9#4); (1#4, 5#4); (1#2, 3#2); (3#4, 7#4)]%Q /\
  show_run (snd (market_run SS m hu)) = Some [] /\
  snd (statistics fm_solver (fst (market_run SS m hu)) None []) = Err ValueError /\
  show_run (snd (market_run SS m' hu)) = Some [(3%nat, 1#4); (4%nat, 1#2); (0%nat, 1#4); (1%nat, 1#2)]%Q /\
  this (bought (get_df (mk_bm m')) (tm_trans (mk_trans (fst (market_run SS m' p2p))))) = (3#2)%Q.
Proof. vm_compute. auto 10. Qed.
