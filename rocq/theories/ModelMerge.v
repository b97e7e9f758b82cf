(** Model of pymarket/bids/processing.py and pymarket/transactions/processing.py. *)
From Coq Require Import QArith.Qround.
From Verif Require Import QcTac Num ModelBase ModelHuang.

(** [np.rint] on an exact number: nearest integer, halves to even. *)
Definition rint (x : Qc) : Z :=
  let f := Qfloor (this x) in
  let r := x - qz f in
  if qltb r (qf 1 2) then f
  else if qltb (qf 1 2) r then (f + 1)%Z
  else if Z.even f then f else (f + 1)%Z.

(** [np.round(x, prec)]: [rint(x * 10^prec) / 10^prec], with a negative [prec] [rint(x / 10^-prec) * 10^-prec] *)
Definition pow10 (prec : Z) : Qc := if (0 <=? prec)%Z then qz (10 ^ prec) else 1 / qz (10 ^ (- prec)).
Definition np_round (prec : Z) (x : Qc) : Qc := qz (rint (x * pow10 prec)) / pow10 prec.

(** bids/processing.py:12-76 [new_player_id].  The counter is an attribute of the function object
    (line 40), hence one global cell shared by all generators.  Creating a generator sets it. *)
Definition new_player_id (index : Z) (counter : Z) : Z := index.
(** processing.py:66-73: calling a generator; returns the id and the new counter.
    [users[0]] of an empty list raises IndexError. *)
Definition new_id (users : list Z) (counter : Z) : res (Z * Z) :=
  match users with
  | _ :: _ :: _ => Ok (counter, (counter + 1)%Z)
  | [u] => Ok (u, counter)
  | [] => Err IndexError
  end.

(** keys of [groupby]: the distinct values in ascending order *)
Fixpoint qinsert (x : Qc) (l : list Qc) : list Qc :=
  match l with
  | [] => [x]
  | y :: r => if qltb x y then x :: l else if qeqb x y then l else y :: qinsert x r
  end.
Definition group_keys (l : list Qc) : list Qc := fold_right qinsert [] l.

(** [x.sample(1)]: a random element of the group; [smp] is the oracle *)
Definition sample {A} (smp : nat -> nat) (k : nat) (l : list A) (dflt : A) : A :=
  nth (Nat.modulo (smp k) (length l)) l dflt.

(** [df.user.max()]; pandas gives nan for an empty frame, where the value is never used *)
Definition user_max (d : df) : Z :=
  match d with [] => 0%Z | r :: t => fold_left Z.max (map user t) (user r) end.

(** processing.py:246-249 for one side: groups in price order.  [g] numbers the groups (it is the
    final index after the concat) and seeds the sampling oracle. *)
Fixpoint merge_groups (prec : Z) (smp : nat -> nat) (side : df) (keys : list Qc) (g : nat) (cnt : Z)
  : res (list (row * list nat) * nat * Z) :=
  match keys with
  | [] => Ok ([], g, cnt)
  | k :: r =>
      let rows := filter (fun x => qeqb (np_round prec (price x)) k) side in
      '(u, cnt1) <- new_id (map user rows) cnt ;;
      let new := mkRow g (qsum (map qty rows)) k u
                   (sample smp (3 * g) (map buying rows) true)
                   (sample smp (3 * g + 1) (map time rows) 0)
                   (sample smp (3 * g + 2) (map divisible rows) true) in
      '(rest, g', cnt2) <- merge_groups prec smp side r (S g) cnt1 ;;
      Ok ((new, map lbl rows) :: rest, g', cnt2)
  end.

Definition side_keys (prec : Z) (side : df) : list Qc :=
  group_keys (map (fun x => np_round prec (price x)) side).

(** processing.py:79-270 [merge_same_price]: the merged frame and the mapping from its index
    (0..n-1, hence a list) to lists of original labels.  [cnt0] is the value of the global counter
    before the call. *)
Definition merge_same_price (prec : Z) (smp : nat -> nat) (d : df) (cnt0 : Z)
  : res (df * list (list nat) * Z) :=
  let c0 := new_player_id (user_max d + 1)%Z cnt0 in
  let buy := buyers d in
  let sell := sellers d in
  '(mb, g1, c1) <- merge_groups prec smp buy (side_keys prec buy) 0 c0 ;;
  '(ms, _, c2) <- merge_groups prec smp sell (side_keys prec sell) g1 c1 ;;
  Ok (map fst (mb ++ ms), map snd (mb ++ ms), c2).

(** [bids.iloc[rows, :]]: by position *)
Fixpoint iloc (d : df) (rows : list nat) : res df :=
  match rows with
  | [] => Ok []
  | i :: r =>
      match nth_error d i with
      | None => Err IndexError
      | Some x => xs <- iloc d r ;; Ok (x :: xs)
      end
  end.

(** transactions/processing.py:53-79, one transaction.  The lookup [perc[r]] is by label in the
    selected rows; frames coming from BidManager have labels equal to positions and the model uses
    the selected row itself.  A zero group total makes the code write nan quantities (0/0); the
    model stops with [NaNProduced] instead.  [has_fees] tells whether a fees dictionary was given:
    for a group of two or more the code reads [t.user], which transactions do not have. *)
Definition split_one (bids : df) (maping : list (list nat)) (has_fees : bool) (t : trans)
  : res (list trans) :=
  match nth_error maping (t_bid t) with
  | None => Err KeyError
  | Some rows =>
      rs <- iloc bids rows ;;
      let total := qsum (map qty rs) in
      if Nat.ltb 1 (length rows) && has_fees then Err AttributeError
      else if qeqb total 0 then
        match rows with [] => Ok [] | _ => Err NaNProduced end
      else Ok (map (fun ir => mkTrans (fst ir) (t_qty t * (qty (snd ir) / total))
                                (t_price t) (t_source t) (t_active t))
                   (combine rows rs))
  end.

Fixpoint split_list (bids : df) (maping : list (list nat)) (has_fees : bool) (ts : list trans)
  (acc : transmgr) : res transmgr :=
  match ts with
  | [] => Ok acc
  | t :: r =>
      l <- split_one bids maping has_fees t ;;
      split_list bids maping has_fees r (add_all acc l)
  end.

(** transactions/processing.py:10-79 [split_transactions_merged_players].  When it returns, a given
    fees dictionary is returned unchanged. *)
Definition split_transactions_merged_players (transactions : transmgr) (bids : df)
  (maping : list (list nat)) (fees : option (list (Z * Qc)))
  : res (transmgr * option (list (Z * Qc))) :=
  tm <- split_list bids maping (match fees with Some _ => true | None => false end)
          (tm_trans transactions) tm_init ;;
  Ok (tm, fees).
