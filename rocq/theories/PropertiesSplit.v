(** Property C94: one bid sent as several, possibly under other names. *)
From Verif Require Import QcTac Num ModelBase ModelCurves ModelHuang ModelMuda ModelP2P ModelUniform Spec SpecTrade SpecMuda SpecHuang SpecAlloc SpecP2P SpecChance SpecSplit
  Sorter Conform PlotWitness SplitTop SplitUniform SplitChance SplitWitness.

(** C94, MUDA.  A user who sends one bid as two, the second one under a new name, keeps no more in total, if both pieces and
    all bids of this user are drawn to one half and are on one side. *)
Theorem C94_muda_names :
  forall (S : sorter) l1 l2 l3 r x1 x2 fl fl' tm tm' L R L' R' pl pr pl' pr' fees fees',
    let d := l1 ++ r :: l2 ++ l3 in let d' := l1 ++ x1 :: l2 ++ x2 :: l3 in
    qty_nonneg d -> labels_unique d -> labels_unique d' -> (forall x, In x d -> (0 <= user x)%Z) -> (0 <= user x2)%Z ->
    pieces_of r [x1; x2] -> user x1 = user r -> (forall x, In x d -> user x <> user x2) ->
    muda S d fl = Ok (tm, XMuda L R pl pr fees) -> muda S d' fl' = Ok (tm', XMuda L' R' pl' pr' fees') ->
    (forall x, In x (l1 ++ l2 ++ l3) -> (In (lbl x) L <-> In (lbl x) L')) ->
    (In (lbl x1) L' <-> In (lbl r) L) /\ (In (lbl x2) L' <-> In (lbl r) L) ->
    (forall x, In x d -> user x = user r -> buying x = buying r /\ (In (lbl x) L <-> In (lbl r) L)) ->
    net d' (tm_trans tm') fees' (user r) + net d' (tm_trans tm') fees' (user x2) <= net d (tm_trans tm) fees (user r).
Proof. exact muda_names. Qed.
Print Assumptions C94_muda_names.
(** Whoever else has all bids in that half and on one side keeps exactly as much as before. *)
Theorem C94_muda_rest :
  forall (S : sorter) l1 l2 l3 r x1 x2 fl fl' tm tm' L R L' R' pl pr pl' pr' fees fees',
    let d := l1 ++ r :: l2 ++ l3 in let d' := l1 ++ x1 :: l2 ++ x2 :: l3 in
    qty_nonneg d -> labels_unique d -> labels_unique d' -> (forall x, In x d -> (0 <= user x)%Z) -> (0 <= user x2)%Z ->
    pieces_of r [x1; x2] -> user x1 = user r ->
    muda S d fl = Ok (tm, XMuda L R pl pr fees) -> muda S d' fl' = Ok (tm', XMuda L' R' pl' pr' fees') ->
    (forall x, In x (l1 ++ l2 ++ l3) -> (In (lbl x) L <-> In (lbl x) L')) ->
    (In (lbl x1) L' <-> In (lbl r) L) /\ (In (lbl x2) L' <-> In (lbl r) L) ->
    forall v b, (0 <= v)%Z -> v <> user r -> v <> user x2 ->
    (forall x, In x d -> user x = v -> buying x = b /\ (In (lbl x) L <-> In (lbl r) L)) ->
    net d' (tm_trans tm') fees' v = net d (tm_trans tm) fees v.
Proof. exact muda_rest. Qed.
Print Assumptions C94_muda_rest.
(** Refuted when the pieces may be drawn to different halves: the two names can keep more. *)
Theorem C94_muda_halves_refuted :
  ~ (forall (S : sorter) l1 l2 l3 r x1 x2 fl fl' tm tm' L R L' R' pl pr pl' pr' fees fees',
    let d := l1 ++ r :: l2 ++ l3 in let d' := l1 ++ x1 :: l2 ++ x2 :: l3 in
    qty_nonneg d -> labels_unique d -> labels_unique d' -> (forall x, In x d -> (0 <= user x)%Z) -> (0 <= user x2)%Z ->
    pieces_of r [x1; x2] -> user x1 = user r -> (forall x, In x d -> user x <> user x2) ->
    muda S d fl = Ok (tm, XMuda L R pl pr fees) -> muda S d' fl' = Ok (tm', XMuda L' R' pl' pr' fees') ->
    (forall x, In x (l1 ++ l2 ++ l3) -> (In (lbl x) L <-> In (lbl x) L')) -> (In (lbl x1) L' <-> In (lbl r) L) ->
    (forall x, In x d -> user x = user r -> x = r) ->
    net d' (tm_trans tm') fees' (user r) + net d' (tm_trans tm') fees' (user x2) <= net d (tm_trans tm) fees (user r)).
Proof. exact names_pay. Qed.
Print Assumptions C94_muda_halves_refuted.

(** C94, the uniform price mechanism.  Cutting a bid into any number of pieces changes no quantity: the others trade what they
    traded, and the pieces trade together what the bid did.  The price stays, unless the bid was served in part; then it may
    move from the bid's price to the middle of the two marginal prices, which is better for the pieces. *)
Theorem C94_uniform :
  forall (S S' : sorter) d d' r l o tm c p, qty_pos d -> price_nonneg d -> labels_unique d -> labels_unique d' -> prices_distinct d -> asks_pos d ->
    pieces_of r l -> Permutation d (r :: o) -> Permutation d' (l ++ o) -> uniform_run S d = Ok (tm, XUniform (Fin c) (Fin p)) ->
    exists tm' p', uniform_run S' d' = Ok (tm', XUniform (Fin c) (Fin p')) /\
      (forall x, In x o -> traded_by (lbl x) (tm_trans tm') = traded_by (lbl x) (tm_trans tm)) /\
      qsumf (fun x => traded_by (lbl x) (tm_trans tm')) l = traded_by (lbl r) (tm_trans tm) /\
      (p' = p \/ (0 < traded_by (lbl r) (tm_trans tm) /\ traded_by (lbl r) (tm_trans tm) < qty r /\ p = price r /\
         exists ps pb, Marginal d ps pb c /\ price r = (if buying r then pb else ps) /\ p' = (ps + pb) / qz 2)) /\
      (if buying r then p' <= p else p <= p').
Proof. exact uniform_pieces. Qed.
Print Assumptions C94_uniform.
(** Refuted: the price does not always stay. *)
Theorem C94_uniform_price_refuted :
  ~ (forall (S S' : sorter) (d d' : df) r l o tm c p tm' c' p', qty_pos d -> price_nonneg d -> labels_unique d -> labels_unique d' -> prices_distinct d -> asks_pos d ->
    pieces_of r l -> Permutation d (r :: o) -> Permutation d' (l ++ o) ->
    uniform_run S d = Ok (tm, XUniform (Fin c) (Fin p)) -> uniform_run S' d' = Ok (tm', XUniform (Fin c') (Fin p')) -> p' = p).
Proof. exact price_moves. Qed.
Print Assumptions C94_uniform_price_refuted.

(** C94, random meetings.  Sending a bid as two or more pieces lowers the chance of every single pair to meet first, but the
    pieces together meet a given partner first with a higher chance than the bid did, if there is another bid on their side. *)
Theorem C94_p2p :
  forall l1 b l2 ps c M K M' K', (forall q, In q ps -> b_buying q = b_buying b) -> (2 <= length ps)%nat ->
    let d := rows_from 0 (l1 ++ b :: l2) in let d' := rows_from 0 (l1 ++ ps ++ l2) in
    qty_pos d -> qty_pos d' -> fair M (pairs_count d) -> (pairs_count d <= K)%nat -> fair M' (pairs_count d') -> (pairs_count d' <= K')%nat ->
    forall x y x' y', In x d -> In y d -> buying x = true -> buying y = false -> In x' d' -> In y' d' -> buying x' = true -> buying y' = false ->
      share M' K' (p2p_random d' c) (met_first (lbl x', lbl y')) < share M K (p2p_random d c) (met_first (lbl x, lbl y)) /\
      ((exists q, In q (l1 ++ l2) /\ b_buying q = b_buying b) ->
        share M K (p2p_random d c) (met_first (lbl x, lbl y)) < num_of (length ps) * share M' K' (p2p_random d' c) (met_first (lbl x', lbl y'))).
Proof. exact p2p_pieces. Qed.
Print Assumptions C94_p2p.

(** The ask 3@6 sends 2@6 and 1@6: it still sells 2, at 7 instead of 6. *)
Example C94_ex_uniform :
  map (fun d => match uniform_run SS d with Ok (tm, XUniform (Fin c) (Fin p)) => Some (this c, this p, this (traded_by 3 (tm_trans tm)), this (traded_by 1 (tm_trans tm))) | _ => None end) [whole_u; cut_u] =
  [Some (4, 6, 2, 1); Some (4, 7, 2, 1)]%Q.
Proof. vm_compute. reflexivity. Qed.
(** The buyer of 2@10 keeps 7; as two names in one half, which push each other out and pay for it, it keeps 0; in two halves 9. *)
Example C94_ex_muda :
  map (fun '(d, f) => match muda SS d f with Ok (tm, XMuda _ _ _ _ fees) => Some (this (net d (tm_trans tm) fees 0), this (net d (tm_trans tm) fees 4), this (net d (tm_trans tm) fees 1)) | _ => None end)
    [(whole_m, flips_m); (cut_m, flips_left); (cut_m, flips_right)] = [Some (7, 0, 2); Some (0, 0, 2); Some (9 # 2, 9 # 2, 9 # 2)]%Q.
Proof. vm_compute. reflexivity. Qed.
(** Two buyers and one ask: each is first with chance 1/2; after one of them became two, with chance 1/3. *)
Example C94_ex_p2p :
  (this (share 6 3 (p2p_random (frame [B (qz 2) (qz 5) 0; B 1 (qz 5) 1; A 1 1 2]) (1 / qz 2)) (met_first (1, 2)%nat)),
   this (share 6 3 (p2p_random (frame [B 1 (qz 5) 0; B 1 (qz 5) 3; B 1 (qz 5) 1; A 1 1 2]) (1 / qz 2)) (met_first (2, 3)%nat))) = (1 # 2, 1 # 3)%Q.
Proof. vm_compute. reflexivity. Qed.
