(** The worked examples of the documentation (doctests and unit tests of /repo) replayed in the model.
    These are tests of the model, not proofs of properties. *)
From Verif Require Import QcTac Num ModelBase ModelCurves ModelHuang ModelMuda ModelP2P ModelMerge
  ModelMarket ModelStats ModelDatasets Sorter.

Notation SS := stable_sorter.
Definition B (q p : Qc) (u : Z) : bid := mkBid q p u true 0 true.
Definition A (q p : Qc) (u : Z) : bid := mkBid q p u false 0 true.
Definition frame (l : list bid) : df := rows_from 0 l.

Definition show_t (t : trans) := (t_bid t, this (t_qty t), this (t_price t), t_source t, t_active t).
Definition show_num (n : num) : option Q := match n with Fin q => Some (this q) | _ => None end.
Inductive xshow :=
| SE | SH (a b c : Q) | SM (l r : list nat) (pl pr : option Q) (f : list Q) | SP (l : list (list (nat * nat)))
| SU (q p : option Q).
Definition show_x (x : extra) :=
  match x with
  | XEmpty => SE
  | XHuang a b c => SH (this a) (this b) (this c)
  | XMuda l r pl pr f => SM l r (show_num pl) (show_num pr) (map this f)
  | XP2P l => SP l
  | XUniform q p => SU (show_num q) (show_num p)
  end.
Definition show (r : res (transmgr * extra)) :=
  match r with Ok (t, x) => Some (map show_t (tm_trans t), show_x x) | Err _ => None end.
Definition show_list (r : res (list Qc)) := match r with Ok l => Some (map this l) | Err _ => None end.
Definition show_curve (c : curve) := map (fun p => (show_num (fst p), show_num (snd p))) c.

Local Open Scope Q_scope.

(** demand_curves.py:52-67 *)
Example doc_demand :
  let d := frame [B (qz 1) (qz 1) 0; A (qz 2) (qz 2) 1; B (qz 3) (qf 1 2) 2; B (qf 23 10) (qf 1 10) 3]%Qc in
  let '(c, i) := demand_curve_from_bids SS d in
  (show_curve c, i) =
  ([(Some 1, Some 1); (Some 4, Some (1#2)); (Some (63#10), Some (1#10)); (None, Some 0)], [0;2;3]%nat).
Proof. vm_compute. reflexivity. Qed.

Definition show_int (r : res (option num * option nat * option nat * num)) :=
  match r with
  | Ok (x, a, b, v) => Some (option_map show_num x, a, b, show_num v)
  | Err _ => None
  end.
Definition crv (l : list (Qc * Qc)) : curve := map (fun p => (Fin (fst p), Fin (snd p))) l.
(** demand_curves.py:257-271 *)
Example doc_intersect_1 :
  show_int (intersect_stepwise (crv [(qz 1, qz 3); (qz 3, qz 1)]) (crv [(qz 2, qz 2)]) (qf 1 2))
  = Some (Some (Some 1), Some 0%nat, Some 0%nat, Some 2).
Proof. vm_compute. reflexivity. Qed.
Example doc_intersect_2 :
  show_int (intersect_stepwise (crv [(qz 1, qz 3); (qz 2, qf 5 2)]) (crv [(qz 1, qz 1); (qz 2, qz 2)]) (qf 1 2))
  = Some (None, None, None, Some (9#4)).
Proof. vm_compute. reflexivity. Qed.

(** huang_auction.py:36-44 *)
Example doc_update_1 : show_list (update_quantity [qz 1; qz 2; qz 3] (qf 6 10)) = Some [4#5; 9#5; 14#5].
Proof. vm_compute. reflexivity. Qed.
Example doc_update_2 : show_list (update_quantity [qz 1; qf 1 2; qz 2] (qf 18 10)) = Some [7#20; 0; 27#20].
Proof. vm_compute. reflexivity. Qed.
(** huang_auction.py:104-132 *)
Example doc_huang_1 : show (huang_auction SS (frame [B (qz 1) (qz 3) 0; B (qz 2) (qz 1) 1; A (qz 2) (qz 2) 2]))
  = Some ([], SH 2 3 0).
Proof. vm_compute. reflexivity. Qed.
Example doc_huang_2 : show (huang_auction SS (frame
    [B (qz 1) (qz 3) 0; B (qz 2) (qz 1) 1; A (qz 2) (qz 2) 2; A (qf 3 10) (qz 1) 3; B (qf 2 10) (qf 33 10) 4]))
  = Some ([(3%nat, 1#5, 2, (-1)%Z, false); (4%nat, 1#5, 3, (-1)%Z, false)], SH 2 3 (1#5)).
Proof. vm_compute. reflexivity. Qed.

(** muda_auction.py:57-101 *)
Definition muda_bids := [B (qz 1) (qz 4) 0; B (qz 1) (qz 2) 1; A (qz 1) (qz 3) 2; A (qz 1) (qz 1) 3].
Example doc_muda_1 : show (muda SS (frame muda_bids) [false; false; false; false])
  = Some ([], SM [] [0;1;2;3]%nat None (Some (5#2)) [0;0;0;0]).
Proof. vm_compute. reflexivity. Qed.
Example doc_muda_2 : show (muda SS (frame muda_bids) [false; true; false; true])
  = Some ([], SM [1;3]%nat [0;2]%nat (Some (3#2)) (Some (7#2)) [0;0;0;0]).
Proof. vm_compute. reflexivity. Qed.
Example doc_muda_3 : show (muda SS (frame (muda_bids ++ [B (qz 1) (qz 5) 4])) [false; true; false; true; true])
  = Some ([(3%nat, 1, 7#2, (-1)%Z, false); (4%nat, 1, 7#2, (-1)%Z, false);
           (2%nat, 1, 3, (-1)%Z, false); (0%nat, 1, 3, (-1)%Z, false)],
          SM [1;3;4]%nat [0;2]%nat (Some 3) (Some (7#2)) [0;0;0;0;0]).
Proof. vm_compute. reflexivity. Qed.
(** muda_auction.py:161-178 *)
Example doc_solve_side :
  match solve_market_side SS (frame [B (qz 1) (qz 3) 0; B (qz 1) (qf 1 2) 1; A (qz 1) (qz 1) 2; A (qz 1) (qz 2) 3])
          (Fin (qf 5 2)) [0;0;0;0]%Qc with
  | Ok (t, f) => Some (map show_t (tm_trans t), map this f)
  | Err _ => None
  end = Some ([(0%nat, 1, 5#2, (-1)%Z, false); (2%nat, 1, 5#2, (-1)%Z, false)], [0;0;1#2;0]).
Proof. vm_compute. reflexivity. Qed.
(** muda_auction.py:264-305 *)
Definition show_df (d : df) := map (fun r => (lbl r, this (qty r), this (price r), user r, buying r)) d.
Example doc_trading_bids_1 :
  match get_trading_bids (frame [B (qz 1) (qz 3) 0; B (qz 1) (qz 2) 1]) (qz 1) with
  | Ok (d, i) => Some (show_df d, i) | Err _ => None end
  = Some ([(0%nat, 1, 3, 0%Z, true); (1%nat, 1, 2, 1%Z, true)], 0%nat).
Proof. vm_compute. reflexivity. Qed.
Example doc_trading_bids_2 :
  match get_trading_bids (frame [B (qz 1) (qz 3) 0; B (qz 1) (qz 2) 1]) (qf 3 10) with
  | Ok (d, i) => Some (show_df d, i) | Err _ => None end
  = Some ([(0%nat, 3#10, 3, 0%Z, true); (0%nat, 7#10, 3, 0%Z, true); (1%nat, 1, 2, 1%Z, true)], 0%nat).
Proof. vm_compute. reflexivity. Qed.
(** muda_auction.py:373-381 *)
Example doc_fee : this (compute_fee (indexed (frame [B (qz 1) (qz 1) 1; B (qz 1) (qz 2) 3])) 0 1 (qz 1) (qf 5 2)) = 1#2.
Proof. vm_compute. reflexivity. Qed.

(** p2p_random.py:51-70; the draws 1 (of 0..3) and 0 reproduce the documented run *)
Example doc_p2p :
  show (p2p_random (frame [B (qz 1) (qz 3) 0; B (qz 1) (qf 1 2) 1; A (qz 1) (qz 1) 2; A (qz 1) (qz 2) 3])
          (qf 1 2) (fun k => match k with O => 1 | _ => 0 end)%nat)
  = Some ([(0%nat, 1, 5#2, 3%Z, false); (3%nat, 1, 5#2, 0%Z, false);
           (1%nat, 0, 0, 2%Z, true); (2%nat, 0, 0, 1%Z, true)], SP [[(0,3);(1,2)]%nat]).
Proof. vm_compute. reflexivity. Qed.

(** bids/processing.py:107-135 *)
Example doc_merge :
  match merge_same_price 5 (fun k => k) (frame
    [B (qf 3 10) (qz 1) 0; B (qf 7 10) (qz 1) 1; A (qz 2) (qz 1) 2;
     A (qz 1) (qf 2444446 1000000) 3; A (qz 3) (qf 2444447 1000000) 4]) 0 with
  | Ok (d, m, _) => Some (show_df d, m) | Err _ => None end
  = Some ([(0%nat, 1, 1, 5%Z, true); (1%nat, 2, 1, 2%Z, false); (2%nat, 4, 48889#20000, 6%Z, false)],
          [[0;1];[2];[3;4]]%nat).
Proof. vm_compute. reflexivity. Qed.

(** transactions/processing.py:37-51 *)
Example doc_split :
  match split_transactions_merged_players (add_all tm_init [mkTrans 0 1 1 (-1) false]%Qc)
          (frame [B (qz 1) (qz 1) 0; B (qz 2) (qz 1) 1]) [[0;1]]%nat None with
  | Ok (t, _) => Some (map show_t (tm_trans t)) | Err _ => None end
  = Some [(0%nat, 1#3, 1, (-1)%Z, false); (1%nat, 2#3, 1, (-1)%Z, false)].
Proof. vm_compute. reflexivity. Qed.

(** profits.py:43-64 *)
Example doc_profits :
  match fst (calculate_profits (frame [B (qz 1) (qz 3) 0; B (qz 1) (qz 2) 1; A (qf 3 2) (qz 1) 2])
    [mkTrans 0 1 (qz 2) 2 false; mkTrans 2 1 (qz 2) 0 false]%Qc (Some [(2%nat, 0%Qc)]) None) with
  | Ok p => (map this (pr_bid p), map this (pr_reservation p), this (pr_market p)) = ([1;0;1], [1;0;2], 0)
  | Err _ => False end.
Proof. vm_compute. reflexivity. Qed.
