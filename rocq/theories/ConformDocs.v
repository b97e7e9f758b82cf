(** The notebooks of /repo/docs replayed in the model.  These are tests of the model. *)
From Verif Require Import QcTac Num ModelBase ModelCurves ModelHuang ModelMuda ModelP2P ModelMerge
  ModelMarket ModelStats Sorter Conform.

(** docs/P2P.ipynb, docs/MUDA.ipynb, docs/Huang.ipynb: the same eleven bids *)
Definition nb_bids : list bid :=
  [B 1 (qf 67 10) 0; B 1 (qf 66 10) 1; B 1 (qf 65 10) 2; B 1 (qf 64 10) 3; B 1 (qf 63 10) 4; B 1 (qz 6) 5;
   A 1 1 6; A 1 (qz 2) 7; A (qz 2) (qz 3) 8; A (qz 2) (qz 4) 9; A 1 (qf 61 10) 10].
Definition nb_market (a : algo) : market :=
  fst (market_run SS (fold_left (fun m b => fst (accept_bid m b)) nb_bids market_init) a).
Definition nb_profits (a : algo) :=
  let m := nb_market a in
  match fst (calculate_profits (get_df (mk_bm m)) (tm_trans (mk_trans m)) None (extra_fees (mk_extra m))) with
  | Ok p => (map this (pr_bid p), this (pr_market p)) | Err _ => ([], 0%Q) end.
Definition nb_draws : nat -> nat := fun k => nth k [15; 19; 6; 5; 0; 4; 0]%nat 0%nat.
Local Open Scope Q_scope.
(** P2P.ipynb: transactions, rounds, profits (the draws are chosen to give the rounds of the notebook) *)
Example nb_p2p : (map show_t (tm_trans (mk_trans (nb_market (AP2P (qf 1 2) nb_draws)))), show_x (mk_extra (nb_market (AP2P (qf 1 2) nb_draws)))) =
  ([(3%nat, 1, 37#10, 6%Z, false); (6%nat, 1, 37#10, 3%Z, false); (5%nat, 0, 0, 10%Z, true); (10%nat, 0, 0, 5%Z, true);
    (2%nat, 1, 17#4, 7%Z, false); (7%nat, 1, 17#4, 2%Z, false); (4%nat, 1, 103#20, 9%Z, false); (9%nat, 1, 103#20, 4%Z, true);
    (0%nat, 1, 97#20, 8%Z, false); (8%nat, 1, 97#20, 0%Z, true); (5%nat, 1, 5, 9%Z, false); (9%nat, 1, 5, 5%Z, false);
    (1%nat, 1, 24#5, 8%Z, false); (8%nat, 1, 24#5, 1%Z, false)],
   SP [[(3,6);(5,10);(2,7);(4,9);(0,8)];[(5,9);(1,8)]]%nat).
Proof. vm_compute. reflexivity. Qed.
Example nb_p2p_profits : nb_profits (AP2P (qf 1 2) nb_draws) =
  ([37#20; 9#5; 9#4; 27#10; 23#20; 1; 27#10; 9#4; 73#20; 43#20; 0], 0).
Proof. vm_compute. reflexivity. Qed.
(** MUDA.ipynb: left 1,3,4,7,8,9; price of the left half 4.65, of the right half 6.3; fees 1.85, 2.3, 4.6 *)
Definition nb_flips := [false; true; false; true; true; false; false; true; true; true; false].
Example nb_muda : show_x (mk_extra (nb_market (AMuda nb_flips))) =
  SM [1;3;4;7;8;9]%nat [0;2;5;6;10]%nat (Some (93#20)) (Some (63#10)) [37#20; 0; 0; 0; 0; 0; 0; 23#10; 23#5; 0; 0].
Proof. vm_compute. reflexivity. Qed.
Example nb_muda_profits : nb_profits (AMuda nb_flips) =
  ([41#20; 3#10; 0; 1#10; 0; 0; 73#20; 43#10; 33#5; 0; 0], 35#4).
Proof. vm_compute. reflexivity. Qed.
(** Huang.ipynb *)
Example nb_huang : nb_profits (AHuang (fun k => k) 0) =
  ([14#25; 12#25; 2#5; 8#25; 6#25; 0; 3; 2; 2; 0; 0], 8) /\
  show_x (mk_extra (nb_market (AHuang (fun k => k) 0))) = SH 4 6 4.
Proof. vm_compute. auto. Qed.
(** quickstart.ipynb, with reservation prices {0: 10} *)
Example nb_quick :
  let d := frame [B 1 (qz 2) 0; A (qz 2) 1 1; B 1 (qf 1 2) 5]%Qc in
  match p2p_random d (qf 1 2) (fun k => match k with O => 1 | _ => 0 end)%nat with
  | Ok (tm, x) =>
      match fst (calculate_profits d (tm_trans tm) (Some [(0%nat, qz 10)]) None) with Ok p =>
      show_x x = SP [[(2,1)];[(0,1)]]%nat /\
      map show_t (tm_trans tm) = [(2%nat, 0, 0, 1%Z, true); (1%nat, 0, 0, 2%Z, true); (0%nat, 1, 3#2, 1%Z, false); (1%nat, 1, 3#2, 0%Z, true)] /\
      (map this (pr_bid p), map this (pr_reservation p), this (pr_market p)) = ([1#2; 1#2; 0], [17#2; 1#2; 0], 0)
      | Err _ => False end
  | Err _ => False
  end.
Proof. vm_compute. auto. Qed.
(** new_mechanism.ipynb: the profits of the Huang auction on the market of processing.py:138-190 *)
Definition nb_power : list bid :=
  [B (qz 250) (qz 200) 0; B (qz 300) (qz 110) 1; B (qz 120) (qz 100) 2; B (qz 80) (qz 90) 3; B (qz 40) (qz 85) 4; B (qz 70) (qz 75) 1;
   B (qz 60) (qz 65) 0; B (qz 45) (qz 40) 4; B (qz 30) (qz 38) 3; B (qz 35) (qz 31) 4; B (qz 25) (qz 24) 0; B (qz 10) (qz 21) 1;
   A (qz 120) 0 5; A (qz 50) 0 6; A (qz 200) (qz 15) 7; A (qz 400) (qz 30) 5; A (qz 60) (qf 65 2) 8; A (qz 50) (qz 34) 8; A (qz 60) (qz 36) 8;
   A (qz 100) (qf 75 2) 9; A (qz 70) (qz 39) 9; A (qz 50) (qz 40) 9; A (qz 70) (qz 60) 5; A (qz 45) (qz 70) 5; A (qz 50) (qz 100) 10;
   A (qz 60) (qz 150) 10; A (qz 50) (qz 200) 10]%Qc.
Definition power_profits (r : res (transmgr * extra)) :=
  match r with
  | Ok (tm, x) => match fst (calculate_profits (frame nb_power) (tm_trans tm) None (extra_fees x)) with Ok p => map this (pr_bid p) | Err _ => [] end
  | Err _ => []
  end.
Example nb_huang_power : power_profits (run_algo SS (AHuang (fun k => k) 0) (frame nb_power)) =
  [332235#8; 190795#8; 28985#4; 7995#2; 14535#8; 7500; 1875; 4500; 565; 0; 0].
Proof. vm_compute. reflexivity. Qed.
