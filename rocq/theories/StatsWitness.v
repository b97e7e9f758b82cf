(** Witnesses for the refuted statements about the statistics. *)
From Verif Require Import QcTac Num ModelBase ModelHuang ModelMuda ModelMarket ModelStats Spec SpecMarket SpecStats SpecAlloc Conform Solver MudaWitness
  LPFacts P2PFacts StatsFacts MarketFacts.

(** a session with muda fees *)
Definition fee_bids := [B (qz 1) (qz 10) 0; B (qz 1) (qz 8) 1; A (qz 1) (qz 1) 2; B (qz 1) (qz 12) 0; B (qz 1) (qz 9) 1; A (qz 1) (qz 2) 3].
Definition fee_ops := map OAccept fee_bids ++ [ORun (AMuda [true; true; true; false; false; false])].
Lemma fee_ops_ok : Forall op_ok fee_ops.
Proof. unfold fee_ops, fee_bids, B, A, op_ok, bid_ok, Qclt, Qcle. simpl. repeat constructor; simpl; try discriminate; reflexivity. Qed.
Lemma fees_created : exists (S : sorter) (sv : solver) (ops : list op) (p : profits) rp',
  Forall op_ok ops /\ let m := session S sv market_init ops in let d := get_df (mk_bm m) in let tl := tm_trans (mk_trans m) in
  calculate_profits d tl None (extra_fees (mk_extra m)) = (Ok p, rp') /\
  qsum (pr_bid p) + pr_market p <> traded_surplus price d tl.
Proof.
  exists SS, fm_solver, fee_ops. do 2 eexists. split; [exact fee_ops_ok|]. cbv zeta. split; [unfold calculate_profits; reflexivity|].
  intro H. apply (f_equal this) in H. vm_compute in H. discriminate.
Qed.

(** documentation example of percentage_welfare with reservation price 5 for bid 0 *)
Definition doc_d := frame [B (qz 1) (qz 3) 0; B (qz 1) (qz 2) 1; A (qf 3 2) (qz 1) 2].
Definition doc_tl := [mkTrans 0 (qz 1) (qz 2) 2 false; mkTrans 2 (qz 1) (qz 2) 0 false].
Definition doc_rp : dict := [(0%nat, qz 5)].
Lemma ratio_is (r : res (option Qc)) q : match r with Ok (Some x) => this x = q | _ => False end -> exists x, r = Ok (Some x) /\ this x = q.
Proof. destruct r as [[x|]|]; try contradiction. eauto. Qed.
Lemma optimum_is (r : res (lp_result * option dict)) q : match r with Ok (Some (w, _), _) => this w = q | _ => False end ->
  exists w vars rp', r = Ok (Some (w, vars), rp') /\ this w = q.
Proof. destruct r as [[[[w vars]|] rp']|]; try contradiction. eauto 6. Qed.
Lemma welfare_ignored : exists (d : df) (tl : list trans) (rp : dict) (x w : Qc) vars rp',
  map lbl d = seq 0 (length d) /\ qty_nonneg d /\
  maximum_aggregated_utility fm_solver d (Some rp) = Ok (Some (w, vars), rp') /\
  percentage_welfare fm_solver d tl (Some rp) = Ok (Some x) /\
  x <> (traded_surplus (worth (Some rp)) d tl - (money true d tl - money false d tl)) / w.
Proof.
  exists doc_d, doc_tl, doc_rp.
  destruct (ratio_is (percentage_welfare fm_solver doc_d doc_tl (Some doc_rp)) (4#5)%Q ltac:(vm_compute; reflexivity)) as (x & Ex1 & Ex).
  destruct (optimum_is (maximum_aggregated_utility fm_solver doc_d (Some doc_rp)) (9#2)%Q ltac:(vm_compute; reflexivity)) as (w & vars & rp' & Ew1 & Ew).
  exists x, w, vars, rp'. split; [reflexivity|]. split; [each_row|]. split; [exact Ew1|]. split; [exact Ex1|].
  intro H. assert (w = qf 9 2) as -> by (apply Qc_is_canon; rewrite Ew; reflexivity). apply (f_equal this) in H. rewrite Ex in H. vm_compute in H. discriminate H.
Qed.
Lemma dict_modified : exists (d : df) (tl : list trans) (m : dict), labels_unique d /\
  snd (calculate_profits d tl (Some m) None) <> Some m.
Proof. exists doc_d, doc_tl, doc_rp. split; [no_dup|]. intro H. vm_compute in H. discriminate. Qed.
