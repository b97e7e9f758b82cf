(** Property C48: the results of the peer to peer mechanism are exactly the stopped schedules. *)
From Verif Require Import QcTac Num ModelBase ModelHuang ModelP2P Conform Spec SpecTrade SpecP2P P2PSchedule PropertiesP2P.

(** C48. Every run is a schedule of rounds (nonempty maximal sets of disjoint buyer-seller pairs that
    did not meet before and, after the first round, have quantity left), each meeting trading what both
    have left, continued until nothing is left or no pair may meet ... *)
Theorem C48_every_run_is_a_schedule :
  forall (d : df) (c : Qc) (r : nat -> nat), map lbl d = seq 0 (length d) -> qty_nonneg d ->
    forall tm ex, p2p_random d c r = Ok (tm, ex) ->
    exists gtl, ex = XP2P gtl /\ Schedule d c gtl (tm_trans tm) /\ Stopped d gtl (tm_trans tm).
Proof. intros d c r Hl Hq. exact (p2p_is_schedule d c Hl Hq r). Qed.
Print Assumptions C48_every_run_is_a_schedule.

(** ... and every such schedule is the result for some random sequence. *)
Theorem C48_every_schedule_is_a_run :
  forall (d : df) (c : Qc), map lbl d = seq 0 (length d) -> qty_nonneg d ->
    forall gtl tl, Schedule d c gtl tl -> Stopped d gtl tl ->
    exists r tm, p2p_random d c r = Ok (tm, XP2P gtl) /\ tm_trans tm = tl.
Proof. exact p2p_reaches. Qed.
Print Assumptions C48_every_schedule_is_a_run.

Example C48_example :
  (exists tl, Schedule p2p_bids (qf 1 2) [[(2, 3); (0, 1)]; [(0, 3)]]%nat tl /\
     Stopped p2p_bids [[(2, 3); (0, 1)]; [(0, 3)]]%nat tl /\
     map (fun t => (t_bid t, this (t_qty t), t_active t)) tl =
       [(2%nat, 0%Q, true); (3%nat, 0%Q, true); (0%nat, 1%Q, true); (1%nat, 1%Q, false); (0%nat, 1%Q, false); (3%nat, 1%Q, true)]) /\
  (* a round that leaves out a pair that could meet is not allowed *)
  (forall tl, ~ Schedule p2p_bids (qf 1 2) [[(0, 1)]]%nat tl).
Proof.
  assert (Hq : qty_nonneg p2p_bids).
  { intros x H. repeat (destruct H as [<-|H]; [vm_compute; discriminate|]). destruct H. }
  split.
  - destruct (p2p_random p2p_bids (qf 1 2) (fun k => match k with O => 3 | _ => 0 end)%nat) as [[tm ex]|e] eqn:E.
    2:{ exfalso. vm_compute in E. discriminate E. }
    destruct (C48_every_run_is_a_schedule p2p_bids _ _ eq_refl Hq _ _ E) as (gtl & -> & H1 & H2).
    exists (tm_trans tm). vm_compute in E. injection E as <- <-. split; [exact H1|]. split; [exact H2|]. vm_compute. reflexivity.
  - intros tl H. inversion H as [|gtl tl0 T tl' HS HP HR HD E E2]; subst. destruct gtl as [|g gtl].
    2:{ destruct gtl; discriminate E. }
    simpl in E. injection E as ->. inversion HS as [|g ? ? ? ? ? ? ? E]; subst; [|destruct g; discriminate E].
    destruct (rd_maximal _ _ _ _ HR (2, 3)%nat) as (p & [<-|[]] & [A|A]); try discriminate A.
    exists (nth 2 p2p_bids (mkRow 0 0 0 0%Z true 0 true)), (nth 3 p2p_bids (mkRow 0 0 0 0%Z true 0 true)).
    simpl. repeat split; auto.
Qed.
