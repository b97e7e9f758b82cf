(** The statements about the rounded mechanisms put together, and runs in double precision. *)
From Verif Require Import QcTac Num NumFacts ModelBase ModelCurves ModelHuang ModelMuda ModelRound ModelFloat Spec SpecTrade SpecMuda SpecRound
  Sorter Conform P2PFacts UpdateFacts MudaWitness RoundFacts RoundP2P RoundHuang RoundError RoundMuda.

Lemma f64_rel : rel_error f64 (p2 (-53)).
Proof. split; [vm_compute; discriminate|]. intro x. rewrite (Qcmult_comm (p2 (-53))). apply f64_err. Qed.
Lemma f64_halves : halves f64.
Proof. split; [apply Qc_is_canon; vm_compute; reflexivity | exact f64_half]. Qed.
Lemma np_short l : (length l < 8)%nat -> np_adder f64 l = seq_sum f64 l.
Proof. apply np_sum_short. Qed.

(** ** Peer to peer *)
Section P2P.
  Variables (R : rounding) (A : adder R) (d : df) (c : Qc) (r : nat -> nat).
  Hypothesis Hl : map lbl d = seq 0 (length d).
  Hypothesis Hq : qty_nonneg d.
  Hypothesis Hm : machine_qty R d.
  Theorem p2p_r_safe : exists tm gtl, p2p_random_r R A d c r = Ok (tm, XP2P gtl) /\
    refer d (tm_trans tm) /\ (forall t, In t (tm_trans tm) -> 0 <= t_qty t) /\
    bought d (tm_trans tm) = sold d (tm_trans tm) /\ Meetings (concat gtl) (tm_trans tm) /\ NoDup (concat gtl) /\
    (forall T, In T gtl -> T <> [] /\ NoDup (flat_map (fun p => [fst p; snd p]) T)).
  Proof.
    destruct (p2p_rounded R A d c r Hl Hq Hm) as (tm & gtl & E & D & N & T & _).
    pose proof (labels_ok d Hl) as Hu. exists tm, gtl.
    destruct (deals_refer R d c Hu Hq Hm _ _ D) as [D1 D2]. destruct (deals_balanced R d c Hu _ _ D) as [D3 D4]. auto 10.
  Qed.
  Variable u : Qc.
  Hypothesis Hrel : rel_error R u.
  Theorem p2p_r_fill tm ex : p2p_random_r R A d c r = Ok (tm, ex) ->
    (forall x, In x d -> traded_by (lbl x) (tm_trans tm) <= qty x + qnat (count_of x (tm_trans tm)) * (u * qty x)) /\
    (forall x y, In x d -> In y d -> buying x = true -> buying y = false -> price y <= price x ->
       exists z, (z = x \/ z = y) /\ qty z - qnat (count_of z (tm_trans tm)) * (u * qty z) <= traded_by (lbl z) (tm_trans tm)).
  Proof.
    intro E. destruct (p2p_rounded R A d c r Hl Hq Hm) as (tm' & gtl & E' & D & _ & _ & F). rewrite E in E'. injection E' as <- _.
    pose proof (labels_ok d Hl) as Hu.
    pose proof (deals_quantities R d c Hu Hq Hm u Hrel _ _ D) as C.
    pose proof (rests_deals R d c Hu _ _ _ D (rests_nil R d Hq Hm)) as O. split.
    - intros x Hx. destruct (C x Hx) as [C1 _]. destruct (O x Hx) as [O1 _].
      generalize dependent (qnat (count_of x (tm_trans tm)) * (u * qty x)). intros. qlra.
    - intros x y Hx Hy Bx By Hp. destruct (F x y Hx Hy Bx By Hp) as [Z|Z].
      + exists x. split; [left; reflexivity|]. destruct (C x Hx) as [_ C2]. rewrite Z in C2.
        generalize dependent (qnat (count_of x (tm_trans tm)) * (u * qty x)). intros. qlra.
      + exists y. split; [right; reflexivity|]. destruct (C y Hy) as [_ C2]. rewrite Z in C2.
        generalize dependent (qnat (count_of y (tm_trans tm)) * (u * qty y)). intros. qlra.
  Qed.
End P2P.
Section P2PPrice.
  Variables (R : rounding) (A : adder R) (d : df) (c : Qc) (r : nat -> nat).
  Hypothesis Hl : map lbl d = seq 0 (length d).
  Hypothesis Hq : qty_nonneg d.
  Hypothesis Hm : machine_qty R d.
  Lemma p2p_r_meet tm ex t x : p2p_random_r R A d c r = Ok (tm, ex) -> In t (tm_trans tm) -> In x d -> lbl x = t_bid t -> t_qty t <> 0 ->
    exists b s, In b d /\ In s d /\ price s <= price b /\ t_price t = R (R (price b * c) + R (R (1 - c) * price s)) /\ x = (if buying x then b else s).
  Proof.
    intros E Ht Hx El Nz. destruct (p2p_rounded R A d c r Hl Hq Hm) as (tm' & gtl & E' & D & _). rewrite E in E'. injection E' as <- _.
    pose proof (labels_ok d Hl) as Hu.
    destruct (deals_prices R d c Hu Hq Hm _ _ t D Ht) as (b & s & Hb & Hs & Bb & Bs & Cs & P1 & P2).
    exists b, s. destruct (Qclt_le_dec (price b) (price s)) as [L|L]; [destruct (P2 L); contradiction|].
    split; [exact Hb|]. split; [exact Hs|]. split; [exact L|]. split; [apply P1, L|].
    destruct Cs as [[Cb _]|[Cb _]].
    - assert (x = b) by (apply (ListFacts.NoDup_map_in lbl d); auto; congruence). subst. rewrite Bb. reflexivity.
    - assert (x = s) by (apply (ListFacts.NoDup_map_in lbl d); auto; congruence). subst. rewrite Bs. reflexivity.
  Qed.
  Theorem p2p_r_price_half tm ex : c = qf 1 2 -> halves R -> machine_price R d -> p2p_random_r R A d c r = Ok (tm, ex) ->
    forall t x, In t (tm_trans tm) -> In x d -> lbl x = t_bid t -> t_qty t <> 0 ->
      if buying x then t_price t <= price x else price x <= t_price t.
  Proof.
    intros Ec Hh Mp E t x Ht Hx El Nz. destruct (p2p_r_meet tm ex t x E Ht Hx El Nz) as (b & s & Hb & Hs & L & P & Ex).
    destruct (price_half R (price b) (price s) (Mp b Hb) (Mp s Hs) L Hh) as [P1 P2]. cbv zeta in P1, P2. rewrite P, Ec.
    destruct (buying x); subst x; assumption.
  Qed.
  Theorem p2p_r_price_near tm ex u : rel_error R u -> u <= 1 -> 0 <= c -> c <= 1 -> price_nonneg d -> p2p_random_r R A d c r = Ok (tm, ex) ->
    forall t x, In t (tm_trans tm) -> In x d -> lbl x = t_bid t -> t_qty t <> 0 ->
      if buying x then t_price t <= price x * ((1 + u) * (1 + u) * (1 + u)) else price x * ((1 - u) * (1 - u) * (1 - u)) <= t_price t.
  Proof.
    intros Hr U1 C0 C1 Pn E t x Ht Hx El Nz. destruct (p2p_r_meet tm ex t x E Ht Hx El Nz) as (b & s & Hb & Hs & L & P & Ex).
    destruct (price_near R (price b) (price s) L u c Hr U1 (Pn s Hs) C0 C1) as [P1 P2]. cbv zeta in P1, P2. rewrite P.
    destruct (buying x); subst x; assumption.
  Qed.
End P2PPrice.

(** ** MUDA with numpy's sums, less than eight bids *)
Theorem muda_r_small (S : sorter) (d : df) (fl : list bool) tm ex : qty_nonneg d -> labels_unique d -> machine_qty f64 d -> (length d < 8)%nat ->
  muda_r f64 (np_adder f64) S d fl = Ok (tm, ex) ->
  feasible d (tm_trans tm) /\
  forall h p, half_of ex d h p ->
    qabs (bought h (tm_trans tm) - sold h (tm_trans tm)) <= qnat (length d + 1) * (p2 (-53) * (1 + p2 (-53)) ^ length d) * qsumf qty h.
Proof.
  intros Hq Hu Hm Hl. apply muda_r_seq; auto; [|exact f64_rel]. intros l L. apply np_short. lia.
Qed.

(** ** Runs in double precision *)
Notation SS := stable_sorter.
Notation NP := (np_adder f64).
(** the double nearest to k/10 *)
Definition tenth (k : Z) : Qc := f64 (qf k 10).
Lemma tenth_machine k : machine f64 (tenth k).
Proof. apply rnd_machine. Qed.
Ltac machine_rows := let r := fresh "r" in let H := fresh "H" in intros r H;
  repeat (destruct H as [<-|H]; [apply Qc_is_canon; vm_compute; reflexivity|]); contradiction.
Ltac lt_now := vm_compute; reflexivity.

(** a buyer of 1, sellers of 2^-54 and of 1 *)
Definition overfill : df := frame [B (qz 1) (qz 3) 0; A (p2 (-54)) (qz 1) 1; A (qz 1) (qz 2) 2].
Lemma overfill_run : exists tm ex, p2p_random_r f64 NP overfill (qf 1 2) (fun _ => 0%nat) = Ok (tm, ex) /\
  forall x, nth_error overfill 0 = Some x -> qty x < traded_by (lbl x) (tm_trans tm).
Proof.
  destruct (p2p_random_r f64 NP overfill (qf 1 2) (fun _ => 0%nat)) as [[tm ex]|e] eqn:E; [|vm_compute in E; discriminate].
  exists tm, ex. split; [reflexivity|]. intros x Hx. simpl in Hx. injection Hx as <-.
  assert (Ht : match p2p_random_r f64 NP overfill (qf 1 2) (fun _ => 0%nat) with Ok (tm', _) => qty (row_of 0 (B (qz 1) (qz 3) 0)) < traded_by 0 (tm_trans tm') | _ => False end) by lt_now.
  rewrite E in Ht. exact Ht.
Qed.
