(** How far the bounds between the mechanisms are reached. *)
From Verif Require Import QcTac Num ModelBase ModelHuang ModelMuda ModelP2P ModelUniform Spec SpecTrade SpecMuda SpecAlloc SpecCompare AllocFacts Sorter Conform CompareTop MudaWitness.

(** a cheap seller for the poor buyer, a dear one for the rich buyer *)
Definition cross : df := frame [B 1 (qz 10) 0; B 1 (qz 2) 1; A 1 1 2; A 1 (qz 9) 3].
Definition pairs_df : df := frame [B 1 (qz 9) 0; B 1 (qz 10) 1; A 1 1 2; A 1 (qz 2) 3].
Definition halved : list bool := [true; false; true; false].


Lemma cross_good : map lbl cross = seq 0 (length cross) /\ qty_pos cross /\ price_nonneg cross.
Proof. split; [reflexivity|]. split; each_row; vm_compute; first [reflexivity | discriminate]. Qed.
Lemma pairs_good : map lbl pairs_df = seq 0 (length pairs_df) /\ qty_pos pairs_df /\ price_nonneg pairs_df.
Proof. split; [reflexivity|]. split; each_row; vm_compute; first [reflexivity | discriminate]. Qed.
Lemma pos_nonneg d : qty_pos d -> qty_nonneg d.
Proof. intros H r Hr. apply Qclt_le_weak, H, Hr. Qed.
Lemma cross_best : best_at_one_price cross 1.
Proof. apply (best_by_prices cross 1 (qz 2)); [apply pos_nonneg, cross_good | apply Qc_is_canon; vm_compute; reflexivity | vm_compute; reflexivity]. Qed.
Lemma pairs_best : best_at_one_price pairs_df (qz 2).
Proof. apply (best_by_prices pairs_df (qz 2) (qz 5)); [apply pos_nonneg, pairs_good | apply Qc_is_canon; vm_compute; reflexivity | vm_compute; reflexivity]. Qed.

(** the outcome of a run: what user [u] gains and what is bought *)
Definition gains (d : df) (u : Z) (x : res (transmgr * extra)) : option (Q * Q) :=
  match x with Ok (tm, _) => Some (this (bought d (tm_trans tm)), this (profit d u (tm_trans tm))) | Err _ => None end.
Lemma gains_ok d u x a b : gains d u x = Some (this a, this b) -> exists tm ex, x = Ok (tm, ex) /\ bought d (tm_trans tm) = a /\ profit d u (tm_trans tm) = b.
Proof.
  unfold gains. destruct x as [[tm ex]|]; [|discriminate]. intros [= H1 H2]. exists tm, ex. split; [reflexivity|].
  split; apply Qc_is_canon; [rewrite H1 | rewrite H2]; reflexivity.
Qed.

(** both ends of the peer to peer interval are reached *)
Theorem p2p_ends : exists (d : df) r r' tm ex tm' ex' c, map lbl d = seq 0 (length d) /\ qty_pos d /\ price_nonneg d /\ best_at_one_price d c /\ 0 < c /\
  p2p_random d (qf 1 2) r = Ok (tm, ex) /\ p2p_random d (qf 1 2) r' = Ok (tm', ex') /\
  bought d (tm_trans tm) = c /\ bought d (tm_trans tm') = qz 2 * c.
Proof.
  destruct (gains_ok cross 0 (p2p_random cross (qf 1 2) (fun _ => 0%nat)) 1 (qf 9 2)) as (tm & ex & E & B & _); [vm_compute; reflexivity|].
  destruct (gains_ok cross 0 (p2p_random cross (qf 1 2) (fun _ => 1%nat)) (qz 2) (qf 1 2)) as (tm' & ex' & E' & B' & _); [vm_compute; reflexivity|].
  destruct cross_good as (G1 & G2 & G3).
  exists cross, (fun _ => 0%nat), (fun _ => 1%nat), tm, ex, tm', ex', 1. split; [exact G1|]. split; [exact G2|]. split; [exact G3|].
  split; [exact cross_best|]. split; [reflexivity|]. split; [exact E|]. split; [exact E'|]. split; [exact B|].
  rewrite B'. apply Qc_is_canon. vm_compute. reflexivity.
Qed.

(** MUDA may trade more or less than the Huang auction *)
Theorem muda_huang_unordered : exists (d : df) fl fl' tm ex tm1 ex1 tm2 ex2, map lbl d = seq 0 (length d) /\ qty_pos d /\ price_nonneg d /\
  huang_auction SS d = Ok (tm, ex) /\ muda SS d fl = Ok (tm1, ex1) /\ muda SS d fl' = Ok (tm2, ex2) /\
  bought d (tm_trans tm1) < bought d (tm_trans tm) /\ bought d (tm_trans tm) < bought d (tm_trans tm2).
Proof.
  destruct (gains_ok pairs_df 0 (huang_auction SS pairs_df) 1 0) as (tm & ex & E & B & _); [vm_compute; reflexivity|].
  destruct (gains_ok pairs_df 0 (muda SS pairs_df [true; true; true; true]) 0 0) as (tm1 & ex1 & E1 & B1 & _); [vm_compute; reflexivity|].
  destruct (gains_ok pairs_df 0 (muda SS pairs_df halved) (qz 2) (qz 3)) as (tm2 & ex2 & E2 & B2 & _); [vm_compute; reflexivity|].
  destruct pairs_good as (G1 & G2 & G3).
  exists pairs_df, [true; true; true; true], halved, tm, ex, tm1, ex1, tm2, ex2. split; [exact G1|]. split; [exact G2|]. split; [exact G3|].
  split; [exact E|]. split; [exact E1|]. split; [exact E2|]. rewrite B, B1, B2. split; reflexivity.
Qed.

(** a user may gain more in MUDA, or peer to peer, than in the uniform price mechanism *)
Lemma muda_gain_refuted : ~ forall (S : sorter) (d : df) fl tm ex tm' ex', map lbl d = seq 0 (length d) -> qty_pos d -> price_nonneg d ->
  muda S d fl = Ok (tm, ex) -> uniform_run S d = Ok (tm', ex') -> forall u, profit d u (tm_trans tm) <= profit d u (tm_trans tm').
Proof.
  intro H. destruct (gains_ok pairs_df 2 (muda SS pairs_df halved) (qz 2) (qz 5)) as (tm & ex & E & _ & G); [vm_compute; reflexivity|].
  destruct (gains_ok pairs_df 2 (uniform_run SS pairs_df) (qz 2) (qf 9 2)) as (tm' & ex' & E' & _ & G'); [vm_compute; reflexivity|].
  destruct pairs_good as (G1 & G2 & G3). specialize (H SS _ _ _ _ _ _ G1 G2 G3 E E' 2%Z). rewrite G, G' in H. apply H. reflexivity.
Qed.
Lemma p2p_gain_refuted : ~ forall (S : sorter) (d : df) k r tm ex tm' ex', map lbl d = seq 0 (length d) -> qty_pos d -> price_nonneg d -> 0 <= k -> k <= 1 ->
  p2p_random d k r = Ok (tm, ex) -> uniform_run S d = Ok (tm', ex') -> forall u, profit d u (tm_trans tm) <= profit d u (tm_trans tm').
Proof.
  intro H. destruct (gains_ok pairs_df 0 (p2p_random pairs_df 0 (fun _ => 0%nat)) (qz 2) (qz 8)) as (tm & ex & E & _ & G); [vm_compute; reflexivity|].
  destruct (gains_ok pairs_df 0 (uniform_run SS pairs_df) (qz 2) (qf 7 2)) as (tm' & ex' & E' & _ & G'); [vm_compute; reflexivity|].
  destruct pairs_good as (G1 & G2 & G3). specialize (H SS _ 0 _ _ _ _ _ G1 G2 G3 (Qcle_refl 0) ltac:(discriminate) E E' 0%Z). rewrite G, G' in H. apply H. reflexivity.
Qed.
