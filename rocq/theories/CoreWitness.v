(** Tables where somebody would rather have the transaction of another bid, or a pair does better on its own. *)
From Verif Require Import QcTac Num ModelBase ModelCurves ModelHuang ModelMuda ModelP2P ModelUniform Spec SpecTrade SpecMuda SpecHuang SpecAlloc SpecCore
  Sorter Conform PlotWitness MudaWitness.

(** the mechanism trades 1 at 5, the middle of 9 and 1; the buyer at 8 gets nothing *)
Definition late : df := frame [B 1 (qz 9) 0; B 1 (qz 8) 1; A 1 1 2].
(** the two better buyers share 1; each gives up 3, so the smaller one gets nothing *)
Definition crowd : df := frame [B (qz 4) (qz 10) 0; B 1 (qz 9) 1; B (qz 5) (qz 8) 2; A 1 1 3; A (qz 5) (qz 2) 4].
(** the first three rows trade among themselves at the price of the other two *)
Definition split5 : df := frame [B 1 (qz 9) 0; B 1 (qz 8) 1; A 1 1 2; B 1 (qz 6) 3; A 1 (qz 3) 4].
(** two bids that only differ in their user, one ask *)
Definition twins : df := frame [B 1 (qz 5) 0; B 1 (qz 5) 1; A 1 1 2].
Definition row_at (d : df) (i : nat) : row := nth i d (row_of 0 (A 0 0 0)).

Ltac distinct := split; no_dup.
Lemma late_ok : qty_pos late /\ price_nonneg late /\ labels_unique late /\ asks_pos late /\ prices_distinct late.
Proof. split; [each_row|]. split; [each_row|]. split; [no_dup|]. split; [each_row | distinct]. Qed.
Lemma crowd_ok : qty_pos crowd /\ price_nonneg crowd /\ labels_unique crowd /\ asks_pos crowd /\ prices_distinct crowd.
Proof. split; [each_row|]. split; [each_row|]. split; [no_dup|]. split; [each_row | distinct]. Qed.
Lemma split5_ok : qty_pos split5 /\ price_nonneg split5 /\ labels_unique split5 /\ asks_pos split5 /\ prices_distinct split5.
Proof. split; [each_row|]. split; [each_row|]. split; [no_dup|]. split; [each_row | distinct]. Qed.
Lemma twins_ok : qty_pos twins /\ price_nonneg twins /\ labels_unique twins /\ asks_pos twins.
Proof. split; [each_row|]. split; [each_row|]. split; [no_dup | each_row]. Qed.

(** one unit for each of the two *)
Definition both : row -> Qc := fun _ => 1.
(** row [i] would rather have a transaction of row [k] *)
Definition envyb (d : df) (tl : list trans) (i k : nat) : bool :=
  existsb (fun t => Nat.eqb (t_bid t) k && qltb (own_gain tl (row_at d i)) (gain (t_price t) (row_at d i) * qmin (qty (row_at d i)) (t_qty t))) tl.
Definition pairb (d : df) (tl : list trans) (i k : nat) : bool :=
  qltb (qsumf (own_gain tl) [row_at d i; row_at d k]) (qsumf (fun r => adds r (both r)) [row_at d i; row_at d k]).
Lemma envyb_is d tl i k : envyb d tl i k = true -> exists t, In t tl /\ t_bid t = k /\ envies tl (row_at d i) t.
Proof.
  unfold envyb. intro H. apply existsb_exists in H. destruct H as (t & Ht & H). apply andb_true_iff in H. destruct H as [H1 H2].
  apply Nat.eqb_eq in H1. apply (proj1 (qltb_lt _ _)) in H2. exists t. split; [exact Ht|]. split; [exact H1 | exact H2].
Qed.
Lemma pairb_is d tl i k : pairb d tl i k = true -> buying (row_at d i) = true -> buying (row_at d k) = false ->
  1 <= qty (row_at d i) -> 1 <= qty (row_at d k) -> blocks tl [row_at d i; row_at d k] both.
Proof.
  intros H Bi Bk Qi Qk. apply (proj1 (qltb_lt _ _)) in H. split; [|split; [|exact H]].
  - intros r [<-|[<-|[]]]; (split; [unfold both; qlra | assumption]).
  - cbn [filter]. rewrite Bi, Bk. cbn [negb]. reflexivity.
Qed.

Lemma late_run : exists tm c p, uniform_run SS late = Ok (tm, XUniform (Fin c) (Fin p)) /\
  envyb late (tm_trans tm) 1 0 = true /\ pairb late (tm_trans tm) 1 2 = true.
Proof.
  assert (K : match uniform_run SS late with Ok (tm, XUniform (Fin _) (Fin _)) => envyb late (tm_trans tm) 1 0 && pairb late (tm_trans tm) 1 2 | _ => false end = true) by (vm_compute; reflexivity).
  destruct (uniform_run SS late) as [[tm [| | | |[c| | |] [p| | |]]]|]; try discriminate K. apply andb_true_iff in K. exists tm, c, p. tauto.
Qed.
Lemma crowd_run : exists tm ps pb q, huang_auction SS crowd = Ok (tm, XHuang ps pb q) /\ envyb crowd (tm_trans tm) 1 0 = true.
Proof.
  assert (K : match huang_auction SS crowd with Ok (tm, XHuang _ _ _) => envyb crowd (tm_trans tm) 1 0 | _ => false end = true) by (vm_compute; reflexivity).
  destruct (huang_auction SS crowd) as [[tm [|ps pb q| | |]]|]; try discriminate K. exists tm, ps, pb, q. auto.
Qed.
Definition flips5 := [true; true; true; false; false].
Lemma split5_run : exists tm ex q, muda SS split5 flips5 = Ok (tm, ex) /\ half_of ex split5 (firstn 3 split5) (Fin q) /\
  envyb split5 (tm_trans tm) 1 0 = true /\ pairb split5 (tm_trans tm) 1 2 = true.
Proof.
  assert (K : match muda SS split5 flips5 with
    | Ok (tm, XMuda l r _ (Fin _) _) => forallb (fun p => Nat.eqb (fst p) (snd p)) (combine l [0; 1; 2]%nat) && Nat.eqb (length l) 3 && envyb split5 (tm_trans tm) 1 0 && pairb split5 (tm_trans tm) 1 2 | _ => false end = true) by (vm_compute; reflexivity).
  destruct (muda SS split5 flips5) as [[tm [| |l r pl [q| | |] fees| |]]|]; try discriminate K. rewrite !andb_true_iff in K. destruct K as [[[K1 K2] K3] K4].
  apply Nat.eqb_eq in K2. destruct l as [|a [|b [|c [|]]]]; try discriminate K2. cbn [combine forallb fst snd] in K1. rewrite !andb_true_iff, !Nat.eqb_eq in K1. destruct K1 as (-> & -> & -> & _).
  exists tm, (XMuda [0; 1; 2]%nat r pl (Fin q) fees), q. split; [reflexivity|]. split; [left; split; reflexivity | auto].
Qed.
Lemma twins_run : exists tm ex, p2p_random twins (qf 1 2) (fun _ => 0%nat) = Ok (tm, ex) /\ envyb twins (tm_trans tm) 1 0 = true /\ pairb twins (tm_trans tm) 1 2 = true.
Proof.
  assert (K : match p2p_random twins (qf 1 2) (fun _ => 0%nat) with Ok (tm, _) => envyb twins (tm_trans tm) 1 0 && pairb twins (tm_trans tm) 1 2 | _ => false end = true) by (vm_compute; reflexivity).
  destruct (p2p_random twins (qf 1 2) (fun _ => 0%nat)) as [[tm ex]|]; try discriminate K. apply andb_true_iff in K. exists tm, ex. tauto.
Qed.

Lemma middle_envy : ~ (forall (S : sorter) (d : df) tm c p, qty_pos d -> price_nonneg d -> labels_unique d -> asks_pos d -> prices_distinct d ->
  uniform_run S d = Ok (tm, XUniform (Fin c) (Fin p)) -> forall r t, In r d -> In t (tm_trans tm) -> ~ envies (tm_trans tm) r t).
Proof.
  intro H. destruct late_ok as (A & B & C & D & F). destruct late_run as (tm & c & p & E & V & _). destruct (envyb_is _ _ _ _ V) as (t & Ht & _ & G).
  refine (H SS late tm c p A B C D F E (row_at late 1) t _ Ht G). right; left; reflexivity.
Qed.
Lemma middle_blocked : ~ (forall (S : sorter) (d : df) tm c p, qty_pos d -> price_nonneg d -> labels_unique d -> asks_pos d -> prices_distinct d ->
  uniform_run S d = Ok (tm, XUniform (Fin c) (Fin p)) -> forall g y, incl g d -> ~ blocks (tm_trans tm) g y).
Proof.
  intro H. destruct late_ok as (A & B & C & D & F). destruct late_run as (tm & c & p & E & _ & V).
  refine (H SS late tm c p A B C D F E [row_at late 1; row_at late 2] both _ (pairb_is _ _ _ _ V eq_refl eq_refl (Qcle_refl _) (Qcle_refl _))).
  intros x [<-|[<-|[]]]; cbn; auto.
Qed.
Lemma huang_envy : ~ (forall (S : sorter) (d : df) tm ps pb q, qty_pos d -> price_nonneg d -> labels_unique d -> asks_pos d -> prices_distinct d ->
  huang_auction S d = Ok (tm, XHuang ps pb q) ->
  forall r r' t, In r d -> In r' d -> buying r' = buying r -> In t (tm_trans tm) -> t_bid t = lbl r' -> ~ envies (tm_trans tm) r t).
Proof.
  intro H. destruct crowd_ok as (A & B & C & D & F). destruct crowd_run as (tm & ps & pb & q & E & V). destruct (envyb_is _ _ _ _ V) as (t & Ht & Et & G).
  refine (H SS crowd tm ps pb q A B C D F E (row_at crowd 1) (row_at crowd 0) t _ _ eq_refl Ht Et G); [right; left | left]; reflexivity.
Qed.
Lemma muda_envy : ~ (forall (S : sorter) (d : df) (fl : list bool) tm ex, qty_pos d -> price_nonneg d -> labels_unique d -> asks_pos d -> prices_distinct d ->
  muda S d fl = Ok (tm, ex) -> forall h q, half_of ex d h (Fin q) ->
  forall r r' t, In r h -> In r' h -> In t (tm_trans tm) -> t_bid t = lbl r' -> ~ envies (tm_trans tm) r t).
Proof.
  intro H. destruct split5_ok as (A & B & C & D & F). destruct split5_run as (tm & ex & q & E & X & V & _). destruct (envyb_is _ _ _ _ V) as (t & Ht & Et & G).
  refine (H SS split5 flips5 tm ex A B C D F E _ q X (row_at split5 1) (row_at split5 0) t _ _ Ht Et G); [right; left | left]; reflexivity.
Qed.
Lemma muda_blocked : ~ (forall (S : sorter) (d : df) (fl : list bool) tm ex, qty_pos d -> price_nonneg d -> labels_unique d -> asks_pos d -> prices_distinct d ->
  muda S d fl = Ok (tm, ex) -> forall h q, half_of ex d h (Fin q) -> forall g y, incl g h -> ~ blocks (tm_trans tm) g y).
Proof.
  intro H. destruct split5_ok as (A & B & C & D & F). destruct split5_run as (tm & ex & q & E & X & _ & V).
  refine (H SS split5 flips5 tm ex A B C D F E _ q X [row_at split5 1; row_at split5 2] both _ (pairb_is _ _ _ _ V eq_refl eq_refl (Qcle_refl _) (Qcle_refl _))).
  intros x [<-|[<-|[]]]; cbn; auto.
Qed.
Lemma p2p_envy : ~ (forall (d : df) (c : Qc) (r : nat -> nat) tm ex, qty_pos d -> price_nonneg d -> labels_unique d -> asks_pos d -> 0 <= c -> c <= 1 ->
  p2p_random d c r = Ok (tm, ex) ->
  forall x x' t, In x d -> In x' d -> buying x' = buying x -> price x' = price x -> qty x' = qty x ->
    In t (tm_trans tm) -> t_bid t = lbl x' -> ~ envies (tm_trans tm) x t).
Proof.
  intro H. destruct twins_ok as (A & B & C & D). destruct twins_run as (tm & ex & E & V & _). destruct (envyb_is _ _ _ _ V) as (t & Ht & Et & G).
  refine (H twins (qf 1 2) _ tm ex A B C D _ _ E (row_at twins 1) (row_at twins 0) t _ _ eq_refl eq_refl eq_refl Ht Et G); [qlra | qlra | right; left; reflexivity | left; reflexivity].
Qed.
Lemma p2p_blocked : ~ (forall (d : df) (c : Qc) (r : nat -> nat) tm ex, qty_pos d -> price_nonneg d -> labels_unique d -> asks_pos d -> 0 <= c -> c <= 1 ->
  p2p_random d c r = Ok (tm, ex) -> forall g y, incl g d -> ~ blocks (tm_trans tm) g y).
Proof.
  intro H. destruct twins_ok as (A & B & C & D). destruct twins_run as (tm & ex & E & _ & V).
  refine (H twins (qf 1 2) _ tm ex A B C D _ _ E [row_at twins 1; row_at twins 2] both _ (pairb_is _ _ _ _ V eq_refl eq_refl (Qcle_refl _) (Qcle_refl _))); [qlra | qlra |].
  intros x [<-|[<-|[]]]; cbn; auto.
Qed.
