(** Property C88: rounding in peer to peer trading. If no sum of quantities to buy is close to a sum of quantities to
    sell, the same pairs meet in the same rounds and the trades are the same up to small differences of quantity and
    price. *)
From Verif Require Import QcTac Num NumFacts ModelBase ModelHuang ModelP2P ModelMarket ModelRound ModelFloat Spec SpecRound SpecSep Conform
  RoundFacts RoundError RoundTop SepFacts SepWitness SepP2P SepP2PWitness.

(** Quantities differ by at most the number of bids times [u] times the total quantity, prices by three roundings. *)
Theorem C88_p2p :
  forall (R : rounding) (u : Qc), rel_error R u -> forall (A : adder R) (d : df) (c : Qc) (r : nat -> nat),
    map lbl d = seq 0 (length d) -> qty_nonneg d -> machine_qty R d -> all_separated (qnat (length d) * (u * qsumf qty d)) d ->
    price_nonneg d -> 0 <= c -> c <= 1 ->
    alike_p2p (qnat (length d) * (u * qsumf qty d)) ((1 + u) ^ 3 - 1) (p2p_random d c r) (p2p_random_r R A d c r).
Proof. exact p2p_alike. Qed.
Print Assumptions C88_p2p.

(** Without the separation it is false: a buyer of 1 buys 0.1 and then 0.9 in double precision. The last seller has
    nothing left; in exact arithmetic the seller has a little left and stays active. *)
Theorem C88_ties_refuted : exists (d : df) (c : Qc) (r : nat -> nat), map lbl d = seq 0 (length d) /\ qty_nonneg d /\ price_nonneg d /\ machine_qty f64 d /\ 0 <= c /\ c <= 1 /\
  forall e k, ~ alike_p2p e k (p2p_random d c r) (p2p_random_r f64 NP d c r).
Proof. exact tied3_all. Qed.
Print Assumptions C88_ties_refuted.

(** Eight bids of tenths and hundredths in double precision. *)
Example C88_run : forall r, alike_p2p (qnat (length apart8) * (p2 (-53) * qsumf qty apart8)) ((1 + p2 (-53)) ^ 3 - 1) (p2p_random apart8 (qf 1 2) r) (p2p_random_r f64 NP apart8 (qf 1 2) r).
Proof.
  intro r. apply (C88_p2p f64 _ f64_rel).
  - reflexivity.
  - intros x Hx. repeat (destruct Hx as [<-|Hx]; [apply qleb_le; vm_compute; reflexivity|]). contradiction.
  - machine_rows.
  - apply separatedb_all; [apply qleb_le; vm_compute; reflexivity | vm_compute; reflexivity].
  - intros x Hx. repeat (destruct Hx as [<-|Hx]; [apply qleb_le; vm_compute; reflexivity|]). contradiction.
  - discriminate.
  - apply qleb_le; reflexivity.
Qed.
Example C88_run_trades : match p2p_random apart8 (qf 1 2) first with Ok (tm, _) => length (tm_trans tm) = 12%nat | _ => False end.
Proof. vm_compute. reflexivity. Qed.
