(** Property C87: if no sum of best buyers is close to a sum of best sellers, rounding does not change the outcome of the
    Huang auction, the MUDA auction and the uniform price mechanism except for the quantities, and these only a little. *)
From Verif Require Import QcTac Num NumFacts ModelBase ModelCurves ModelHuang ModelMuda ModelMarket ModelUniform ModelRound ModelRoundUniform ModelFloat Spec SpecRound SpecMuda SpecSep Sorter Conform
  RoundFacts RoundError RoundMuda MudaHalf MudaFacts RoundTop SepFacts SepHuang SepPrice SepTop SepWitness.

(** Huang's auction: the same trades at the same prices. *)
Theorem C87_huang :
  forall (R : rounding) (u : Qc), rel_error R u -> u < 1 -> forall (A : adder R) (S : sorter) (d : df),
    qty_nonneg d -> machine_qty R d -> separated (slack u d) d -> alike_outcome (slack u d) (huang_auction S d) (huang_auction_r R A S d).
Proof. exact huang_alike. Qed.
Print Assumptions C87_huang.

(** The competitive price is the same number. *)
Theorem C87_price :
  forall (R : rounding) (u : Qc), rel_error R u -> forall (S : sorter) (d : df),
    qty_nonneg d -> price_nonneg d -> machine_qty R d -> separated (slack u d) d -> find_competitive_price_r R S d = find_competitive_price S d.
Proof. exact price_same. Qed.
Print Assumptions C87_price.

(** MUDA: if the two halves are separated, the same halves trade the same at the same prices. *)
Theorem C87_muda :
  forall (R : rounding) (u : Qc), rel_error R u -> forall (A : adder R) (S : sorter) (d : df),
    qty_nonneg d -> price_nonneg d -> machine_qty R d -> forall fl : list bool, labels_unique d ->
    separated (slack u (rows_in (left_of d fl) d)) (rows_in (left_of d fl) d) ->
    separated (slack u (rows_in (right_of d fl) d)) (rows_in (right_of d fl) d) ->
    alike_muda (slack u d) (muda S d fl) (muda_r R A S d fl).
Proof. exact muda_alike. Qed.
Print Assumptions C87_muda.

(** The uniform price mechanism: the same trades at the same price. *)
Theorem C87_uniform :
  forall (R : rounding) (u : Qc), rel_error R u -> forall (A : adder R) (S : sorter) (d : df),
    qty_nonneg d -> price_nonneg d -> machine_qty R d -> separated (slack u d) d ->
    alike_uniform (slack u d) (uniform_price_mechanism S d) (uniform_price_mechanism_r R A S d).
Proof. exact uniform_alike. Qed.
Print Assumptions C87_uniform.

(** Without the separation it is false: the buyers ask for 0.1 and 0.9, the first seller offers 1. In exact arithmetic
    the two doubles add up to slightly more than 1 and there are trades; in double precision they add up to 1, there are
    none, and the competitive price is another one. *)
Theorem C87_ties_refuted : exists d, labels_unique d /\ qty_nonneg d /\ price_nonneg d /\ machine_qty f64 d /\
  (exists tm x, huang_auction SS d = Ok (tm, x) /\ tm_trans tm <> []) /\ (exists tm x, huang_auction_r f64 NP SS d = Ok (tm, x) /\ tm_trans tm = []) /\
  find_competitive_price_r f64 SS d <> find_competitive_price SS d.
Proof. exact tied_all. Qed.
Print Assumptions C87_ties_refuted.

(** Eight bids of tenths and hundredths in double precision: five trades, in slightly different quantities. *)
Example C87_apart : separated (slack (p2 (-53)) apart8) apart8.
Proof. apply separatedb_ok; [apply qleb_le; vm_compute; reflexivity | vm_compute; reflexivity]. Qed.
Example C87_run : alike_outcome (slack (p2 (-53)) apart8) (huang_auction SS apart8) (huang_auction_r f64 NP SS apart8) /\
  match huang_auction SS apart8, huang_auction_r f64 NP SS apart8 with
  | Ok (tm, _), Ok (tm', _) => length (tm_trans tm) = 5%nat /\ forallb (fun p => qeqb (t_qty (fst p)) (t_qty (snd p))) (combine (tm_trans tm) (tm_trans tm')) = false
  | _, _ => False
  end.
Proof.
  split; [|vm_compute; split; reflexivity].
  apply (C87_huang f64 _ f64_rel); [apply qltb_lt; vm_compute; reflexivity | | |exact C87_apart].
  - intros x Hx. repeat (destruct Hx as [<-|Hx]; [apply qleb_le; vm_compute; reflexivity|]). contradiction.
  - machine_rows.
Qed.
