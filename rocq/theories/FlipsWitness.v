(** Lies that pay on average over the random split of MUDA, and the advantage of being first. *)
From Verif Require Import QcTac Num ModelBase ModelCurves ModelHuang ModelMuda ModelMarket Spec SpecTrade SpecMuda SpecOrder SpecUnits SpecChance SpecFlips Sorter Conform UnitFacts
  FlipsFacts FlipsMuda MudaWitness AliasWitness OrderWitness PlotWitness.

Definition better (a b : list bool -> Qc) (n : nat) (fl0 : list bool) : bool :=
  forallb (fun fl => qleb (a fl) (b fl)) (flips n) && qltb (a fl0) (b fl0) && Nat.eqb (length fl0) n.
Lemma better_mean a b n fl0 p : better a b n fl0 = true -> 0 < p -> p < 1 -> expect p n a < expect p n b.
Proof.
  intros H P1 P2. apply andb_true_iff in H. destruct H as [H L]. apply andb_true_iff in H. destruct H as [H Lt]. apply Nat.eqb_eq in L. apply qltb_lt in Lt.
  apply (expect_lt p n a b fl0); try assumption. intros fl E. apply qleb_le. apply (proj1 (forallb_forall _ _) H). apply flips_len, E.
Qed.
(** user 0 buys with two bids: with the lower one reduced it has more for every split *)
Theorem two_bids_mean : exists (S : sorter) (d d' : df) (u : Z), qty_pos d /\ price_nonneg d /\ price_nonneg d' /\ labels_unique d /\ (forall x, In x d -> (0 <= user x)%Z) /\
  Forall2 (misreport u) d d' /\ (forall x, In x d -> user x = u -> buying x = true) /\
  forall p, 0 < p -> p < 1 -> expect p (length d) (fun fl => worth d u (muda S d fl)) < expect p (length d) (fun fl => worth d u (muda S d' fl)).
Proof.
  exists SS, (both_halves 6), (both_halves 4), 0%Z. split; [each_row|]. split; [each_row|]. split; [each_row|]. split; [apply HuangFacts.rows_from_unique|]. split; [each_row|]. split; [misreported|].
  split; [intros x Hx Eu; repeat (destruct Hx as [<-|Hx]; [revert Eu; vm_compute; congruence|]); contradiction|].
  intros p P1 P2. apply (better_mean _ _ _ both_flips); [vm_compute; reflexivity | exact P1 | exact P2].
Qed.
(** user 0 buys and sells: a lower ask pays on average, but not for every split *)
Theorem two_sides_mean : exists (S : sorter) (d d' : df) (u : Z), qty_pos d /\ price_nonneg d /\ price_nonneg d' /\ labels_unique d /\ (forall x, In x d -> (0 <= user x)%Z) /\
  Forall2 (misreport u) d d' /\ (exists fl, length fl = length d /\ worth d u (muda S d' fl) < worth d u (muda S d fl)) /\
  expect rand_half (length d) (fun fl => worth d u (muda S d fl)) < expect rand_half (length d) (fun fl => worth d u (muda S d' fl)).
Proof.
  exists SS, (two_sides 6), (two_sides 4), 0%Z. split; [each_row|]. split; [each_row|]. split; [each_row|]. split; [apply HuangFacts.rows_from_unique|]. split; [each_row|]. split; [misreported|].
  split; [|apply qltb_lt; vm_compute; reflexivity]. exists [true; true; true; true; false; false; false]. split; [reflexivity|]. apply qltb_lt. vm_compute. reflexivity.
Qed.
(** two buyers with the same price and quantity: the one submitted first buys more on average *)
Theorem first_served_mean : exists (S : sorter) (m : market) (b1 b2 : bid) rest, compares_prices S /\ bm_bids (mk_bm m) = b1 :: b2 :: rest /\ qty_pos (get_df (mk_bm m)) /\ price_nonneg (get_df (mk_bm m)) /\
  b_buying b1 = b_buying b2 /\ b_price b1 = b_price b2 /\ b_qty b1 = b_qty b2 /\
  forall p, 0 < p -> p < 1 ->
    expect p (length (bm_bids (mk_bm m))) (fun fl => quantity_of 1 (snd (market_run S m (AMuda fl)))) <
    expect p (length (bm_bids (mk_bm m))) (fun fl => quantity_of 0 (snd (market_run S m (AMuda fl)))).
Proof.
  exists SS, tied, first_buyer, second_buyer, others. split; [exact stable_compares|]. split; [reflexivity|]. split; [each_row|]. split; [each_row|].
  split; [reflexivity|]. split; [reflexivity|]. split; [reflexivity|]. intros p P1 P2. apply (better_mean _ _ _ tied_flips); [vm_compute; reflexivity | exact P1 | exact P2].
Qed.
