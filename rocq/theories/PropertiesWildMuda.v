(** C103: infinite and NaN prices in MUDA. *)
From Verif Require Import QcTac Num ModelBase ModelCurves ModelHuang ModelMuda ModelAny ModelWild ModelWildMuda Spec SpecWild SpecWildMuda WildSort WildMudaTop WildMudaFin.

(** Tables with rational prices: MUDA of the main model, errors included. *)
Theorem C103_finite : forall S d fl, exists S', w_muda S (map wrow_of d) fl = match muda S' d fl with Ok x => Ok (lift_run x) | Err e => Err e end.
Proof. exact w_muda_finite. Qed.
Print Assumptions C103_finite.

(** Any prices: the bids are split in two halves, each half trades at the competitive price of the other, only bids that accept this price
    take part (no NaN bid), as much as possible is bought and sold, better bids first; fees are nonnegative or infinite, never NaN. *)
Theorem C103_fair : forall S d fl ts e, w_qty_nonneg d -> NoDup (map w_lbl d) -> w_muda S d fl = Ok (ts, e) ->
  Permutation (e_left e ++ e_right e) (map w_lbl d) /\
  w_comp_price S (w_rows_in (e_left e) d) = Ok (e_price_left e) /\ w_comp_price S (w_rows_in (e_right e) d) = Ok (e_price_right e) /\
  (exists tl tr, ts = tl ++ tr /\ HalfFair (w_rows_in (e_left e) d) (e_price_right e) tl /\ HalfFair (w_rows_in (e_right e) d) (e_price_left e) tr) /\
  length (e_fees e) = length (uniqueZ (map w_user d)) /\ Forall fee_like (e_fees e).
Proof. exact w_muda_fair. Qed.
Print Assumptions C103_fair.

(** The run succeeds if users are numbered from 0 and nobody has two bids at one price on a side; NaN prices never count as equal. *)
Theorem C103_runs : forall S d fl, w_qty_nonneg d -> NoDup (map w_lbl d) ->
  (forall x, In x d -> (0 <= w_user x)%Z /\ (w_user x < Z.of_nat (length (uniqueZ (map w_user d))))%Z) ->
  w_dup (w_buyers d) = false -> w_dup (w_sellers d) = false -> exists ts e, w_muda S d fl = Ok (ts, e).
Proof. exact w_muda_runs. Qed.
Print Assumptions C103_runs.

(** Otherwise these errors, and no other. *)
Theorem C103_errors : forall S d fl e, w_qty_nonneg d -> NoDup (map w_lbl d) -> w_muda S d fl = Err e ->
  (e = NotImplementedError /\ (w_dup (w_buyers d) = true \/ w_dup (w_sellers d) = true)) \/ e = IndexError.
Proof. exact w_muda_errors. Qed.
Print Assumptions C103_errors.

(** A half trades as if its NaN bids were not there, and not at all at the price NaN.  (The price of the other half does depend on them.) *)
Theorem C103_nan : forall S d p f, w_half S (filter not_nan d) p f = w_half S d p f /\ w_half S d NaN f = Ok ([], f).
Proof. exact (fun S d p f => conj (nan_left_out S d p f) (nan_price S d f)). Qed.
Print Assumptions C103_nan.

(** If all bids fall in one half, the price is infinite: bids to buy at any price are served at this price, as far as there is supply. *)
Theorem C103_one_half : forall S d fl ts e, w_qty_nonneg d -> NoDup (map w_lbl d) -> w_muda S d fl = Ok (ts, e) -> e_right e = [] ->
  (forall t, In t ts -> x_price t = PInf) /\ forall b, w_moved b d ts = qmin (wanted_at_any_price d) (offered (filter not_nan d)).
Proof. exact one_half. Qed.
Print Assumptions C103_one_half.

(** ** Examples *)
Definition bid (i : nat) (q : Qc) (p : num) (b : bool) : wrow := mkWRow i q p (Z.of_nat i) b 0 true.
Definition plain (v : num) : option Q := match v with Fin q => Some (this q) | _ => None end.
Definition show (r : res (list (atrans Qc num) * wextra)) : option (list (nat * Q * option Q) * option Q * option Q * list (option Q)) :=
  match r with
  | Ok (ts, e) => Some (map (fun t => (x_bid t, this (x_qty t), plain (x_price t))) ts, plain (e_price_left e), plain (e_price_right e), map plain (e_fees e))
  | Err _ => None
  end.
Definition ex : wdf := [bid 0 (qz 2) PInf true; bid 1 1 (Fin (qz 4)) true; bid 2 (qz 3) (Fin 1) false; bid 3 (qz 2) (Fin (qz 3)) false;
                        bid 4 1 (Fin (qz 8)) true; bid 5 1 (Fin (qz 2)) false; bid 6 1 NaN true; bid 7 1 (Fin (qz 5)) true; bid 8 1 PInf true].
Definition halves : list bool := [true; true; true; false; false; false; true; false; false].
(** buyer 0 buys at any price; in the left half three units are traded at 4, in the right half one at an infinite price, with an infinite fee
    for the seller 5; the NaN bid 6 does not trade *)
Example C103_fair_ex : show (w_muda w_stable ex halves) =
  Some ([(2%nat, 3, Some 4); (0%nat, 2, Some 4); (1%nat, 1, Some 4); (8%nat, 1, None); (5%nat, 1, None)]%Q, None, Some 4%Q,
        [Some 0; Some 0; Some 0; Some 0; Some 0; None; Some 0; Some 0; Some 0]%Q).
Proof. vm_compute. reflexivity. Qed.
(** the hypotheses of [C103_fair] and [C103_runs] *)
Example C103_hyp_ex : map w_lbl ex = seq 0 9 /\ w_dup (w_buyers ex) = false /\ w_dup (w_sellers ex) = false /\ length (uniqueZ (map w_user ex)) = 9%nat.
Proof. vm_compute. auto. Qed.
(** all bids in one half: the three units wanted at any price are sold at an infinite price *)
Example C103_one_half_ex : show (w_muda w_stable ex (repeat true 9)) =
  Some ([(0%nat, 2, None); (8%nat, 1, None); (2%nat, 3, None)]%Q, None, None, [Some 0; Some 0; None; Some 0; Some 0; Some 0; Some 0; Some 0; Some 0]%Q) /\
  this (wanted_at_any_price ex) = 3%Q /\ this (offered (filter not_nan ex)) = 6%Q.
Proof. vm_compute. auto. Qed.
(** a user with two bids at any price *)
Example C103_errors_ex : show (w_muda w_stable (mkWRow 9 1 PInf 0 true 0 true :: ex) halves) = None.
Proof. vm_compute. reflexivity. Qed.
(** two NaN bids of a user are no error *)
Example C103_nan_ex : show (w_muda w_stable (mkWRow 9 1 NaN 6 true 0 true :: ex) (true :: halves)) = show (w_muda w_stable ex halves).
Proof. vm_compute. reflexivity. Qed.
(** rational prices *)
Example C103_finite_ex : show (w_muda w_stable (map wrow_of (map (cap_row (qz 9)) ex)) halves) =
  match muda Sorter.stable_sorter (map (cap_row (qz 9)) ex) halves with Ok x => show (Ok (lift_run x)) | Err e => None end.
Proof. vm_compute. reflexivity. Qed.

(** ** What is not so *)
Definition few : wdf := [bid 0 1 PInf true; bid 1 1 (Fin 1) false; bid 2 1 (Fin (qz 2)) false].
Lemma few_run : exists ts e, w_muda w_stable few [true; true; true] = Ok (ts, e) /\ In (mkATrans 1 1 PInf (-1) false) ts /\ nth_error (e_fees e) 1 = Some PInf.
Proof.
  destruct (w_muda w_stable few [true; true; true]) as [[ts e]|er] eqn:E; [|vm_compute in E; discriminate E]. exists ts, e. split; [reflexivity|].
  vm_compute in E. injection E as <- <-. split; [right; left; f_equal | reflexivity].
Qed.
(** Nobody asks for an infinite price, but it is paid. *)
Theorem C103_price_refuted : ~ (forall S d fl ts e, w_qty_pos d -> NoDup (map w_lbl d) -> (forall x, In x d -> w_buying x = false -> exists q, w_price x = Fin q) ->
  w_muda S d fl = Ok (ts, e) -> forall t, In t ts -> x_price t <> PInf).
Proof.
  intro H. destruct few_run as (ts & e & E & I & _). refine (H w_stable few [true; true; true] ts e _ _ _ E _ I eq_refl).
  - intros x [<-|[<-|[<-|[]]]]; reflexivity.
  - cbn. repeat constructor; cbn; intuition discriminate.
  - intros x [<-|[<-|[<-|[]]]] B; try discriminate B; eexists; reflexivity.
Qed.
Print Assumptions C103_price_refuted.
(** A user whose bids are all finite can be charged an infinite fee. *)
Theorem C103_fee_refuted : ~ (forall S d fl ts e u, w_qty_pos d -> NoDup (map w_lbl d) -> (forall x, In x d -> w_user x = Z.of_nat u -> exists q, w_price x = Fin q) ->
  w_muda S d fl = Ok (ts, e) -> nth_error (e_fees e) u <> Some PInf).
Proof.
  intro H. destruct few_run as (ts & e & E & _ & N). refine (H w_stable few [true; true; true] ts e 1%nat _ _ _ E N).
  - intros x [<-|[<-|[<-|[]]]]; reflexivity.
  - cbn. repeat constructor; cbn; intuition discriminate.
  - intros x [<-|[<-|[<-|[]]]] B; try discriminate B; eexists; reflexivity.
Qed.
Print Assumptions C103_fee_refuted.
