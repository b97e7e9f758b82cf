(** Change of units, attributes and names: statements used in PropertiesUnits.v *)
From Verif Require Import QcTac Num ModelBase ModelHuang ModelMuda ModelP2P ModelMerge ModelMarket ModelStats StoreFacts Spec SpecUnits Sorter UnitFacts UnitMech UnitMarket UnitStats UnitWitness.

Lemma frame_labels (m : market) : let d := get_df (mk_bm m) in map lbl d = seq 0 (length d).
Proof.
  cbv zeta. unfold get_df. generalize (bm_bids (mk_bm m)). generalize 0%nat. intros n l. revert n.
  induction l as [|x l IH]; intros n; [reflexivity|]. cbn [rows_from map length seq]. rewrite IH. reflexivity.
Qed.
Section Stats.
  Variables (sv : solver) (m m' : market) (a b : Qc) (ts : list trans).
  Hypothesis Hs : solver_ok sv.
  Hypothesis Ha : 0 < a.
  Hypothesis Hb : 0 < b.
  Let d := get_df (mk_bm m).
  Let d' := get_df (mk_bm m').
  Lemma top_ratios rp rp' : Forall2 (same_bid a b) d d' -> qty_nonneg d ->
    percentage_traded sv d' (map (trans_units a b) ts) = percentage_traded sv d ts /\
    percentage_welfare sv d' (map (trans_units a b) ts) rp' = percentage_welfare sv d ts rp.
  Proof.
    intros F Hq. split; [apply traded_units|apply welfare_units]; try assumption; apply frame_labels.
  Qed.
End Stats.
Lemma top_profits (a b : Qc) (d d' : df) ts rp fees : Forall2 (same_offer a b) d d' ->
  match fst (calculate_profits d ts rp fees),
    fst (calculate_profits d' (map (trans_units a b) ts) (option_map (map (fun iv => (fst iv, b * snd iv))) rp) (option_map (map (Qcmult (a * b))) fees)) with
  | Ok p, Ok p' => pr_bid p' = map (Qcmult (a * b)) (pr_bid p) /\ pr_reservation p' = map (Qcmult (a * b)) (pr_reservation p) /\ pr_market p' = a * b * pr_market p
  | Err e, Err e' => e' = e
  | _, _ => False
  end.
Proof.
  intros F. assert (K := profits_in_units a b d d' F ts rp fees). change (option_map (map (fun iv : nat * Qc => (fst iv, b * snd iv))) rp) with (option_map (dict_units b) rp). rewrite K. cbn [fst]. destruct (fst (calculate_profits d ts rp fees)); repeat split.
Qed.
