(** Where buyers and sellers are not treated alike. *)
From Verif Require Import QcTac Num ModelBase ModelCurves ModelHuang ModelMuda Spec SpecTrade SpecMuda SpecDual Sorter Conform MudaWitness.

Definition huang_asym : df := frame [B (qz 5) (qz 10) 0; A 1 (qz 2) 1; A 1 (qz 3) 2].
Lemma huang_asym_ok : qty_nonneg huang_asym /\ inside (qz 12) huang_asym /\ prices_distinct huang_asym /\
  exists ps pb q q', huang_auction SS huang_asym = Ok (tm_init, XHuang ps pb q) /\
    huang_auction SS (map (flip (qz 12)) huang_asym) = Ok (tm_init, XHuang (qz 12 - pb) (qz 12 - ps) q') /\ q = 0 /\ 0 < q'.
Proof.
  split; [each_row; vm_compute; discriminate|]. split; [each_row; split; vm_compute; reflexivity|]. split; [split; no_dup|].
  do 4 eexists. split; [vm_compute; reflexivity|]. split; [vm_compute; reflexivity|]. split; [reflexivity | vm_compute; reflexivity].
Qed.

Definition muda_asym : df := frame [B 1 (qz 9) 0; B 1 (qz 8) 1; A 1 (qz 2) 2; B 1 (qz 7) 0; A 1 (qz 3) 3].
Definition muda_asym_flips : list bool := [true; true; true; false; false].
Lemma muda_asym_ok : qty_nonneg muda_asym /\ inside (qz 10) muda_asym /\ prices_distinct muda_asym /\ labels_unique muda_asym /\
  exists tm tm' l r pl pr pl' pr' f f', muda SS muda_asym muda_asym_flips = Ok (tm, XMuda l r pl pr f) /\
    muda SS (map (flip (qz 10)) muda_asym) muda_asym_flips = Ok (tm', XMuda l r pl' pr' f') /\
    fee_of f 0 = 0 /\ fee_of f' 0 = qz 3.
Proof.
  split; [each_row; vm_compute; discriminate|]. split; [each_row; split; vm_compute; reflexivity|]. split; [split; no_dup|]. split; [no_dup|].
  do 10 eexists. split; [vm_compute; reflexivity|]. split; [vm_compute; reflexivity|]. split; reflexivity.
Qed.

Lemma huang_quantity_refuted :
  ~ forall (M : Qc) (S S' : sorter) (d : df), qty_nonneg d -> inside M d -> prices_distinct d ->
    forall tm tm' ps pb q ps' pb' q', huang_auction S d = Ok (tm, XHuang ps pb q) -> huang_auction S' (map (flip M) d) = Ok (tm', XHuang ps' pb' q') -> q' = q.
Proof.
  intro H. destruct huang_asym_ok as (H1 & H2 & H3 & ps & pb & q & q' & E & E' & Z & P). specialize (H _ SS SS _ H1 H2 H3 _ _ _ _ _ _ _ _ E E'). subst. discriminate P.
Qed.
Lemma muda_fees_refuted :
  ~ forall (M : Qc) (S S' : sorter) (d : df) (fl : list bool), qty_nonneg d -> inside M d -> prices_distinct d -> labels_unique d ->
    forall tm tm' l r pl pr l' r' pl' pr' f f', muda S d fl = Ok (tm, XMuda l r pl pr f) -> muda S' (map (flip M) d) fl = Ok (tm', XMuda l' r' pl' pr' f') -> f' = f.
Proof.
  intro H. destruct muda_asym_ok as (H1 & H2 & H3 & H4 & tm & tm' & l & r & pl & pr & pl' & pr' & f & f' & E & E' & Z & Z').
  specialize (H _ SS SS _ _ H1 H2 H3 H4 _ _ _ _ _ _ _ _ _ _ _ _ E E'). subst f'. rewrite Z in Z'. discriminate Z'.
Qed.
