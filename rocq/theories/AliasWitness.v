(** Runs of MUDA in which a lie pays: bids on both sides, in both halves, a second name in the other half, two users together. *)
From Verif Require Import QcTac Num ModelBase ModelCurves ModelHuang ModelMuda Spec SpecTrade SpecMuda SpecAlias Sorter HuangFacts MudaWitness Conform.

(** what [u] has in the end with the transactions and fees of a run, if the run is one of MUDA *)
Definition net (d : df) (u : Z) (x : res (transmgr * extra)) : option Qc :=
  match x with Ok (tm, XMuda _ _ _ _ fees) => Some (profit d u (tm_trans tm) - fee_of fees u) | _ => None end.
Definition all_left (d : df) (u : Z) (x : res (transmgr * extra)) : bool :=
  match x with Ok (_, XMuda l _ _ _ _) => forallb (fun r => negb (Z.eqb (user r) u) || existsb (Nat.eqb (lbl r)) l) d | _ => false end.
Definition olt (a b : option Qc) : bool := match a, b with Some a, Some b => qltb a b | _, _ => false end.
Definition oplus (a b : option Qc) : option Qc := match a, b with Some a, Some b => Some (a + b) | _, _ => None end.

Lemma net_lt d u x x' : olt (net d u x) (net d u x') = true -> exists tm tm' l r pl pr fees l' r' pl' pr' fees',
  x = Ok (tm, XMuda l r pl pr fees) /\ x' = Ok (tm', XMuda l' r' pl' pr' fees') /\
  profit d u (tm_trans tm) - fee_of fees u < profit d u (tm_trans tm') - fee_of fees' u.
Proof.
  destruct x as [[tm [| |l r pl pr fees| |]]|]; try discriminate. destruct x' as [[tm' [| |l' r' pl' pr' fees'| |]]|]; try discriminate.
  cbn [olt net]. intro E. apply qltb_lt in E. exists tm, tm', l, r, pl, pr, fees, l', r', pl', pr', fees'. auto.
Qed.
Lemma all_left_ok d u tm l r pl pr fees : all_left d u (Ok (tm, XMuda l r pl pr fees)) = true -> forall x, In x d -> user x = u -> In (lbl x) l.
Proof.
  cbn [all_left]. intros E x Hx Eu. apply (proj1 (forallb_forall _ _) E) in Hx. rewrite Eu, Z.eqb_refl in Hx. cbn in Hx.
  apply existsb_exists in Hx. destruct Hx as (i & Hi & E'). apply Nat.eqb_eq in E'. rewrite E'. exact Hi.
Qed.
Ltac misreported :=
  repeat (constructor; [split; [reflexivity|split; [reflexivity|split; [reflexivity|split; [vm_compute; congruence|split; [vm_compute; congruence|
    let K := fresh in intro K; first [exfalso; apply K; reflexivity | reflexivity]]]]]]|]); constructor.

(** user 0 buys and sells in the left half *)
Definition two_sides (p : Z) : df :=
  frame [B (qz 1) (qz 10) 0; A (qz 1) (qz p) 0; B (qz 1) (qz 9) 1; B (qz 1) (qz 6) 2; A (qz 1) (qz 1) 3; B (qz 1) (qz 8) 4; A (qz 1) (qz 2) 5].
Definition two_sides_flips : list bool := [true; true; true; true; true; false; false].
Lemma two_sides_lie : exists (S : sorter) (d d' : df) (fl : list bool) (u : Z) tm tm' l r pl pr fees l' r' pl' pr' fees',
  qty_pos d /\ price_nonneg d /\ labels_unique d /\ (forall x, In x d -> (0 <= user x)%Z) /\ Forall2 (misreport u) d d' /\
  muda S d fl = Ok (tm, XMuda l r pl pr fees) /\ muda S d' fl = Ok (tm', XMuda l' r' pl' pr' fees') /\
  (forall x, In x d -> user x = u -> In (lbl x) l) /\
  profit d u (tm_trans tm) - fee_of fees u < profit d u (tm_trans tm') - fee_of fees' u.
Proof.
  assert (C : olt (net (two_sides 6) 0 (muda SS (two_sides 6) two_sides_flips)) (net (two_sides 6) 0 (muda SS (two_sides 4) two_sides_flips)) = true) by (vm_compute; reflexivity).
  assert (CL : all_left (two_sides 6) 0 (muda SS (two_sides 6) two_sides_flips) = true) by (vm_compute; reflexivity).
  destruct (net_lt _ _ _ _ C) as (tm & tm' & l & r & pl & pr & fees & l' & r' & pl' & pr' & fees' & E & E' & Lt). rewrite E in CL.
  exists SS, (two_sides 6), (two_sides 4), two_sides_flips, 0%Z, tm, tm', l, r, pl, pr, fees, l', r', pl', pr', fees'.
  split; [each_row|]. split; [each_row|]. split; [apply rows_from_unique|]. split; [each_row|]. split; [misreported|].
  split; [exact E|]. split; [exact E'|]. split; [exact (all_left_ok _ _ _ _ _ _ _ _ CL) | exact Lt].
Qed.
(** user 0 buys in both halves *)
Definition both_halves (p : Z) : df := frame [B (qz 1) (qz 10) 0; A (qz 1) (qz 1) 1; B (qz 1) (qz p) 0; A (qz 1) (qz 2) 2].
Definition both_flips : list bool := [true; true; false; false].
Lemma both_halves_lie : exists (S : sorter) (d d' : df) (fl : list bool) (u : Z) tm tm' l r pl pr fees l' r' pl' pr' fees',
  qty_pos d /\ price_nonneg d /\ labels_unique d /\ (forall x, In x d -> (0 <= user x)%Z) /\ Forall2 (misreport u) d d' /\
  muda S d fl = Ok (tm, XMuda l r pl pr fees) /\ muda S d' fl = Ok (tm', XMuda l' r' pl' pr' fees') /\
  (forall x, In x d -> user x = u -> buying x = true) /\
  profit d u (tm_trans tm) - fee_of fees u < profit d u (tm_trans tm') - fee_of fees' u.
Proof.
  assert (C : olt (net (both_halves 6) 0 (muda SS (both_halves 6) both_flips)) (net (both_halves 6) 0 (muda SS (both_halves 4) both_flips)) = true) by (vm_compute; reflexivity).
  destruct (net_lt _ _ _ _ C) as (tm & tm' & l & r & pl & pr & fees & l' & r' & pl' & pr' & fees' & E & E' & Lt).
  exists SS, (both_halves 6), (both_halves 4), both_flips, 0%Z, tm, tm', l, r, pl, pr, fees, l', r', pl', pr', fees'.
  split; [each_row|]. split; [each_row|]. split; [apply rows_from_unique|]. split; [each_row|]. split; [misreported|].
  split; [exact E|]. split; [exact E'|]. split; [|exact Lt]. intros x Hx Eu. repeat (destruct Hx as [<-|Hx]; [revert Eu; vm_compute; congruence|]). contradiction.
Qed.
(** users 0 and 1 compete in the left half *)
Definition rivals (p : Z) : df := frame [B (qz 1) (qz 10) 0; B (qz 1) (qz p) 1; A (qz 1) (qz 1) 2; B (qz 1) (qz 6) 3; A (qz 1) (qz 2) 4].
Definition rivals_flips : list bool := [true; true; true; false; false].
Lemma net2_lt d u w x x' : olt (oplus (net d u x) (net d w x)) (oplus (net d u x') (net d w x')) = true -> exists tm tm' l r pl pr fees l' r' pl' pr' fees',
  x = Ok (tm, XMuda l r pl pr fees) /\ x' = Ok (tm', XMuda l' r' pl' pr' fees') /\
  (profit d u (tm_trans tm) - fee_of fees u) + (profit d w (tm_trans tm) - fee_of fees w) < (profit d u (tm_trans tm') - fee_of fees' u) + (profit d w (tm_trans tm') - fee_of fees' w).
Proof.
  destruct x as [[tm [| |l r pl pr fees| |]]|]; try discriminate. destruct x' as [[tm' [| |l' r' pl' pr' fees'| |]]|]; try discriminate.
  cbn [olt oplus net]. intro E. apply qltb_lt in E. exists tm, tm', l, r, pl, pr, fees, l', r', pl', pr', fees'. auto.
Qed.
Lemma rivals_lie : exists (S : sorter) (d d' : df) (fl : list bool) (u w : Z) tm tm' l r pl pr fees l' r' pl' pr' fees',
  qty_pos d /\ price_nonneg d /\ labels_unique d /\ (forall x, In x d -> (0 <= user x)%Z) /\ Forall2 (misreport w) d d' /\
  muda S d fl = Ok (tm, XMuda l r pl pr fees) /\ muda S d' fl = Ok (tm', XMuda l' r' pl' pr' fees') /\
  (forall x, In x d -> user x = u \/ user x = w -> buying x = true /\ In (lbl x) l) /\
  (profit d u (tm_trans tm) - fee_of fees u) + (profit d w (tm_trans tm) - fee_of fees w) < (profit d u (tm_trans tm') - fee_of fees' u) + (profit d w (tm_trans tm') - fee_of fees' w).
Proof.
  assert (C : olt (oplus (net (rivals 9) 0 (muda SS (rivals 9) rivals_flips)) (net (rivals 9) 1 (muda SS (rivals 9) rivals_flips)))
    (oplus (net (rivals 9) 0 (muda SS (rivals 3) rivals_flips)) (net (rivals 9) 1 (muda SS (rivals 3) rivals_flips))) = true) by (vm_compute; reflexivity).
  assert (CL : all_left (rivals 9) 0 (muda SS (rivals 9) rivals_flips) && all_left (rivals 9) 1 (muda SS (rivals 9) rivals_flips) = true) by (vm_compute; reflexivity).
  apply andb_true_iff in CL. destruct CL as [CL CL'].
  destruct (net2_lt _ _ _ _ _ C) as (tm & tm' & l & r & pl & pr & fees & l' & r' & pl' & pr' & fees' & E & E' & Lt). rewrite E in CL, CL'.
  exists SS, (rivals 9), (rivals 3), rivals_flips, 0%Z, 1%Z, tm, tm', l, r, pl, pr, fees, l', r', pl', pr', fees'.
  split; [each_row|]. split; [each_row|]. split; [apply rows_from_unique|]. split; [each_row|]. split; [misreported|].
  split; [exact E|]. split; [exact E'|]. split; [|exact Lt]. intros x Hx Eu. split.
  - clear - Hx Eu. repeat (destruct Hx as [<-|Hx]; [revert Eu; vm_compute; intros [|]; congruence|]). contradiction.
  - destruct Eu as [Eu|Eu]; [exact (all_left_ok _ _ _ _ _ _ _ _ CL x Hx Eu) | exact (all_left_ok _ _ _ _ _ _ _ _ CL' x Hx Eu)].
Qed.

(** user 1 sells in the left half and bids in the right half under the name 4 *)
Definition honest : df := frame [B (qz 1) (qz 10) 0; A (qz 1) (qz 1) 1; B (qz 1) (qz 6) 2; A (qz 2) (qz 2) 3].
Definition masked : df := frame [B (qz 1) (qz 10) 0; A (qz 1) (qz 1) 1; B (qz 1) (qz 6) 2; A (qz 2) (qz 2) 3; B (qz 1) (qz 5) 4].
Definition mask_flips : list bool := [true; true; false; false].
Definition mask_ok (x x' : res (transmgr * extra)) (y : nat -> Qc) : bool :=
  match x, x' with
  | Ok (tm, XMuda l r _ _ fees), Ok (tm', XMuda l' r' _ _ fees') =>
      forallb (fun x => (qleb 0 (y (lbl x)) && qleb (y (lbl x)) (qty x))) (by_user 1 honest) &&
      qeqb (qsumf (fun r => y (lbl r)) (by_user 1 honest)) (names_qty masked [1; 4]%Z (tm_trans tm')) &&
      qltb (profit honest 1 (tm_trans tm) - fee_of fees 1) (use_gain false (by_user 1 honest) y (names_pay masked [1; 4]%Z (tm_trans tm')) - names_fee [1; 4]%Z fees')
  | _, _ => false
  end.
Lemma mask_lt x x' y : mask_ok x x' y = true -> exists tm tm' l r pl pr fees l' r' pl' pr' fees',
  x = Ok (tm, XMuda l r pl pr fees) /\ x' = Ok (tm', XMuda l' r' pl' pr' fees') /\ uses false (by_user 1 honest) (names_qty masked [1; 4]%Z (tm_trans tm')) y /\
  profit honest 1 (tm_trans tm) - fee_of fees 1 < use_gain false (by_user 1 honest) y (names_pay masked [1; 4]%Z (tm_trans tm')) - names_fee [1; 4]%Z fees'.
Proof.
  destruct x as [[tm [| |l r pl pr fees| |]]|]; try discriminate. destruct x' as [[tm' [| |l' r' pl' pr' fees'| |]]|]; try discriminate.
  cbn [mask_ok]. intro E. apply andb_true_iff in E. destruct E as [E E3]. apply andb_true_iff in E. destruct E as [E1 E2].
  apply qltb_lt in E3. apply qeqb_eq in E2. exists tm, tm', l, r, pl, pr, fees, l', r', pl', pr', fees'. split; [reflexivity|]. split; [reflexivity|]. split; [|exact E3].
  split; [|exact E2]. intros r0 Hr. apply (proj1 (forallb_forall _ _) E1) in Hr. apply andb_true_iff in Hr. destruct Hr as [H1 H2]. split; apply qleb_le; assumption.
Qed.
Definition halves_of (x : res (transmgr * extra)) : list nat * list nat := match x with Ok (_, XMuda l r _ _ _) => (l, r) | _ => ([], []) end.
Lemma mask_lie : exists (S : sorter) (d d' : df) (fl fl' : list bool) (u : Z) (W : list Z) (y : nat -> Qc) tm tm' l r pl pr fees l' r' pl' pr' fees',
  qty_pos d /\ price_nonneg d /\ labels_unique d /\ (forall x, In x d -> (0 <= user x)%Z) /\ qty_pos d' /\ price_nonneg d' /\ labels_unique d' /\ (forall x, In x d' -> (0 <= user x)%Z) /\
  muda S d fl = Ok (tm, XMuda l r pl pr fees) /\ muda S d' fl' = Ok (tm', XMuda l' r' pl' pr' fees') /\
  not_by_names W (rows_in l' d') = not_by u (rows_in l d) /\ not_by_names W (rows_in r' d') = not_by u (rows_in r d) /\
  uses false (by_user u d) (names_qty d' W (tm_trans tm')) y /\
  profit d u (tm_trans tm) - fee_of fees u < use_gain false (by_user u d) y (names_pay d' W (tm_trans tm')) - names_fee W fees'.
Proof.
  assert (C : mask_ok (muda SS honest mask_flips) (muda SS masked mask_flips) (fun _ => qz 1) = true) by (vm_compute; reflexivity).
  destruct (mask_lt _ _ _ C) as (tm & tm' & l & r & pl & pr & fees & l' & r' & pl' & pr' & fees' & E & E' & U & Lt).
  assert (X : halves_of (muda SS honest mask_flips) = ([0; 1]%nat, [2; 3]%nat)) by (vm_compute; reflexivity).
  assert (X' : halves_of (muda SS masked mask_flips) = ([0; 1]%nat, [2; 3; 4]%nat)) by (vm_compute; reflexivity).
  rewrite E in X. rewrite E' in X'. cbn [halves_of] in X, X'. injection X as -> ->. injection X' as -> ->.
  exists SS, honest, masked, mask_flips, mask_flips, 1%Z, [1; 4]%Z, (fun _ => qz 1), tm, tm', [0; 1]%nat, [2; 3]%nat, pl, pr, fees, [0; 1]%nat, [2; 3; 4]%nat, pl', pr', fees'.
  split; [each_row|]. split; [each_row|]. split; [apply rows_from_unique|]. split; [each_row|]. split; [each_row|]. split; [each_row|]. split; [apply rows_from_unique|]. split; [each_row|].
  split; [exact E|]. split; [exact E'|]. split; [reflexivity|]. split; [reflexivity|]. split; assumption.
Qed.
