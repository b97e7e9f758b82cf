(** C67: which lies pay in MUDA. *)
From Verif Require Import QcTac Num ModelBase ModelCurves ModelHuang ModelMuda Spec SpecTrade SpecMuda SpecAlias AliasTruth AliasWitness Sorter Conform.

(** C67. A person has bids on one side in one half under the name [u].  If it submits any other bids on this side
    that are put into this half, under any names [W], the bids of the others being the same and in the same halves,
    it gains nothing, however it uses the quantity that it gets. *)
Theorem C67_truthful :
  forall (S : sorter) (d d' : df) (fl fl' : list bool) (tm tm' : transmgr) l r pl pr fees l' r' pl' pr' fees' (u : Z) (W : list Z) (b : bool) (y : nat -> Qc),
    qty_nonneg d -> price_nonneg d -> labels_unique d -> (forall x, In x d -> (0 <= user x)%Z) -> (0 <= u)%Z -> (forall x, In x d -> user x = u -> buying x = b) ->
    qty_nonneg d' -> labels_unique d' -> (forall x, In x d' -> (0 <= user x)%Z) -> NoDup W -> (forall w, In w W -> (0 <= w)%Z) -> (forall x, In x d' -> named W x = true -> buying x = b) ->
    muda S d fl = Ok (tm, XMuda l r pl pr fees) -> muda S d' fl' = Ok (tm', XMuda l' r' pl' pr' fees') ->
    not_by_names W (rows_in l' d') = not_by u (rows_in l d) -> not_by_names W (rows_in r' d') = not_by u (rows_in r d) ->
    (forall x, In x d -> user x = u -> In (lbl x) l) /\ (forall x, In x d' -> named W x = true -> In (lbl x) l') \/
    (forall x, In x d -> user x = u -> In (lbl x) r) /\ (forall x, In x d' -> named W x = true -> In (lbl x) r') ->
    uses b (by_user u d) (names_qty d' W (tm_trans tm')) y ->
    use_gain b (by_user u d) y (names_pay d' W (tm_trans tm')) - names_fee W fees' <= profit d u (tm_trans tm) - fee_of fees u.
Proof. exact alias_truthful. Qed.
Print Assumptions C67_truthful.
(** user 0 wants 2 units at 10 and pays a fee of 3 + 2 for them; as users 0 and 5 it pays 3 + 3 *)
Definition C67_one : df := frame [B (qz 2) (qz 10) 0; B (qz 1) (qz 7) 1; B (qz 1) (qz 6) 2; A (qz 2) (qz 1) 3; B (qz 1) (qz 6) 4; A (qz 1) (qz 2) 6].
Definition C67_two : df := frame [B (qz 1) (qz 10) 0; B (qz 1) (qz 7) 1; B (qz 1) (qz 6) 2; A (qz 2) (qz 1) 3; B (qz 1) (qz 6) 4; A (qz 1) (qz 2) 6; B (qz 1) (qz 10) 5].
Example C67_example :
  show (muda SS C67_one [true; true; true; true; false; false]) = Some ([(3%nat, 2, 4, (-1)%Z, false); (0%nat, 2, 4, (-1)%Z, false); (5%nat, 1, 11 # 2, (-1)%Z, false); (4%nat, 1, 11 # 2, (-1)%Z, false)],
    SM [0; 1; 2; 3]%nat [4; 5]%nat (Some (11 # 2)) (Some 4) [5; 0; 0; 0; 0; 0])%Q /\
  show (muda SS C67_two [true; true; true; true; false; false; true]) = Some ([(3%nat, 2, 4, (-1)%Z, false); (0%nat, 1, 4, (-1)%Z, false); (6%nat, 1, 4, (-1)%Z, false); (5%nat, 1, 11 # 2, (-1)%Z, false); (4%nat, 1, 11 # 2, (-1)%Z, false)],
    SM [0; 1; 2; 3; 6]%nat [4; 5]%nat (Some (11 # 2)) (Some 4) [3; 0; 0; 0; 0; 3; 0])%Q.
Proof. vm_compute. split; reflexivity. Qed.

(** The fees of several names together are at least what the others lose because of them. *)
Theorem C67_group_fee :
  forall (S : sorter) (d : df) (p : Qc) (fees : list Qc) (tm : transmgr) (fees' : list Qc) (b : bool) (W : list Z),
    qty_nonneg d -> labels_unique d -> (forall r, In r d -> (0 <= user r)%Z) -> solve_market_side S d (Fin p) fees = Ok (tm, fees') ->
    NoDup W -> (forall w, In w W -> (0 <= w)%Z /\ fee_of fees w = 0) -> (forall r, In r d -> named W r = true -> buying r = b) ->
    exists v, GroupFee d p b W (tm_trans tm) v /\ 0 <= v /\ v <= names_fee W fees'.
Proof. exact side_group_fee. Qed.
Print Assumptions C67_group_fee.

(** But lies can pay for a user with bids on both sides of a half, *)
Theorem C67_two_sides_refuted :
  exists (S : sorter) (d d' : df) (fl : list bool) (u : Z) tm tm' l r pl pr fees l' r' pl' pr' fees',
    qty_pos d /\ price_nonneg d /\ labels_unique d /\ (forall x, In x d -> (0 <= user x)%Z) /\ Forall2 (misreport u) d d' /\
    muda S d fl = Ok (tm, XMuda l r pl pr fees) /\ muda S d' fl = Ok (tm', XMuda l' r' pl' pr' fees') /\
    (forall x, In x d -> user x = u -> In (lbl x) l) /\
    profit d u (tm_trans tm) - fee_of fees u < profit d u (tm_trans tm') - fee_of fees' u.
Proof. exact two_sides_lie. Qed.
Print Assumptions C67_two_sides_refuted.
(** user 0 asks 4 instead of 6, sells at 5 with a loss of 1, and its fee as a buyer falls from 4 to 1 *)
Example C67_two_sides_example :
  map (option_map this) [net (two_sides 6) 0 (muda SS (two_sides 6) two_sides_flips); net (two_sides 6) 0 (muda SS (two_sides 4) two_sides_flips)] = [Some 1; Some 3]%Q.
Proof. vm_compute. reflexivity. Qed.
(** for a user with bids in both halves, even if they are on the same side, *)
Theorem C67_two_halves_refuted :
  exists (S : sorter) (d d' : df) (fl : list bool) (u : Z) tm tm' l r pl pr fees l' r' pl' pr' fees',
    qty_pos d /\ price_nonneg d /\ labels_unique d /\ (forall x, In x d -> (0 <= user x)%Z) /\ Forall2 (misreport u) d d' /\
    muda S d fl = Ok (tm, XMuda l r pl pr fees) /\ muda S d' fl = Ok (tm', XMuda l' r' pl' pr' fees') /\
    (forall x, In x d -> user x = u -> buying x = true) /\
    profit d u (tm_trans tm) - fee_of fees u < profit d u (tm_trans tm') - fee_of fees' u.
Proof. exact both_halves_lie. Qed.
Print Assumptions C67_two_halves_refuted.
(** for a seller who bids as a buyer under another name in the other half, *)
Theorem C67_other_half_refuted :
  exists (S : sorter) (d d' : df) (fl fl' : list bool) (u : Z) (W : list Z) (y : nat -> Qc) tm tm' l r pl pr fees l' r' pl' pr' fees',
    qty_pos d /\ price_nonneg d /\ labels_unique d /\ (forall x, In x d -> (0 <= user x)%Z) /\ qty_pos d' /\ price_nonneg d' /\ labels_unique d' /\ (forall x, In x d' -> (0 <= user x)%Z) /\
    muda S d fl = Ok (tm, XMuda l r pl pr fees) /\ muda S d' fl' = Ok (tm', XMuda l' r' pl' pr' fees') /\
    not_by_names W (rows_in l' d') = not_by u (rows_in l d) /\ not_by_names W (rows_in r' d') = not_by u (rows_in r d) /\
    uses false (by_user u d) (names_qty d' W (tm_trans tm')) y /\
    profit d u (tm_trans tm) - fee_of fees u < use_gain false (by_user u d) y (names_pay d' W (tm_trans tm')) - names_fee W fees'.
Proof. exact mask_lie. Qed.
Print Assumptions C67_other_half_refuted.
(** user 1 sells at 7/2 instead of 2 *)
Example C67_other_half_example :
  show (muda SS masked mask_flips) = Some ([(1%nat, 1, 7 # 2, (-1)%Z, false); (0%nat, 1, 7 # 2, (-1)%Z, false); (2%nat, 1, 11 # 2, (-1)%Z, false); (3%nat, 1, 11 # 2, (-1)%Z, false)],
    SM [0; 1]%nat [2; 3; 4]%nat (Some (11 # 2)) (Some (7 # 2)) [0; 0; 0; 0; 0])%Q.
Proof. vm_compute. reflexivity. Qed.
(** and for two users together. *)
Theorem C67_two_users_refuted :
  exists (S : sorter) (d d' : df) (fl : list bool) (u w : Z) tm tm' l r pl pr fees l' r' pl' pr' fees',
    qty_pos d /\ price_nonneg d /\ labels_unique d /\ (forall x, In x d -> (0 <= user x)%Z) /\ Forall2 (misreport w) d d' /\
    muda S d fl = Ok (tm, XMuda l r pl pr fees) /\ muda S d' fl = Ok (tm', XMuda l' r' pl' pr' fees') /\
    (forall x, In x d -> user x = u \/ user x = w -> buying x = true /\ In (lbl x) l) /\
    (profit d u (tm_trans tm) - fee_of fees u) + (profit d w (tm_trans tm) - fee_of fees w) <
    (profit d u (tm_trans tm') - fee_of fees' u) + (profit d w (tm_trans tm') - fee_of fees' w).
Proof. exact rivals_lie. Qed.
Print Assumptions C67_two_users_refuted.
