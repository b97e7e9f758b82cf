(** The outcome of a run without the positions of the bids. *)
From Verif Require Import QcTac Num ModelBase ModelHuang.

(** a transaction, with the bid itself instead of its position in the list [bs] of submitted bids *)
Definition seen (bs : list bid) (t : trans) : option bid * Qc * Qc * Z * bool :=
  (nth_error bs (t_bid t), t_qty t, t_price t, t_source t, t_active t).

(** two results that are equal up to the order of the transactions and the positions of the bids *)
Definition same_outcome (bs bs' : list bid) (x x' : res (transmgr * extra)) : Prop :=
  match x, x' with
  | Ok (tm, ex), Ok (tm', ex') => ex' = ex /\ n_trans tm' = n_trans tm /\
      Permutation (map (seen bs) (tm_trans tm)) (map (seen bs') (tm_trans tm'))
  | Err e, Err e' => e' = e
  | _, _ => False
  end.

(** bid [i] is now called [f i]; a transaction without a counterparty has the negative source -1 *)
Definition rename_trans (f : nat -> nat) (t : trans) : trans :=
  mkTrans (f (t_bid t)) (t_qty t) (t_price t) (if Z.ltb (t_source t) 0 then t_source t else Z.of_nat (f (Z.to_nat (t_source t)))) (t_active t).
Definition rename_pair (f : nat -> nat) (p : nat * nat) : nat * nat := (f (fst p), f (snd p)).
Definition renamed_extra (f : nat -> nat) (x x' : extra) : Prop :=
  match x, x' with
  | XP2P gtl, XP2P gtl' => gtl' = map (map (rename_pair f)) gtl
  | XMuda l r pl pr fees, XMuda l' r' pl' pr' fees' =>
      Permutation (map f l) l' /\ Permutation (map f r) r' /\ pl' = pl /\ pr' = pr /\ fees' = fees
  | _, _ => x' = x
  end.
(** the same result with the bids renamed; the order of the transactions is the same *)
Definition renamed (f : nat -> nat) (x x' : res (transmgr * extra)) : Prop :=
  match x, x' with
  | Ok (tm, ex), Ok (tm', ex') => tm_trans tm' = map (rename_trans f) (tm_trans tm) /\ renamed_extra f ex ex'
  | Err e, Err e' => e' = e
  | _, _ => False
  end.
(** [f] tells where each bid of [bs] stands in [bs'] *)
Definition moved (bs bs' : list bid) (f : nat -> nat) : Prop :=
  (forall i j, f i = f j -> i = j) /\ forall i b, nth_error bs i = Some b -> nth_error bs' (f i) = Some b.
