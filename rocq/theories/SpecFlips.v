(** Averages over the random split of MUDA.  Independent of the model of the mechanism. *)
From Verif Require Import QcTac Num ModelBase ModelHuang Spec SpecTrade SpecMuda SpecChance.

(** all outcomes of [n] flips *)
Fixpoint flips (n : nat) : list (list bool) :=
  match n with
  | O => [[]]
  | Datatypes.S k => map (cons true) (flips k) ++ map (cons false) (flips k)
  end.
(** the chance of the flips [fl] when each is [true] with the chance [p] *)
Fixpoint flips_chance (p : Qc) (fl : list bool) : Qc :=
  match fl with
  | [] => 1
  | b :: r => (if b then p else 1 - p) * flips_chance p r
  end.
(** the average of [f] over [n] flips, and the chance of the event [E] *)
Definition expect (p : Qc) (n : nat) (f : list bool -> Qc) : Qc := qsumf (fun fl => flips_chance p fl * f fl) (flips n).
Definition chance (p : Qc) (n : nat) (E : list bool -> bool) : Qc := expect p n (fun fl => if E fl then 1 else 0).

Fixpoint qpow (a : Qc) (n : nat) : Qc := match n with O => 1 | Datatypes.S k => a * qpow a k end.

(** muda_auction.py:106 [r.rand() > 0.5]: numpy's [rand] returns one of the 2^53 equally likely numbers [k / 2^53] *)
Definition rand_half : Qc := (qz (2 ^ 52) - 1) / qz (2 ^ 53).

(** what user [u] with the true bids [d] has in the end *)
Definition worth (d : df) (u : Z) (x : res (transmgr * extra)) : Qc :=
  match x with Ok (tm, XMuda _ _ _ _ fees) => profit d u (tm_trans tm) - fee_of fees u | _ => 0 end.
(** the run traded something *)
Definition trades (x : res (transmgr * extra)) : bool :=
  match x with Ok (tm, _) => existsb (fun t => qltb 0 (t_qty t)) (tm_trans tm) | _ => false end.
(** the quantity that bid [i] trades in the run *)
Definition quantity_of (i : nat) (x : res (transmgr * extra)) : Qc :=
  match x with Ok (tm, _) => traded_by i (tm_trans tm) | _ => 0 end.
(** the same trades, the halves having changed places *)
Definition halves_swapped (x x' : res (transmgr * extra)) : Prop :=
  match x, x' with
  | Ok (tm, XMuda l r pl pr _), Ok (tm', XMuda l' r' pl' pr' _) => Permutation (tm_trans tm) (tm_trans tm') /\ l' = r /\ r' = l /\ pl' = pr /\ pr' = pl
  | Err e, Err e' => e' = e
  | _, _ => False
  end.
(** the chance that [n] things are not all in the same half *)
Definition mixed_chance (p : Qc) (n : nat) : Qc := match n with O => 0 | _ => 1 - qpow p n - qpow (1 - p) n end.
(** the rows with [sel] are not all in the same half *)
Definition on_both (sel : row -> bool) (d : df) (fl : list bool) : bool :=
  existsb (fun x => sel (fst x) && snd x) (combine d fl) && existsb (fun x => sel (fst x) && negb (snd x)) (combine d fl).
