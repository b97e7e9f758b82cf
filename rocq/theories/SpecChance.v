(** Chances: averages over all outcomes of the random generator, and the law of peer to peer trading stated on its meetings.
    Independent of the masks and arrays of the implementation. *)
From Verif Require Import QcTac ModelBase ModelHuang Spec SpecTrade SpecP2P.

(** the natural number [n] as a rational *)
Definition num_of (n : nat) : Qc := qz (Z.of_nat n).

(** the average of [f] over the list [l] *)
Definition mean {A} (f : A -> Qc) (l : list A) : Qc := qsumf f l / num_of (length l).

(** all sequences of [K] draws from [0, ..., M-1] *)
Fixpoint draws (M K : nat) : list (list nat) :=
  match K with
  | O => [[]]
  | Datatypes.S k => flat_map (fun x => map (cons x) (draws M k)) (seq 0 M)
  end.

(** [M] equally likely values can be shared out fairly among any number of candidates up to [n] *)
Definition fair (M n : nat) : Prop := (0 < M)%nat /\ forall k, (0 < k)%nat -> (k <= n)%nat -> Nat.divide k M.

(** the share of the sequences of [K] draws for which the run [run] satisfies [E] *)
Definition share {A} (M K : nat) (run : (nat -> nat) -> A) (E : A -> bool) : Qc :=
  mean (fun l => if E (run (fun i => nth i l 0%nat)) then 1 else 0) (draws M K).
(** the average of [f] over the runs *)
Definition average {A} (M K : nat) (run : (nat -> nat) -> A) (f : A -> Qc) : Qc :=
  mean (fun l => f (run (fun i => nth i l 0%nat))) (draws M K).

(** the pairs that can be drawn next in a round in which the pairs [T] were drawn already, after the meetings [met] and the
    transactions [tl] of the earlier rounds *)
Definition open_pair (met : list (nat * nat)) (tl : list trans) (T : list (nat * nat)) (xy : row * row) : bool :=
  let '(x, y) := xy in
  forallb (fun q => negb (Nat.eqb (fst q) (lbl x) && Nat.eqb (snd q) (lbl y))) met &&
  (match met with [] => true | _ => negb (qeqb (rest x tl) 0) && negb (qeqb (rest y tl) 0) end) &&
  forallb (fun q => negb (Nat.eqb (fst q) (lbl x)) && negb (Nat.eqb (snd q) (lbl y))) T.
Definition open_pairs (d : df) (met : list (nat * nat)) (tl : list trans) (T : list (nat * nat)) : list (row * row) :=
  filter (open_pair met tl T) (list_prod (filter buying d) (filter (fun r => negb (buying r)) d)).

(** the chance that the pairs [T2] are drawn one after the other when [T1] were drawn: each has the same chance as every other
    pair that can be drawn *)
Fixpoint picks_chance (d : df) (met : list (nat * nat)) (tl : list trans) (T1 T2 : list (nat * nat)) : Qc :=
  match T2 with
  | [] => 1
  | p :: T => 1 / num_of (length (open_pairs d met tl T1)) * picks_chance d met tl (T1 ++ [p]) T
  end.

(** [w] is the chance of the rounds [gtl] *)
Inductive Chance (d : df) (c : Qc) : list (list (nat * nat)) -> list trans -> Qc -> Prop :=
| Ch_nil : Chance d c [] [] 1
| Ch_round gtl tl w T tl' : Chance d c gtl tl w -> (exists x, In x d /\ 0 < rest x tl) ->
    Round d (concat gtl) tl T -> Deals d c tl T tl' ->
    Chance d c (gtl ++ [T]) tl' (w * picks_chance d (concat gtl) tl [] T).

(** the run of p2p gave the rounds [gtl] *)
Definition gave (gtl : list (list (nat * nat))) (x : res (transmgr * extra)) : bool :=
  match x with
  | Ok (_, XP2P g) => if list_eq_dec (list_eq_dec (fun p q : nat * nat => ltac:(decide equality; apply Nat.eq_dec))) g gtl then true else false
  | _ => false
  end.

(** the number of pairs of a buyer and a seller *)
Definition pairs_count (d : df) : nat := (length (filter buying d) * length (filter (fun r => negb (buying r)) d))%nat.
(** [p] was the first pair of the run *)
Definition met_first (p : nat * nat) (x : res (transmgr * extra)) : bool :=
  match x with
  | Ok (_, XP2P ((q :: _) :: _)) => Nat.eqb (fst q) (fst p) && Nat.eqb (snd q) (snd p)
  | _ => false
  end.
(** [p] met in the first round *)
Definition met_early (p : nat * nat) (x : res (transmgr * extra)) : bool :=
  match x with
  | Ok (_, XP2P (T :: _)) => existsb (fun q => Nat.eqb (fst q) (fst p) && Nat.eqb (snd q) (snd p)) T
  | _ => false
  end.
(** two bids exchanged *)
Definition exchange (i j k : nat) : nat := if Nat.eqb k i then j else if Nat.eqb k j then i else k.
(** the money that changed hands in the transactions of bid [i] *)
Definition money (i : nat) (tl : list trans) : Qc := qsumf (fun t => t_qty t * t_price t) (filter (fun t => Nat.eqb (t_bid t) i) tl).
Definition money_of (i : nat) (x : res (transmgr * extra)) : Qc :=
  match x with Ok (tm, _) => money i (tm_trans tm) | Err _ => 0 end.
(** the pairs of a buyer and a seller of the table one of which is bid [i] *)
Definition pairs_with (d : df) (i : nat) : list (row * row) :=
  filter (fun xy => Nat.eqb (lbl (fst xy)) i || Nat.eqb (lbl (snd xy)) i) (list_prod (filter buying d) (filter (fun r => negb (buying r)) d)).
