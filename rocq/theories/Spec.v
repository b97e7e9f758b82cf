(** Specifications used in the statements of the properties.  Only bid rows, transactions and sums
    occur here; no function of the model of the algorithms. *)
From Verif Require Import QcTac Num ModelBase.

(** ** Aggregate demand and supply *)
(** quantity wanted by buyers bidding at least [p] / strictly more than [p] *)
Definition demand_at (d : df) (p : Qc) : Qc := qsumf qty (filter (fun r => buying r && qleb p (price r)) d).
Definition demand_above (d : df) (p : Qc) : Qc := qsumf qty (filter (fun r => buying r && qltb p (price r)) d).
Definition total_demand (d : df) : Qc := qsumf qty (filter buying d).
(** quantity offered by sellers asking at most [p] / strictly less than [p] *)
Definition supply_at (d : df) (p : Qc) : Qc := qsumf qty (filter (fun r => negb (buying r) && qleb (price r) p) d).
Definition supply_below (d : df) (p : Qc) : Qc := qsumf qty (filter (fun r => negb (buying r) && qltb (price r) p) d).
Definition total_supply (d : df) : Qc := qsumf qty (filter (fun r => negb (buying r)) d).

(** ** Well-formed bid tables *)
Definition qty_nonneg (d : df) : Prop := forall r, In r d -> 0 <= qty r.
Definition qty_pos (d : df) : Prop := forall r, In r d -> 0 < qty r.
Definition price_nonneg (d : df) : Prop := forall r, In r d -> 0 <= price r.
Definition labels_unique (d : df) : Prop := NoDup (map lbl d).
(** no two bids of one side have the same price *)
Definition prices_distinct (d : df) : Prop :=
  NoDup (map price (filter buying d)) /\ NoDup (map price (filter (fun r => negb (buying r)) d)).

(** ** Step functions given by right end points *)
(** [(a, v)] in the list: value [v] up to abscissa [a] (from the previous one). *)
Definition steps := list (num * num).
(** [x] falls in piece [i], whose value is [v]: the first piece whose right end is not before [x] *)
Definition StepAt (f : steps) (x : num) (i : nat) (v : num) : Prop :=
  (exists a, nth_error f i = Some (a, v) /\ nleb x a = true) /\
  (forall j a w, (j < i)%nat -> nth_error f j = Some (a, w) -> nleb x a = false).
(** right ends nonnegative and non-decreasing *)
Definition ends_sorted (f : steps) : Prop :=
  (forall p, In p f -> nleb (Fin 0) (fst p) = true) /\
  StronglySorted (fun p q => nleb (fst p) (fst q) = true) f.
Definition values_ok (f : steps) : Prop := forall p, In p f -> snd p <> NaN.
Definition decreasing (f : steps) : Prop :=
  values_ok f /\ StronglySorted (fun p q => nleb (snd q) (snd p) = true) f.
Definition increasing (f : steps) : Prop :=
  values_ok f /\ StronglySorted (fun p q => nleb (snd p) (snd q) = true) f.
Definition is_end (f : steps) (x : num) : Prop := exists v, In (x, v) f.
(** both functions have a value at [x] *)
Definition both_defined (f g : steps) (x : num) : Prop :=
  (exists i u, StepAt f x i u) /\ (exists j w, StepAt g x j w).
(** [x] is a strict crossing: [f > g] up to [x], [f < g] after [x] as far as both are defined, and
    they are both defined somewhere after [x] *)
Definition Crossing (f g : steps) (x : num) : Prop :=
  nleb (Fin 0) x = true /\ both_defined f g x /\ (exists y, nltb x y = true /\ both_defined f g y) /\
  forall y i u j w, nleb (Fin 0) y = true -> StepAt f y i u -> StepAt g y j w ->
    (nleb y x = true -> nltb w u = true) /\ (nltb x y = true -> nltb u w = true).
