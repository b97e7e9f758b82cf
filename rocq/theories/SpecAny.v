(** What a run of peer to peer trading is, for any numbers, without the masks and positions of the code. *)
From Verif Require Import QcTac ModelBase ModelAny.

Section Spec.
  Context {P Q X : Type}.
  Variable o : ops P Q X.
  Variable d : list (arow P Q).

  (** [deals q L T q']: the pairs [L] meet one after the other.  Before, bid [i] has [q i] left and afterwards [q' i];
      [T] are the transactions.  A pair deals if the buyer offers at least what the seller asks. *)
  Inductive deals : (nat -> Q) -> list (nat * nat) -> list (atrans Q X) -> (nat -> Q) -> Prop :=
  | d_end q q' : (forall i, q' i = q i) -> deals q [] [] q'
  | d_deal q x y L T q1 q' :
      In x d -> In y d -> o_le o (a_price y) (a_price x) = true ->
      (forall i, q1 i = if Nat.eqb i (a_lbl x) || Nat.eqb i (a_lbl y) then o_sub o (q i) (o_min o (q (a_lbl x)) (q (a_lbl y))) else q i) ->
      deals q1 L T q' ->
      deals q ((a_lbl x, a_lbl y) :: L)
        (mkATrans (a_lbl x) (o_min o (q (a_lbl x)) (q (a_lbl y))) (o_mix o (a_price x) (a_price y)) (Z.of_nat (a_lbl y)) (o_pos o (q1 (a_lbl x))) ::
         mkATrans (a_lbl y) (o_min o (q (a_lbl x)) (q (a_lbl y))) (o_mix o (a_price x) (a_price y)) (Z.of_nat (a_lbl x)) (o_pos o (q1 (a_lbl y))) :: T) q'
  | d_pass q x y L T q' :
      In x d -> In y d -> o_le o (a_price y) (a_price x) = false ->
      deals q L T q' ->
      deals q ((a_lbl x, a_lbl y) :: L)
        (mkATrans (a_lbl x) (o_none o) (o_free o) (Z.of_nat (a_lbl y)) true ::
         mkATrans (a_lbl y) (o_none o) (o_free o) (Z.of_nat (a_lbl x)) true :: T) q'.

  (** A pair that may meet: a buyer and a seller that have not met.  After the first round bids with nothing left
      are excluded. *)
  Definition may_meet (first : bool) (met : list (nat * nat)) (q : nat -> Q) (p : nat * nat) : Prop :=
    (exists x, In x d /\ a_buying x = true /\ a_lbl x = fst p) /\ (exists y, In y d /\ a_buying y = false /\ a_lbl y = snd p) /\
    ~ In p met /\ (first = false -> o_is0 o (q (fst p)) = false /\ o_is0 o (q (snd p)) = false).
  Definition share (p p' : nat * nat) : Prop := fst p = fst p' \/ snd p = snd p'.

  (** [rounds first met q g T q']: the rounds [g] are played from the quantities [q]. *)
  Inductive rounds : bool -> list (nat * nat) -> (nat -> Q) -> list (list (nat * nat)) -> list (atrans Q X) -> (nat -> Q) -> Prop :=
  | r_end first met q q' :
      (o_more o (map q (map a_lbl d)) = false \/ (forall p, ~ may_meet first met q p)) -> (forall i, q' i = q i) ->
      rounds first met q [] [] q'
  | r_round first met q L T q1 g T' q' :
      o_more o (map q (map a_lbl d)) = true -> L <> [] ->
      (forall p, In p L -> may_meet first met q p) ->
      NoDup (flat_map (fun p => [fst p; snd p]) L) ->
      (forall p, may_meet first met q p -> exists p', In p' L /\ share p p') ->
      deals q L T q1 ->
      rounds false (met ++ L) q1 g T' q' ->
      rounds first met q (L :: g) (T ++ T') q'.

  (** the quantities before the first round *)
  Definition start (i : nat) : Q := match find (fun x => Nat.eqb (a_lbl x) i) d with Some x => a_qty x | None => o_none o end.
  (** [run g T q']: all rounds *)
  Definition run (g : list (list (nat * nat))) (T : list (atrans Q X)) (q' : nat -> Q) : Prop := rounds true [] start g T q'.
End Spec.
