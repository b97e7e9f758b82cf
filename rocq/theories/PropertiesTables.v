(** Property C73: what the mechanisms raise, and exactly when, on tables whose quantities can have any sign and whose users
    can be any integers. *)
From Verif Require Import QcTac Num ModelBase ModelCurves ModelHuang ModelMuda ModelP2P ModelUniform Spec SpecTrade SpecMuda SpecErrors SpecTables
  Sorter Conform P2PTrades TableFacts TableMuda TableP2P.

(** The Huang auction raises TypeError if the quantities of the best buyers or of the best sellers ever add up to less
    than 0, and returns otherwise. *)
Theorem C73_huang :
  forall (S : sorter) (d : df),
    (overdrawn S d -> huang_auction S d = Err TypeError) /\ (~ overdrawn S d -> exists tm ex, huang_auction S d = Ok (tm, ex)).
Proof. exact huang_table. Qed.
Print Assumptions C73_huang.
(** The uniform price mechanism raises nothing but TypeError. *)
Theorem C73_uniform :
  forall (S : sorter) (d : df),
    (overdrawn S d -> uniform_price_mechanism S d = Err TypeError) /\
    (~ overdrawn S d -> uniform_price_mechanism S d = Err TypeError \/ exists tm ex, uniform_price_mechanism S d = Ok (tm, ex)).
Proof. exact uniform_table. Qed.
Print Assumptions C73_uniform.
(** MUDA raises NotImplementedError if a user has two bids of one side at one price; otherwise TypeError if one of the halves
    is overdrawn; otherwise IndexError if the number of a user who has to pay a fee is not an index of the fees, of which there
    are as many as users; otherwise it returns. *)
Theorem C73_muda :
  forall (S : sorter) (d : df) (fl : list bool), labels_unique d -> length fl = length d ->
    let l := flipped true fl d in let r := flipped false fl d in let n := length (nodup Z.eq_dec (map user d)) in
    (repeated_price d -> muda S d fl = Err NotImplementedError) /\
    (~ repeated_price d -> overdrawn S l \/ overdrawn S r -> muda S d fl = Err TypeError) /\
    (~ repeated_price d -> ~ (overdrawn S l \/ overdrawn S r) -> exists pl pr, find_competitive_price S l = Ok pl /\ find_competitive_price S r = Ok pr /\
       ((forall u, pays S l pr u \/ pays S r pl u -> in_range n u) -> exists tm ex, muda S d fl = Ok (tm, ex)) /\
       (forall u, pays S l pr u \/ pays S r pl u -> ~ in_range n u -> muda S d fl = Err IndexError)).
Proof. exact muda_table. Qed.
Print Assumptions C73_muda.
(** The p2p mechanism raises IndexError if there are a buyer and a seller and the label of one of them is not a position of
    the table; otherwise it returns, with two matching transactions per meeting of a buyer and a seller. *)
Theorem C73_p2p :
  forall (d : df) (c : Qc) (r : nat -> nat),
    ((exists x y, In x d /\ In y d /\ buying x = true /\ buying y = false /\ (length d <= lbl x \/ length d <= lbl y)%nat) ->
       p2p_random d c r = Err IndexError) /\
    ((forall x y, In x d -> In y d -> buying x = true -> buying y = false -> (lbl x < length d)%nat /\ (lbl y < length d)%nat) ->
       exists tm gtl, p2p_random d c r = Ok (tm, XP2P gtl) /\ Meetings (concat gtl) (tm_trans tm) /\
         forall b s, In (b, s) (concat gtl) -> exists x y, In x d /\ In y d /\ buying x = true /\ buying y = false /\ lbl x = b /\ lbl y = s).
Proof.
  exact (fun d c r => conj (fun '(ex_intro _ x (ex_intro _ y (conj Hx (conj Hy (conj Bx (conj By L)))))) => p2p_labels d c r x y Hx Hy Bx By L) (p2p_table d c r)).
Qed.
Print Assumptions C73_p2p.

(** The bid of -1 at the price 3 comes first and overdraws the buyers; at the price 1 it comes second, and the auction returns. *)
Definition dips (p : Qc) : df := frame [B (qz (-1)) p 0; B (qz 2) (qz 2) 1; A (qz 1) (qf 1 2) 2; A (qz 1) (qf 3 4) 3].
Lemma dips_first : overdrawn SS (dips (qz 3)).
Proof. left. exists (firstn 1 (s_desc SS (filter buying (dips (qz 3))))), (skipn 1 (s_desc SS (filter buying (dips (qz 3))))). split; [symmetry; apply firstn_skipn | vm_compute; reflexivity]. Qed.
Lemma dips_second : ~ overdrawn SS (dips (qz 1)).
Proof.
  apply table_sign. intros x Hx.
  assert (K : forallb (fun x => nleb (Fin 0) x) (abscissae (fst (demand_curve_from_bids SS (dips (qz 1)))) (fst (supply_curve_from_bids SS (dips (qz 1))))) = true)
    by (vm_compute; reflexivity).
  rewrite forallb_forall in K. exact (K x Hx).
Qed.
Example C73_example :
  huang_auction SS (dips (qz 3)) = Err TypeError /\
  (exists tm ex, huang_auction SS (dips (qz 1)) = Ok (tm, ex)) /\
  muda SS (dips (qz 3)) [true; false; true; false] = Err TypeError /\
  (** in the second half, at the price of the first, the buyer 7 would pay a fee *)
  muda SS (frame [B (qz 1) (qz 3) 7; A (qz 1) (qz 1) 1; B (qz 1) (qz 4) 2; A (qz 1) (qf 1 2) 3]) [false; false; true; true] = Err IndexError.
Proof.
  split; [exact (proj1 (huang_table SS _) dips_first)|]. split; [exact (proj2 (huang_table SS _) dips_second)|]. split; vm_compute; reflexivity.
Qed.
