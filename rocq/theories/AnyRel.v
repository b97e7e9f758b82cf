(** Related numbers give related runs; sums of numpy; NaN. *)
From Coq Require Import Floats.SpecFloat.
From Verif Require Import QcTac Num ModelBase ModelHuang ModelP2P ModelRound ModelAny ListFacts StoreFacts P2PFacts RoundFacts SpecAny SpecAnyRel AnyFacts AnyTop.

Lemma F2_nth_error {A B} (S : A -> B -> Prop) l l' i : Forall2 S l l' ->
  match nth_error l i, nth_error l' i with Some x, Some y => S x y | None, None => True | _, _ => False end.
Proof. intro H. revert i. induction H as [|x y l l' H0 H IH]; intros [|i]; simpl; auto. apply IH. Qed.
Lemma F2_nth {A B} (S : A -> B -> Prop) l l' i a b : Forall2 S l l' -> S a b -> S (nth i l a) (nth i l' b).
Proof. intros H Hd. revert i. induction H as [|x y l l' H0 H IH]; intros [|i]; simpl; auto. Qed.
Lemma F2_set_nth {A B} (S : A -> B -> Prop) l l' i x y : Forall2 S l l' -> S x y -> Forall2 S (set_nth i x l) (set_nth i y l').
Proof. intros H Hx. revert i. induction H as [|a b l l' H0 H IH]; intros [|i]; simpl; constructor; auto. Qed.
Lemma F2_map {A B C D} (S : A -> B -> Prop) (S' : C -> D -> Prop) f g l l' : Forall2 S l l' -> (forall x y, S x y -> S' (f x) (g y)) -> Forall2 S' (map f l) (map g l').
Proof. intros H F. induction H; simpl; constructor; auto. Qed.

Lemma Forall2_length_eq {A B} (S : A -> B -> Prop) l l' : Forall2 S l l' -> length l = length l'.
Proof. induction 1; simpl; congruence. Qed.

Section Related.
  Context {P Q X P' Q' X' : Type}.
  Variables (SP : P -> P' -> Prop) (SQ : Q -> Q' -> Prop) (SX : X -> X' -> Prop).
  Variables (o : ops P Q X) (o' : ops P' Q' X').
  Hypothesis Ho : same_ops SP SQ SX o o'.
  Variables (d : list (arow P Q)) (d' : list (arow P' Q')).
  Hypothesis Hd : Forall2 (same_row SP SQ) d d'.
  Variable r : nat -> nat.

  Lemma rel_side (f : forall A B, arow A B -> bool) : (forall x x', same_row SP SQ x x' -> f _ _ x = f _ _ x') ->
    map a_lbl (filter (f P Q) d) = map a_lbl (filter (f P' Q') d').
  Proof.
    intro F. clear Ho. revert Hd. generalize d, d'. intros l0 l0' H. induction H as [|x x' l l' H0 H IH]; [reflexivity|]. cbn [filter]. rewrite <- (F x x' H0).
    destruct (f P Q x); cbn [map]; rewrite ?IH; [|reflexivity]. f_equal. apply H0.
  Qed.
  Lemma rel_buyers : a_buyers d = a_buyers d'.
  Proof. apply (rel_side (fun A B => @a_buying A B)). intros x x' H. apply H. Qed.
  Lemma rel_sellers : a_sellers d = a_sellers d'.
  Proof. apply (rel_side (fun A B (x : arow A B) => negb (a_buying x))). intros x x' H. f_equal. apply H. Qed.
  Lemma rel_pairs : a_pairs d = a_pairs d'.
  Proof. unfold a_pairs. rewrite rel_buyers, rel_sellers. reflexivity. Qed.

  Lemma rel_trade p q q' T T' : Forall2 SQ q q' -> Forall2 (same_trans SQ SX) T T' ->
    Forall2 SQ (fst (a_trade o (map a_price d) (q, T) p)) (fst (a_trade o' (map a_price d') (q', T') p)) /\
    Forall2 (same_trans SQ SX) (snd (a_trade o (map a_price d) (q, T) p)) (snd (a_trade o' (map a_price d') (q', T') p)).
  Proof.
    destruct p as [b s]. intros Hq HT. unfold a_trade.
    assert (Hp : Forall2 SP (map a_price d) (map a_price d')) by (apply (F2_map (same_row SP SQ)); [exact Hd | intros x y H; apply H]).
    pose proof (F2_nth_error SP _ _ b Hp) as Hb. pose proof (F2_nth_error SP _ _ s Hp) as Hs.
    destruct (nth_error (map a_price d) b) as [pb|], (nth_error (map a_price d') b) as [pb'|]; try contradiction; [|auto].
    destruct (nth_error (map a_price d) s) as [p0|], (nth_error (map a_price d') s) as [p0'|]; try contradiction; [|auto].
    destruct Ho as [Ole Omix Ofree Onone Omin Osub Opos Ois0 Omore].
    rewrite (Ole _ _ _ _ Hs Hb). destruct (o_le o' p0' pb'); cbn [fst snd].
    - assert (Hqb := F2_nth SQ _ _ b _ _ Hq Onone). assert (Hqs := F2_nth SQ _ _ s _ _ Hq Onone).
      assert (Hm := Omin _ _ _ _ Hqb Hqs). split.
      + apply F2_set_nth; [apply F2_set_nth; [exact Hq | apply Osub; assumption]|]. apply Osub; [|exact Hm]. apply F2_nth; [|exact Onone].
        apply F2_set_nth; [exact Hq | apply Osub; assumption].
      + apply Forall2_app; [exact HT|]. constructor; [|constructor; [|constructor]]; constructor; cbn [x_bid x_qty x_price x_source x_active]; auto.
    - split; [exact Hq|]. apply Forall2_app; [exact HT|]. constructor; [|constructor; [|constructor]]; constructor; cbn [x_bid x_qty x_price x_source x_active]; auto.
  Qed.
  Lemma rel_trades L : forall q q' T T', Forall2 SQ q q' -> Forall2 (same_trans SQ SX) T T' ->
    Forall2 SQ (fst (fold_left (a_trade o (map a_price d)) L (q, T))) (fst (fold_left (a_trade o' (map a_price d')) L (q', T'))) /\
    Forall2 (same_trans SQ SX) (snd (fold_left (a_trade o (map a_price d)) L (q, T))) (snd (fold_left (a_trade o' (map a_price d')) L (q', T'))).
  Proof.
    induction L as [|p L IH]; intros q q' T T' Hq HT; [split; assumption|]. cbn [fold_left].
    destruct (rel_trade p q q' T T' Hq HT) as [H1 H2].
    destruct (a_trade o _ _ p) as [q1 T1]. destruct (a_trade o' _ _ p) as [q1' T1']. cbn [fst snd] in H1, H2. apply IH; assumption.
  Qed.
  Lemma rel_next ps q q' a : Forall2 SQ q q' -> a_next o d ps q a = a_next o' d' ps q' a.
  Proof.
    intro Hq. unfold a_next. rewrite <- rel_buyers, <- rel_sellers.
    assert (E : forall b, o_is0 o (nth b q (o_none o)) = o_is0 o' (nth b q' (o_none o'))).
    { intro b. destruct Ho as [Ole Omix Ofree Onone Omin Osub Opos Ois0 Omore]. apply Ois0. apply F2_nth; assumption. }
    rewrite !(filter_ext _ _ E). reflexivity.
  Qed.
  Lemma rel_loop ps fuel : forall k a tmp q q' T T' g, Forall2 SQ q q' -> Forall2 (same_trans SQ SX) T T' ->
    same_result SQ SX (a_loop o fuel d ps (map a_price d) r k a tmp q T g) (a_loop o' fuel d' ps (map a_price d') r k a tmp q' T' g).
  Proof.
    induction fuel as [|fuel IH]; intros k a tmp q q' T T' g Hq HT; cbn [a_loop]; rewrite (so_more _ _ _ _ _ Ho q q' Hq);
    destruct (o_more o' q' && existsb (fun b => b) tmp); simpl; auto.
    destruct (pick_round (length ps) ps r k a tmp []) as [[[L a'] k']|e]; cbn [bind]; [|reflexivity].
    destruct (rel_trades L q q' T T' Hq HT) as [H1 H2].
    destruct (fold_left (a_trade o _) L (q, T)) as [q1 T1]. destruct (fold_left (a_trade o' _) L (q', T')) as [q1' T1']. cbn [fst snd] in H1, H2.
    rewrite (rel_next ps q1 q1' a' H1). apply IH; assumption.
  Qed.
  Theorem any_related : same_result SQ SX (a_run o d r) (a_run o' d' r).
  Proof.
    unfold a_run. rewrite rel_pairs, (Forall2_length_eq _ _ _ Hd). destruct (forallb _ _); [|reflexivity].
    apply rel_loop; [|constructor]. apply (F2_map (same_row SP SQ)); [exact Hd | intros x y H; apply H].
  Qed.
End Related.

(** ** Only the order of the prices matters for who meets and how much is traded *)
Section OrderOnly.
  Context {P Q X P' X' : Type}.
  Variables (o : ops P Q X) (o' : ops P' Q X').
  Hypothesis Hnone : o_none o' = o_none o.
  Hypothesis Hmin : forall x y, o_min o' x y = o_min o x y.
  Hypothesis Hsub : forall x y, o_sub o' x y = o_sub o x y.
  Hypothesis Hpos : forall x, o_pos o' x = o_pos o x.
  Hypothesis His0 : forall x, o_is0 o' x = o_is0 o x.
  Hypothesis Hmore : forall x, o_more o' x = o_more o x.
  Theorem any_order (d : list (arow P Q)) (d' : list (arow P' Q)) r :
    Forall2 (fun x x' => a_lbl x' = a_lbl x /\ a_qty x' = a_qty x /\ a_buying x' = a_buying x) d d' ->
    (forall x x' y y', In (x, x') (combine d d') -> In (y, y') (combine d d') -> o_le o' (a_price y') (a_price x') = o_le o (a_price y) (a_price x)) ->
    same_result eq (fun _ _ => True) (a_run o d r) (a_run o' d' r).
  Proof.
    intros Hd Hle. apply (any_related (fun p p' => exists x x', In (x, x') (combine d d') /\ p = a_price x /\ p' = a_price x')).
    - constructor; auto; try (intros; subst; congruence).
      + intros p p' q q' (y & y' & Hy & -> & ->) (x & x' & Hx & -> & ->). symmetry. apply Hle; assumption.
      + intros l l' H. assert (l = l') as -> by (induction H; congruence). auto.
    - assert (G : forall l l', Forall2 (fun x x' => a_lbl x' = a_lbl x /\ a_qty x' = a_qty x /\ a_buying x' = a_buying x) l l' ->
        (forall z, In z (combine l l') -> In z (combine d d')) ->
        Forall2 (same_row (fun p p' => exists x x', In (x, x') (combine d d') /\ p = a_price x /\ p' = a_price x') eq) l l').
      { intros l l' H. induction H as [|x x' l l' (E1 & E2 & E3) H IH]; intro I; constructor.
        - constructor; auto. exists x, x'. split; [apply I; left; reflexivity|]. auto.
        - apply IH. intros z Hz. apply I. right; exact Hz. }
      apply G; auto.
  Qed.
End OrderOnly.

(** ** Sums *)
Section Absorb.
  Context {T : Type}.
  Variables (add : T -> T -> T) (zero v : T).
  Hypothesis Hl : forall x, add v x = v.
  Hypothesis Hr : forall x, add x v = v.
  Lemma fold_v l : fold_left add l v = v.
  Proof. induction l as [|x l IH]; simpl; [reflexivity|]. rewrite Hl. exact IH. Qed.
  Lemma fold_in l : In v l -> forall a, fold_left add l a = v.
  Proof. induction l as [|x l IH]; [contradiction|]. intros [->|H] a; simpl; [rewrite Hr; apply fold_v | apply IH, H]. Qed.
  Lemma every8_in l : In v l -> exists j, (j < 8)%nat /\ In v (any_every8 j l).
  Proof.
    induction l as [|x l IH]; [contradiction|]. intros [->|H]; [exists 0%nat; split; [lia | left; reflexivity]|].
    destruct (IH H) as (j & Lj & I). destruct (Nat.eq_dec j 7) as [->|N].
    - exists 0%nat. split; [lia|]. right. exact I.
    - exists (Datatypes.S j). split; [lia|]. exact I.
  Qed.
  Lemma block_v l : In v l -> any_block add zero l = v.
  Proof.
    intro H. unfold any_block. destruct (Nat.ltb (length l) 8); [apply fold_in, H|].
    rewrite <- (firstn_skipn (length l - length l mod 8) l) in H. apply in_app_or in H.
    destruct H as [H|H]; [|apply fold_in, H].
    destruct (every8_in _ H) as (j & Lj & I). pose proof (fold_in _ I zero) as E. unfold any_seq.
    match goal with |- fold_left add _ ?s = v => replace s with v; [apply fold_v|] end.
    do 8 (destruct j as [|j]; [rewrite E, ?Hl, ?Hr, ?Hl, ?Hr; reflexivity|]). lia.
  Qed.
  Lemma pair_v fuel : forall l, In v l -> any_pair add zero fuel l = v.
  Proof.
    induction fuel as [|fuel IH]; intros l H; cbn [any_pair]; [apply block_v, H|].
    destruct (Nat.leb (length l) 128); [apply block_v, H|].
    rewrite <- (firstn_skipn (np_half (length l)) l) in H. apply in_app_or in H. destruct H as [H|H]; rewrite (IH _ H); auto.
  Qed.
  Lemma sum_v l : In v l -> any_sum add zero l = v.
  Proof. apply pair_v. Qed.
End Absorb.
Lemma nan_sum_n l : In NaN l -> any_sum nadd (Fin 0) l = NaN.
Proof. apply sum_v; [reflexivity | intros []; reflexivity]. Qed.
Lemma nan_sum_d l : In S754_nan l -> any_sum d_add d_zero l = S754_nan.
Proof. apply sum_v; [reflexivity | intros []; reflexivity]. Qed.

(** ** Quantities that are not numbers *)
Lemma loop_stop {P Q X} (o : ops P Q X) fuel d ps prices r k a tmp q tm g : o_more o q = false -> a_loop o fuel d ps prices r k a tmp q tm g = Ok (tm, g).
Proof. intro H. destruct fuel; cbn [a_loop]; rewrite H; reflexivity. Qed.
Theorem any_poison {P Q X} (o : ops P Q X) (v : Q) (d : list (arow P Q)) r :
  map a_lbl d = seq 0 (length d) -> (forall l, In v l -> o_more o l = false) -> (exists x, In x d /\ a_qty x = v) -> a_run o d r = Ok ([], []).
Proof.
  intros Hl Hm (x & Hx & E). destruct (any_run o d Hl r) as (T & g & q' & H & _). unfold a_run in *. destruct (forallb _ _); [|discriminate].
  apply loop_stop. apply Hm. rewrite <- E. apply in_map, Hx.
Qed.
(** ** Prices that are not numbers *)
Theorem any_silent {P Q X} (o : ops P Q X) (v : P) (d : list (arow P Q)) x first met q g T q' :
  map a_lbl d = seq 0 (length d) -> (forall p, o_le o p v = false /\ o_le o v p = false) -> In x d -> a_price x = v ->
  rounds o d first met q g T q' ->
  q' (a_lbl x) = q (a_lbl x) /\
  forall t, In t T -> x_bid t = a_lbl x \/ x_source t = Z.of_nat (a_lbl x) -> x_qty t = o_none o /\ x_price t = o_free o /\ x_active t = true.
Proof.
  intros Hl Hv Hx Ex.
  assert (D : forall q L T q', deals o d q L T q' -> q' (a_lbl x) = q (a_lbl x) /\
    forall t, In t T -> x_bid t = a_lbl x \/ x_source t = Z.of_nat (a_lbl x) -> x_qty t = o_none o /\ x_price t = o_free o /\ x_active t = true).
  { intros f L U f' H. induction H as [f f' E | f y z L U f1 f' Hy Hz Hle E H [IH1 IH2] | f y z L U f' Hy Hz Hle H [IH1 IH2]].
    - split; [apply E | contradiction].
    - assert (Ny : a_lbl y <> a_lbl x).
      { intro C. assert (y = x) by (apply (any_same d Hl); auto). subst y. destruct (Hv (a_price z)). congruence. }
      assert (Nz : a_lbl z <> a_lbl x).
      { intro C. assert (z = x) by (apply (any_same d Hl); auto). subst z. destruct (Hv (a_price y)). congruence. }
      split.
      + rewrite IH1, E. destruct (Nat.eqb_spec (a_lbl x) (a_lbl y)) as [C|_]; [congruence|]. destruct (Nat.eqb_spec (a_lbl x) (a_lbl z)) as [C|_]; [congruence|]. reflexivity.
      + intros t [<-|[<-|Ht]]; [| |apply IH2, Ht]; cbn [x_bid x_source]; intros [C|C]; exfalso; try congruence; apply Nat2Z.inj in C; congruence.
    - split; [exact IH1|]. intros t [<-|[<-|Ht]]; [| |apply IH2, Ht]; auto. }
  intro H. induction H as [first met q q' C E | first met q L T q1 g T' q' C NE HL ND HM HD R [IH1 IH2]].
  - split; [apply E | contradiction].
  - destruct (D _ _ _ _ HD) as [D1 D2]. split; [congruence|]. intros t Ht. apply in_app_or in Ht. destruct Ht as [Ht|Ht]; [apply D2, Ht | apply IH2, Ht].
Qed.
