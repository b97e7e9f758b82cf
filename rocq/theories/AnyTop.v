(** Consequences for [a_run]: the other models, NaN, relations between runs. *)
From Coq Require Import Floats.SpecFloat.
From Verif Require Import QcTac Num ModelBase ModelHuang ModelP2P ModelRound ModelAny ListFacts StoreFacts P2PFacts P2PSchedule RoundFacts SpecAny AnyFacts.

(** ** The other models of the code *)
Lemma set_nth_map {A B} (f : A -> B) i v l : set_nth i (f v) (map f l) = map f (set_nth i v l).
Proof. revert i; induction l as [|x l IH]; intros [|i]; simpl; rewrite ?IH; reflexivity. Qed.
Definition tm_of (T : list (atrans Qc Qc)) : transmgr := mkTM (length T) (map trans_of T).

Section Rounded.
  Variables (R : rounding) (A : adder R) (c : Qc) (d : df) (r : nat -> nat).
  Let o := ops_r R A c.
  Let d' := map arow_of d.
  Let ps := all_pairs d.

  Lemma filter_arow (f : arow Qc Qc -> bool) (g : row -> bool) l : (forall x, f (arow_of x) = g x) -> filter f (map arow_of l) = map arow_of (filter g l).
  Proof. intro H. induction l as [|x l IH]; [reflexivity|]. cbn [map filter]. rewrite H, IH. destruct (g x); reflexivity. Qed.
  Lemma a_buyers_of : a_buyers d' = map lbl (buyers d).
  Proof. unfold a_buyers, d', buyers. rewrite (filter_arow a_buying buying) by reflexivity. rewrite map_map. reflexivity. Qed.
  Lemma a_sellers_of : a_sellers d' = map lbl (sellers d).
  Proof. unfold a_sellers, d', sellers. rewrite (filter_arow (fun x => negb (a_buying x)) (fun x => negb (buying x))) by reflexivity. rewrite map_map. reflexivity. Qed.
  Lemma a_pairs_of : a_pairs d' = ps.
  Proof.
    unfold a_pairs, ps, all_pairs. rewrite a_buyers_of, a_sellers_of, !flat_map_concat_map, map_map. f_equal. apply map_ext. intro b.
    rewrite map_map. reflexivity.
  Qed.
  Hypothesis Hps : forall p, In p ps -> (fst p < length d)%nat /\ (snd p < length d)%nat.

  Lemma add_all_of T tl : add_all (tm_of T) (map trans_of tl) = tm_of (T ++ tl).
  Proof.
    revert T. induction tl as [|t tl IH]; intro T; [rewrite app_nil_r; reflexivity|].
    replace (T ++ t :: tl) with ((T ++ [t]) ++ tl) by (rewrite <- app_assoc; reflexivity). rewrite <- IH.
    unfold add_all. cbn [map fold_left]. f_equal. unfold tm_of. rewrite app_length, map_app. cbn [length map]. rewrite Nat.add_1_r. reflexivity.
  Qed.
  Lemma a_trade_of q T p : In p ps ->
    trade_pair_r R c (map price d) (q, tm_of T) p =
    let '(q', T') := a_trade o (map a_price d') (q, T) p in (q', tm_of T').
  Proof.
    destruct p as [b s]. intro Hp. destruct (Hps _ Hp) as [Lb Ls]. cbn [fst snd] in Lb, Ls.
    unfold trade_pair_r, a_trade.
    replace (map a_price d') with (map price d) by (unfold d'; rewrite map_map; reflexivity).
    rewrite (nth_error_nth' (map price d) 0 (n := b)) by (rewrite map_length; exact Lb).
    rewrite (nth_error_nth' (map price d) 0 (n := s)) by (rewrite map_length; exact Ls).
    cbn [o ops_r o_le o_none o_min o_sub o_pos o_mix o_free].
    destruct (qleb _ _); rewrite <- add_all_of; reflexivity.
  Qed.
  Lemma a_trades_of L : (forall p, In p L -> In p ps) -> forall q T,
    fold_left (trade_pair_r R c (map price d)) L (q, tm_of T) =
    let '(q', T') := fold_left (a_trade o (map a_price d')) L (q, T) in (q', tm_of T').
  Proof.
    induction L as [|p L IH]; intros HL q T; [reflexivity|]. cbn [fold_left]. rewrite a_trade_of by (apply HL; left; reflexivity).
    destruct (a_trade _ _ _ _) as [q' T']. apply IH. intros p' Hp'. apply HL. right; exact Hp'.
  Qed.
  Lemma pick_in fuel : forall k active tmp tr T a k', pick_round fuel ps r k active tmp tr = Ok (T, a, k') -> (forall p, In p tr -> In p ps) -> forall p, In p T -> In p ps.
  Proof.
    induction fuel as [|fuel IH]; intros k active tmp tr T a k' E Ht; simpl in E.
    - destruct (where_true tmp); [injection E as <- _ _; exact Ht | discriminate].
    - destruct (where_true tmp) as [|x w]; [injection E as <- _ _; exact Ht|].
      destruct (nth_error ps _) as [t|] eqn:En; [|discriminate]. apply (IH _ _ _ _ _ _ _ E). intros p Hp. apply in_app_or in Hp.
      destruct Hp as [Hp|[<-|[]]]; [apply Ht, Hp | eapply nth_error_In; eauto].
  Qed.
  Lemma a_loop_of fuel : forall k active tmp q T gtl,
    p2p_loop_r R A fuel d ps c (map price d) r k active tmp q (tm_of T) gtl =
    match a_loop o fuel d' ps (map a_price d') r k active tmp q T gtl with Ok (T', g) => Ok (tm_of T', g) | Err e => Err e end.
  Proof.
    induction fuel as [|fuel IH]; intros k active tmp q T gtl; cbn [p2p_loop_r a_loop]; cbn [o ops_r o_more]; destruct (qltb 0 (A q) && existsb (fun b => b) tmp); try reflexivity.
    destruct (pick_round (length ps) ps r k active tmp []) as [[[L a'] k']|e] eqn:E; cbn [bind]; [|reflexivity].
    rewrite a_trades_of by (eapply pick_in; [exact E | contradiction]).
    fold o. destruct (fold_left (a_trade o (map a_price d')) L (q, T)) as [q' T']. rewrite <- IH.
    replace (next_tmp d ps q' a') with (a_next o d' ps q' a'); [reflexivity|]. unfold a_next, next_tmp. rewrite a_buyers_of, a_sellers_of. reflexivity.
  Qed.
End Rounded.
Theorem any_rounded (R : rounding) (A : adder R) c d r :
  p2p_random_r R A d c r = match a_run (ops_r R A c) (map arow_of d) r with Ok (T, g) => Ok (tm_of T, XP2P g) | Err e => Err e end.
Proof.
  unfold p2p_random_r, a_run. rewrite a_pairs_of, map_length. destruct (forallb _ _) eqn:F; [|reflexivity].
  rewrite forallb_forall in F.
  assert (Hps : forall p, In p (all_pairs d) -> (fst p < length d)%nat /\ (snd p < length d)%nat).
  { intros p Hp. specialize (F p Hp). apply andb_true_iff in F. destruct F as [F1 F2]. apply Nat.ltb_lt in F1, F2. auto. }
  change tm_init with (tm_of []). replace (map a_qty (map arow_of d)) with (map qty d) by (rewrite map_map; reflexivity).
  rewrite a_loop_of by exact Hps. destruct (a_loop _ _ _ _ _ _ _ _ _ _ _ _) as [[T g]|e]; reflexivity.
Qed.
