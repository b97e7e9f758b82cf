(** The p2p mechanism on tables whose quantities can have any sign and whose labels can repeat. *)
From Verif Require Import QcTac Num ModelBase ModelHuang ModelP2P ListFacts StoreFacts Spec SpecTrade P2PFacts P2PTrades.

Section Light.
  Variable ps : list (nat * nat).
  Lemma pick_light r fuel : forall k active tmp tr, length active = length ps -> length tmp = length ps -> (cnt tmp <= fuel)%nat ->
    exists T active' k', pick_round fuel ps r k active tmp tr = Ok (tr ++ T, active', k') /\ length active' = length ps /\
      (forall p, In p T -> In p ps) /\ (forall i, bget active' i = true -> bget active i = true) /\
      ((exists i, bget tmp i = true) -> exists i, bget tmp i = true /\ bget active' i = false).
  Proof.
    induction fuel as [|fuel IH]; intros k active tmp tr La Lt Hc.
    - assert (N : forall i, bget tmp i = true -> False).
      { intros i Hi. assert (In true (filter (fun b => b) tmp)).
        { apply filter_In. split; [|reflexivity]. rewrite <- Hi. apply nth_In, bget_len, Hi. }
        unfold cnt in Hc. destruct (filter (fun b => b) tmp); [contradiction | simpl in Hc; lia]. }
      exists [], active, k. assert (E : where_true tmp = []).
      { destruct (where_true tmp) as [|x w] eqn:E; [reflexivity|]. exfalso. apply (N x). apply where_true_In. rewrite E. left; reflexivity. }
      simpl. rewrite E, app_nil_r. split; [reflexivity|]. split; [exact La|]. split; [contradiction|]. split; [auto|].
      intros (i & Hi). exfalso. eapply N; eauto.
    - destruct (where_true tmp) as [|x0 w0] eqn:E.
      + exists [], active, k. simpl. rewrite E, app_nil_r. split; [reflexivity|]. split; [exact La|]. split; [contradiction|]. split; [auto|].
        intros (i & Hi). apply where_true_In in Hi. rewrite E in Hi. contradiction.
      + set (x := choose r k (x0 :: w0)).
        assert (Hx : bget tmp x = true) by (apply where_true_In; rewrite E; apply choose_in; discriminate).
        destruct (nth_error ps x) as [[b s]|] eqn:Ex.
        2:{ apply nth_error_None in Ex. apply bget_len in Hx. lia. }
        set (tmp' := mask_and (mask_and tmp (pairs_row ps b)) (pairs_row ps s)).
        assert (Lm : length (mask_and tmp (pairs_row ps b)) = length ps) by (rewrite mask_and_len; rewrite ?pairs_row_len; auto).
        assert (Lt' : length tmp' = length ps) by (unfold tmp'; rewrite mask_and_len; rewrite ?pairs_row_len; auto).
        assert (Bt : forall i, bget tmp' i = bget tmp i && bget (pairs_row ps b) i && bget (pairs_row ps s) i).
        { intro i. unfold tmp'. rewrite !bget_mask by (rewrite ?pairs_row_len; assumption). reflexivity. }
        assert (Sub : forall i, bget tmp' i = true -> bget tmp i = true).
        { intros i Hi. rewrite Bt in Hi. destruct (bget tmp i); [reflexivity | discriminate]. }
        assert (Out : bget tmp' x = false).
        { rewrite Bt, (bget_row ps b x _ Ex). simpl. rewrite Nat.eqb_refl. simpl. rewrite andb_false_r. reflexivity. }
        assert (Hc' : (cnt tmp' <= fuel)%nat) by (pose proof (cnt_lt tmp tmp' x ltac:(lia) Sub Hx Out); lia).
        assert (Lx : (x < length active)%nat) by (rewrite La, <- Lt; apply bget_len, Hx).
        destruct (IH (Datatypes.S k) (set_nth x false active) tmp' (tr ++ [(b, s)])) as (T & active' & k' & Ek & A1 & A2 & A3 & _).
        { rewrite set_nth_len; exact La. } { exact Lt'. } { exact Hc'. }
        exists ((b, s) :: T), active', k'. split; [|split; [exact A1|]; split; [|split]].
        * simpl. rewrite E. fold x. rewrite Ex. simpl fst; simpl snd. fold tmp'. rewrite Ek, <- app_assoc. reflexivity.
        * intros p [<-|Hp]; [eapply nth_error_In, Ex | apply A2, Hp].
        * intros i Hi. specialize (A3 i Hi). rewrite bget_set in A3 by exact Lx. apply andb_prop in A3. tauto.
        * intros _. exists x. split; [exact Hx|]. apply not_true_iff_false. intro Hi. specialize (A3 x Hi).
          rewrite bget_set, Nat.eqb_refl, andb_false_r in A3 by exact Lx. discriminate.
  Qed.
  Lemma next_light d q active : length active = length ps ->
    length (next_tmp d ps q active) = length ps /\ forall i, bget (next_tmp d ps q active) i = true -> bget active i = true.
  Proof.
    intro La. unfold next_tmp. match goal with |- context [fold_left _ ?l active] => generalize l end.
    intro l. revert active La. induction l as [|x l IH]; intros a La; cbn [fold_left]; [auto|].
    destruct (IH (mask_and a (pairs_row ps x))) as [I1 I2]; [rewrite mask_and_len; rewrite ?pairs_row_len; auto|].
    split; [exact I1|]. intros i Hi. specialize (I2 i Hi). rewrite bget_mask in I2 by (rewrite pairs_row_len; exact La). apply andb_prop in I2. tauto.
  Qed.
  Lemma loop_light d c prices r fuel : forall k active tmp q tm gtl q0,
    length active = length ps -> length tmp = length ps -> (cnt active <= fuel)%nat -> (forall i, bget tmp i = true -> bget active i = true) ->
    (forall p, In p (concat gtl) -> In p ps) -> (q, tm) = fold_left (trade_pair c prices) (concat gtl) (q0, tm_init) ->
    exists gtl', p2p_loop fuel d ps c prices r k active tmp q tm gtl = Ok (snd (fold_left (trade_pair c prices) (concat gtl') (q0, tm_init)), gtl') /\
      forall p, In p (concat gtl') -> In p ps.
  Proof.
    induction fuel as [|fuel IH]; intros k active tmp q tm gtl q0 La Lt Hc Hs Hp E; cbn [p2p_loop];
      (destruct (qltb 0 (qsum q) && existsb (fun b => b) tmp) eqn:G; [|exists gtl; split; [rewrite <- E; reflexivity | exact Hp]]).
    - exfalso. apply andb_prop in G. destruct G as [_ G]. apply existsb_bget in G. destruct G as (i & Hi). apply Hs in Hi.
      assert (In true (filter (fun b => b) active)).
      { apply filter_In. split; [|reflexivity]. rewrite <- Hi. apply nth_In, bget_len, Hi. }
      unfold cnt in Hc. destruct (filter (fun b => b) active); [contradiction | simpl in Hc; lia].
    - apply andb_prop in G. destruct G as [_ G]. apply existsb_bget in G.
      assert (Ct : (cnt tmp <= length ps)%nat) by (rewrite <- Lt; apply cnt_le).
      destruct (pick_light r (length ps) k active tmp [] La Lt Ct) as (T & active' & k' & Ek & A1 & A2 & A3 & A4). rewrite Ek. cbn [bind app].
      destruct (fold_left (trade_pair c prices) T (q, tm)) as [q' tm'] eqn:Ef.
      destruct (next_light d q' active' A1) as [N1 N2]. destruct (A4 G) as (x & X1 & X2).
      assert (Hc' : (cnt active' <= fuel)%nat) by (pose proof (cnt_lt active active' x ltac:(lia) A3 (Hs x X1) X2); lia).
      apply (IH k' active' (next_tmp d ps q' active') q' tm' (gtl ++ [T]) q0 A1 N1 Hc' N2).
      + intros p H. rewrite concat_app in H. cbn [concat] in H. rewrite app_nil_r in H. apply in_app_or in H. destruct H; auto.
      + rewrite concat_app. cbn [concat]. rewrite app_nil_r, fold_left_app, <- E. symmetry. exact Ef.
  Qed.
End Light.

Theorem p2p_table d c r : (forall x y, In x d -> In y d -> buying x = true -> buying y = false -> (lbl x < length d)%nat /\ (lbl y < length d)%nat) ->
  exists tm gtl, p2p_random d c r = Ok (tm, XP2P gtl) /\ Meetings (concat gtl) (tm_trans tm) /\
    forall b s, In (b, s) (concat gtl) -> exists x y, In x d /\ In y d /\ buying x = true /\ buying y = false /\ lbl x = b /\ lbl y = s.
Proof.
  intro H. unfold p2p_random. set (ps := all_pairs d).
  assert (Hps : forall b s, In (b, s) ps -> exists x y, In x d /\ In y d /\ buying x = true /\ buying y = false /\ lbl x = b /\ lbl y = s).
  { intros b s Hp. unfold ps, all_pairs in Hp. apply in_flat_map in Hp. destruct Hp as (x & Hx & Hp). apply in_map_iff in Hp. destruct Hp as (y & E & Hy).
    injection E as <- <-. apply filter_In in Hx, Hy. exists x, y. destruct Hx as [? ?], Hy as [? Hy]. apply negb_true_iff in Hy. auto 8. }
  assert (Fb : forallb (fun p => Nat.ltb (fst p) (length d) && Nat.ltb (snd p) (length d)) ps = true).
  { apply forallb_forall. intros [b s] Hp. destruct (Hps b s Hp) as (x & y & Hx & Hy & Bx & By & <- & <-). destruct (H x y Hx Hy Bx By) as [L1 L2].
    apply andb_true_iff. split; apply Nat.ltb_lt; assumption. }
  rewrite Fb.
  destruct (loop_light ps d c (map price d) r (length ps) 0%nat (repeat true (length ps)) (repeat true (length ps)) (map qty d) tm_init [] (map qty d)) as (gtl & E & R);
    [apply repeat_length | apply repeat_length | etransitivity; [apply cnt_le|]; rewrite repeat_length; lia | auto | contradiction | reflexivity|].
  rewrite E. cbn [bind]. eexists _, gtl. split; [reflexivity|]. split; [|intros b s Hi; apply Hps, R, Hi].
  rewrite fold_trade_trans. apply trades_meet.
Qed.
