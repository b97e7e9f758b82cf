(** The chances of the picks of one round of [p2p_random]. *)
From Verif Require Import QcTac Num ModelBase ModelHuang ModelP2P ListFacts P2PFacts SpecP2P SpecChance ChanceFacts.

Notation st l := (fun i : nat => nth i l 0%nat).
Notation pair := (nat * nat)%type.

(** ** the draws before position [k] do not matter *)
Lemma pick_shift ps fuel : forall (r r' : nat -> nat) k k' active tmp tr, (forall i, r (k + i)%nat = r' (k' + i)%nat) ->
  match pick_round fuel ps r k active tmp tr, pick_round fuel ps r' k' active tmp tr with
  | Ok (T, a, n), Ok (T', a', n') => T' = T /\ a' = a /\ exists m, n = (k + m)%nat /\ n' = (k' + m)%nat
  | Err e, Err e' => e' = e
  | _, _ => False
  end.
Proof.
  assert (Base : forall (T : list pair) (a : list bool) k k', T = T /\ a = a /\ exists m, k = (k + m)%nat /\ k' = (k' + m)%nat)
    by (intros; split; [reflexivity|]; split; [reflexivity|]; exists 0%nat; lia).
  induction fuel as [|fuel IH]; intros r r' k k' active tmp tr E; cbn [pick_round]; destruct (where_true tmp) as [|x0 w]; try apply Base; [reflexivity|].
  assert (C : choose r' k' (x0 :: w) = choose r k (x0 :: w)).
  { unfold choose. specialize (E 0%nat). rewrite !Nat.add_0_r in E. rewrite E. reflexivity. }
  rewrite C. destruct (nth_error ps (choose r k (x0 :: w))) as [trade|]; [|reflexivity].
  specialize (IH r r' (S k) (S k') (set_nth (choose r k (x0 :: w)) false active)
    (mask_and (mask_and tmp (pairs_row ps (fst trade))) (pairs_row ps (snd trade))) (tr ++ [trade])).
  destruct (pick_round fuel ps r (S k) _ _ _) as [[[T a] n]|e], (pick_round fuel ps r' (S k') _ _ _) as [[[T' a'] n']|e'];
    (match goal with |- _ => idtac end); try (apply IH; intro i; specialize (E (S i)); rewrite !Nat.add_succ_r in E; exact E).
  destruct IH as (A & B & m & M1 & M2); [intro i; specialize (E (S i)); rewrite !Nat.add_succ_r in E; exact E|].
  split; [exact A|]. split; [exact B|]. exists (S m). lia.
Qed.
Lemma pick_prefix ps r fuel : forall k active tmp tr T a n, pick_round fuel ps r k active tmp tr = Ok (T, a, n) -> exists T2, T = tr ++ T2.
Proof.
  induction fuel as [|fuel IH]; intros k active tmp tr T a n; cbn [pick_round]; destruct (where_true tmp) as [|x0 w]; try discriminate;
    try (intro E; exists []; rewrite app_nil_r; congruence).
  destruct (nth_error ps _) as [trade|]; [|discriminate]. intro E. apply IH in E. destruct E as (T2 & ->). exists (trade :: T2). rewrite <- app_assoc. reflexivity.
Qed.

(** ** candidates *)
Lemma where_gen a : forall m, map fst (filter snd (combine (seq m (length a)) a)) = map (Nat.add m) (where_true a) /\
  NoDup (where_true a) /\ length (where_true a) = cnt a.
Proof.
  induction a as [|b a IH]; intro m; [repeat split; constructor|].
  assert (W : where_true (b :: a) = (if b then [0%nat] else []) ++ map S (where_true a)).
  { unfold where_true at 1. cbn [length seq combine filter snd]. pose proof (proj1 (IH 1%nat)) as E. destruct b; cbn [map fst app]; rewrite E; reflexivity. }
  destruct (IH 0%nat) as (_ & N & L). split; [|split].
  - rewrite W. cbn [length seq combine filter snd]. pose proof (proj1 (IH (S m))) as E.
    assert (X : map (Nat.add (S m)) (where_true a) = map (Nat.add m) (map S (where_true a))).
    { rewrite map_map. apply map_ext. intro i. lia. }
    destruct b; cbn [map fst app]; rewrite E, X; [rewrite Nat.add_0_r|]; reflexivity.
  - rewrite W. assert (NS : NoDup (map S (where_true a))) by (apply FinFun.Injective_map_NoDup; [intros i j; lia | exact N]).
    destruct b; cbn [app]; [|exact NS]. constructor; [|exact NS]. intro I. apply in_map_iff in I. destruct I as (i & E & _). discriminate.
  - rewrite W, app_length, map_length, L. unfold cnt. cbn [filter]. destruct b; reflexivity.
Qed.
Lemma where_nodup a : NoDup (where_true a).
Proof. apply (where_gen a 0). Qed.
Lemma where_length a : length (where_true a) = cnt a.
Proof. apply (where_gen a 0). Qed.

(** ** the masks after the picks [T], and the weight of the picks *)
Definition mask_out (ps : list pair) (tmp : list bool) (p : pair) : list bool :=
  mask_and (mask_and tmp (pairs_row ps (fst p))) (pairs_row ps (snd p)).
Fixpoint weight (ps : list pair) (tmp : list bool) (T : list pair) : Qc :=
  match T with
  | [] => 1
  | p :: T' => 1 / num_of (length (where_true tmp)) * weight ps (mask_out ps tmp p) T'
  end.

Section Picks.
  Variable ps : list pair.
  Hypothesis Hnd : NoDup ps.
  Hypothesis Hne : forall p, In p ps -> fst p <> snd p.
  Variables (M : nat).
  Hypothesis HM : fair M (length ps).

  Lemma fair_less tmp : length tmp = length ps -> fair M (length (where_true tmp)).
  Proof. intro L. destruct HM as [H1 H2]. split; [exact H1|]. intros k K1 K2. apply H2; [exact K1|]. rewrite where_length in K2. pose proof (cnt_le tmp). lia. Qed.

  (** what is done with the picks [T], the mask [a] and the remaining draws *)
  Definition rest_of (C : list pair -> list bool -> list nat -> Qc) (fuel : nat) (active tmp : list bool) (tr : list pair) (l : list nat) : Qc :=
    match pick_round fuel ps (st l) 0 active tmp tr with
    | Ok (T, a, k) => C T a (skipn k l)
    | Err _ => 0
    end.
  Definition next_of (C : list pair -> list bool -> list nat -> Qc) (fuel : nat) (active tmp : list bool) (tr : list pair) (y : nat) (l : list nat) : Qc :=
    match nth_error ps y with
    | None => 0
    | Some p => rest_of C fuel (set_nth y false active) (mask_out ps tmp p) (tr ++ [p]) l
    end.
  Lemma rest_step C fuel active tmp tr x0 w x l : where_true tmp = x0 :: w ->
    rest_of C (S fuel) active tmp tr (x :: l) =
    next_of C fuel active tmp tr (nth (Nat.modulo x (length (x0 :: w))) (x0 :: w) 0%nat) l.
  Proof.
    intro W. unfold rest_of at 1. cbn [pick_round]. rewrite W. 
    change (choose (st (x :: l)) 0 (x0 :: w)) with (nth (Nat.modulo x (length (x0 :: w))) (x0 :: w) 0%nat).
    set (y := nth (Nat.modulo x (length (x0 :: w))) (x0 :: w) 0%nat). unfold next_of.
    destruct (nth_error ps y) as [p|] eqn:Ep; [|reflexivity]. fold (mask_out ps tmp p). unfold rest_of.
    pose proof (pick_shift ps fuel (st (x :: l)) (st l) 1 0 (set_nth y false active) (mask_out ps tmp p) (tr ++ [p]) (fun i => eq_refl)) as X.
    destruct (pick_round fuel ps (st (x :: l)) 1 _ _ _) as [[[T a] n]|e], (pick_round fuel ps (st l) 0 _ _ _) as [[[T' a'] n']|e']; try contradiction; [|reflexivity].
    destruct X as (-> & -> & m & -> & ->). reflexivity.
  Qed.

  (** a sequence of picks that ends the round has the weight of its candidates *)
  Lemma pick_mean (C : list pair -> list bool -> list nat -> Qc) K T : forall fuel active tmp tr,
    length active = length ps -> length tmp = length ps -> (cnt tmp <= fuel)%nat ->
    (forall p, In p T -> exists x, nth_error ps x = Some p /\ bget tmp x = true) ->
    NoDup (bids_of T) ->
    (forall i p, nth_error ps i = Some p -> bget tmp i = true ->
       exists q, In q T /\ (involves (fst q) p = true \/ involves (snd q) p = true)) ->
    (forall T' a l, T' <> tr ++ T -> C T' a l = 0) ->
    exists a, length a = length ps /\ (forall i p, nth_error ps i = Some p -> (bget a i = true <-> bget active i = true /\ ~ In p T)) /\
      mean (rest_of C fuel active tmp tr) (draws M (length T + K)) = weight ps tmp T * mean (C (tr ++ T) a) (draws M K).
  Proof.
    induction T as [|[b s] T IH]; intros fuel active tmp tr La Lt Hc HT Hd Hm HC.
    - exists active. split; [exact La|]. split; [intros i p _; cbn [In]; tauto|]. cbn [length Nat.add weight]. rewrite Qcmult_1_l, app_nil_r. apply mean_ext. intros l _.
      assert (E : where_true tmp = []).
      { destruct (where_true tmp) as [|x w] eqn:E; [reflexivity|]. exfalso.
        assert (Hx : bget tmp x = true) by (apply where_true_In; rewrite E; left; reflexivity).
        assert (L : (x < length ps)%nat) by (rewrite <- Lt; apply bget_len, Hx).
        destruct (nth_error ps x) as [p|] eqn:Ep; [|apply nth_error_None in Ep; lia].
        destruct (Hm x p Ep Hx) as (q & [] & _). }
      unfold rest_of. destruct fuel; cbn [pick_round]; rewrite E; reflexivity.
    - destruct (HT (b, s) (or_introl eq_refl)) as (x & Ex & Hx).
      assert (Hw : In x (where_true tmp)) by (apply where_true_In, Hx).
      set (tmp' := mask_out ps tmp (b, s)).
      assert (Lm : length (mask_and tmp (pairs_row ps b)) = length ps) by (rewrite mask_and_len; rewrite ?pairs_row_len; auto).
      assert (Lt' : length tmp' = length ps) by (unfold tmp', mask_out; rewrite mask_and_len; rewrite ?pairs_row_len; auto).
      assert (Bt : forall i p, nth_error ps i = Some p -> bget tmp' i = bget tmp i && negb (involves b p) && negb (involves s p)).
      { intros i p Hi. unfold tmp', mask_out. cbn [fst snd]. rewrite bget_mask by (rewrite pairs_row_len; exact Lm).
        rewrite bget_mask by (rewrite pairs_row_len; exact Lt). rewrite !(bget_row ps _ i p Hi). reflexivity. }
      assert (Sub : forall i, bget tmp' i = true -> bget tmp i = true).
      { intros i Hi. assert (L : (i < length ps)%nat) by (rewrite <- Lt'; apply bget_len, Hi).
        destruct (nth_error ps i) as [p|] eqn:Ep; [|apply nth_error_None in Ep; lia].
        rewrite (Bt i p Ep) in Hi. apply andb_true_iff in Hi. destruct Hi as [Hi _]. apply andb_true_iff in Hi. tauto. }
      assert (Out : bget tmp' x = false).
      { rewrite (Bt x _ Ex). unfold involves. simpl. rewrite Nat.eqb_refl. simpl. rewrite andb_false_r. reflexivity. }
      pose proof (cnt_lt tmp tmp' x ltac:(lia) Sub Hx Out) as Hlt.
      destruct fuel as [|fuel]; [lia|].
      assert (Lx : (x < length active)%nat) by (rewrite La, <- Lt; apply bget_len, Hx).
      simpl in Hd. inversion_clear Hd as [|? ? N1 N2]. inversion_clear N2 as [|? ? N3 N4].
      destruct (IH fuel (set_nth x false active) tmp' (tr ++ [(b, s)])) as (a & L2 & A2 & E2).
      { rewrite set_nth_len; exact La. } { exact Lt'. } { lia. }
      { intros p Hp. destruct (HT p (or_intror Hp)) as (y & Ey & Hy). exists y. split; [exact Ey|].
        rewrite (Bt y p Ey), Hy. simpl.
        assert (I : forall z, ~ In z (bids_of T) -> involves z p = false).
        { intros z Hz. unfold involves. apply orb_false_iff. split; apply Nat.eqb_neq; intros <-; apply Hz;
          unfold bids_of; apply in_flat_map; exists p; simpl; auto. }
        rewrite (I b), (I s); [reflexivity | exact N3|]. intro H. apply N1. right. exact H. }
      { exact N4. }
      { intros i p Hi Ht. rewrite (Bt i p Hi) in Ht. apply andb_true_iff in Ht. destruct Ht as [Ht Ns].
        apply andb_true_iff in Ht. destruct Ht as [Ht Nb]. apply negb_true_iff in Nb, Ns.
        destruct (Hm i p Hi Ht) as (q & [<-|Hq] & D); [simpl in D; destruct D; congruence|]. exists q. auto. }
      { intros T' a l N. apply HC. rewrite <- app_assoc in N. exact N. }
      exists a. split; [exact L2|]. split.
      + intros i p Hi. rewrite (A2 i p Hi), bget_set by exact Lx. rewrite andb_true_iff, negb_true_iff, Nat.eqb_neq. cbn [In]. split.
        * intros [[H1 H2] H3]. split; [exact H1|]. intros [Z|Z]; [|auto]. apply H2.
          apply (proj1 (NoDup_nth_error ps) Hnd); [rewrite <- La; exact Lx|]. rewrite Ex, Hi. congruence.
        * intros [H1 H2]. split; [split; [exact H1|]|tauto]. intros <-. apply H2. left. congruence.
      + cbn [length Nat.add weight]. fold tmp'.
        destruct (where_true tmp) as [|x0 w] eqn:W; [contradiction|].
        etransitivity.
        { apply (mean_draw M (length T + K) (x0 :: w) _ (next_of C fuel active tmp tr)); [rewrite <- W; apply fair_less, Lt | discriminate | intros y l; apply rest_step, W]. }
        assert (NW : NoDup (x0 :: w)) by (rewrite <- W; apply where_nodup).
        rewrite (mean_one _ (x0 :: w) x NW Hw).
        * assert (E3 : mean (next_of C fuel active tmp tr x) (draws M (length T + K)) = weight ps tmp' T * mean (C (tr ++ (b, s) :: T) a) (draws M K)).
          { rewrite <- app_assoc in E2. cbn [app] in E2. rewrite <- E2. apply mean_ext. intros l _. unfold next_of. rewrite Ex. reflexivity. }
          rewrite E3. ring.
        * intros y Hy Nxy. unfold next_of. destruct (nth_error ps y) as [p|] eqn:Ep.
          2: apply mean_const, draws_some, HM.
          assert (Np : p <> (b, s)).
          { intros ->. apply Nxy. apply (proj1 (NoDup_nth_error ps) Hnd); [|congruence]. apply nth_error_Some. congruence. }
          rewrite (mean_ext _ (fun _ => 0)); [apply mean_const, draws_some, HM|]. intros l _. unfold rest_of.
          destruct (pick_round _ _ _ _ _ _ _) as [[[T' a'] k']|e] eqn:Ek; [|reflexivity]. apply pick_prefix in Ek. destruct Ek as (T2 & ->).
          apply HC. rewrite <- app_assoc. cbn [app]. intro X. apply app_inv_head in X. congruence.
  Qed.
End Picks.
