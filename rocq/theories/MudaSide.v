(** One side of a MUDA half: the cut made by [get_trading_bids] and the fee of [compute_fee]. *)
From Verif Require Import QcTac Num ModelBase ModelCurves ModelHuang ModelMuda ListFacts FillFacts Spec SpecMuda.

Lemma with_qty_same r : with_qty r (qty r) = r.
Proof. destruct r; reflexivity. Qed.
Lemma skipn_last {A} (l : list A) : skipn (Datatypes.S (length l - 1)) l = [].
Proof. apply skipn_all2. lia. Qed.
Lemma sum_firstn_S l k r : nth_error l k = Some r -> qsum (map qty (firstn (Datatypes.S k) l)) = qsum (map qty (firstn k l)) + qty r.
Proof. intro H. rewrite (firstn_split l k r H), map_app, qsum_app. simpl. ring. Qed.

Definition leftover (r : row) (q : Qc) (post : df) : df :=
  if qltb q (qty r) then with_qty r (qty r - q) :: post else post.

(** What [get_trading_bids] does with a quantity that the side can provide. *)
Lemma trading_cut (L : df) (Q : Qc) : (forall r, In r L -> 0 <= qty r) -> 0 < Q -> Q <= qsumf qty L ->
  exists pre r post q, L = pre ++ r :: post /\ qsumf qty pre + q = Q /\ 0 <= q /\ q <= qty r /\
    get_trading_bids L Q = Ok ((pre ++ [with_qty r q]) ++ leftover r q post, length pre).
Proof.
  intros H0 H1 H2. unfold get_trading_bids.
  assert (C : exists k r, k = (if qltb Q (qsum (map qty L)) then argmax_bool (map (fun c => qleb Q c) (cumsum (map qty L))) else (length L - 1)%nat) /\
     nth_error L k = Some r /\ qsumf qty (firstn k L) <= Q /\ Q <= qsumf qty (firstn k L) + qty r).
  { destruct (qlt_spec Q (qsum (map qty L))) as [L1|L1].
    - destruct (argmax_cum (map qty L) Q H1 H2) as (K1 & K2 & K3). cbv zeta in K1.
      rewrite map_length in K1. set (k := argmax_bool _) in *. destruct (nth_error L k) as [r|] eqn:E; [|apply nth_error_None in E; lia].
      exists k, r. split; [reflexivity|]. split; [exact E|]. rewrite firstn_map in K2, K3. rewrite (sum_firstn_S L k r E) in K3.
      unfold qsumf. split; [qlra | exact K3].
    - destruct L as [|a L]; [unfold qsumf in H2; simpl in H2; exfalso; qlra|]. set (L' := a :: L) in *.
      assert (Ln : (length L' - 1 < length L')%nat) by (simpl; lia).
      destruct (nth_error L' (length L' - 1)) as [r|] eqn:E; [|apply nth_error_None in E; lia].
      exists (length L' - 1)%nat, r. split; [reflexivity|]. split; [exact E|].
      pose proof (sum_firstn_S L' _ r E) as S1. rewrite firstn_all2 in S1 by lia.
      assert (0 <= qty r) by (apply H0; eapply nth_error_In; eauto). unfold qsumf in *. split; qlra. }
  destruct C as (k & r & <- & E & K1 & K2). rewrite E.
  exists (firstn k L), r, (skipn (Datatypes.S k) L), (Q - qsumf qty (firstn k L)).
  split; [apply split_at, E|]. split; [ring|]. split; [qlra|]. split; [qlra|].
  assert (Hk : length (firstn k L) = k) by (apply firstn_length_le; apply Nat.lt_le_incl, nth_error_Some; congruence).
  rewrite Hk. unfold leftover. fold (qsumf qty (firstn k L)).
  destruct (qlt_spec (Q - qsumf qty (firstn k L)) (qty r)) as [T|T].
  - rewrite <- app_assoc. reflexivity.
  - replace (Q - qsumf qty (firstn k L)) with (qty r) by qlra. rewrite with_qty_same, <- app_assoc. cbn [app]. rewrite <- (split_at L k r E). reflexivity.
Qed.
Lemma firstn_win {A} (pre : list A) x rest : firstn (Datatypes.S (length pre)) ((pre ++ [x]) ++ rest) = pre ++ [x].
Proof.
  replace (Datatypes.S (length pre)) with (length (pre ++ [x])) by (rewrite app_length; simpl; lia).
  rewrite firstn_app, Nat.sub_diag, firstn_O, app_nil_r. apply firstn_all.
Qed.

(** ** The fee *)
Definition new_winners (others : list (nat * row)) (quantity : Qc) : list (nat * row) :=
  let qs := map (fun ir => qty (snd ir)) others in
  let new_index :=
    if qltb quantity (qsum qs)
    then argmax_bool (map (fun c => qleb quantity c) (cumsum qs))
    else (length others - 1)%nat in
  let new_winning := firstn (Datatypes.S new_index) others in
  let diff := quantity - qsum (map (fun ir => qty (snd ir)) (firstn new_index others)) in
  match nth_error others new_index with
  | Some (_, r) => if qltb diff (qty r) then set_last_qty new_winning diff else new_winning
  | None => new_winning
  end.
Definition others_of (u : Z) (d : list (nat * row)) := filter (fun ir => negb (Z.eqb (user (snd ir)) u)) d.
Lemma compute_fee_eq d index u quantity p : compute_fee d index u quantity p =
  match others_of u d with
  | [] => 0
  | _ => qabs (qsum (map (fun ir => (price (snd ir) - p) * qty (snd ir)) (filter (fun ir => Nat.ltb index (fst ir)) (new_winners (others_of u d) quantity))))
  end.
Proof. unfold compute_fee, new_winners, others_of. destruct (filter _ d); reflexivity. Qed.

Definition rqty (ir : nat * row) : Qc := qty (snd ir).
Lemma winners_fill (O : list (nat * row)) (Q : Qc) (h : nat * row -> Qc) :
  (forall ir, In ir O -> 0 <= rqty ir) -> 0 < Q -> (forall i r q, h (i, with_qty r q) = h (i, r)) ->
  qsumf (fun ir => h ir * rqty ir) (new_winners O Q) = fillsum rqty h Q O.
Proof.
  intros H0 H1 Hh. unfold new_winners. fold rqty. destruct (qlt_spec Q (qsum (map rqty O))) as [L1|L1].
  - destruct (argmax_cum (map rqty O) Q H1 ltac:(qlra)) as (K1 & K2 & K3). cbv zeta in K1.
    rewrite map_length in K1. set (k := argmax_bool _) in *. destruct (nth_error O k) as [[i r]|] eqn:E; [|apply nth_error_None in E; lia].
    rewrite firstn_map in K2, K3. rewrite (firstn_split O k _ E), map_app, qsum_app in K3. cbn [map qsum] in K3. unfold rqty at 2 in K3. simpl snd in K3.
    fold (qsumf rqty (firstn k O)) in *.
    transitivity (fillsum rqty h Q (firstn k O ++ (i, r) :: skipn (Datatypes.S k) O)); [|rewrite <- (split_at O k _ E); reflexivity].
    rewrite fill_stop; [|intros x Hx; apply H0; rewrite (split_at O k _ E); exact Hx | qlra | unfold rqty at 2; simpl; qlra].
    rewrite (firstn_split O k _ E). set (X := firstn k O) in *. fold (qsumf rqty X).
    destruct (qlt_spec (Q - qsumf rqty X) (qty r)) as [T|T].
    + unfold set_last_qty. rewrite rev_unit, rev_involutive. rewrite qsumf_app, qsumf_cons, qsumf_nil, Hh. unfold rqty at 2. simpl. ring.
    + rewrite qsumf_app, qsumf_cons, qsumf_nil. unfold rqty at 2. simpl snd. replace (Q - qsumf rqty X) with (qty r) by qlra. ring.
  - rewrite fill_all by (auto; fold (qsumf rqty O) in L1; qlra). destruct O as [|a O']; [reflexivity|]. set (O := a :: O') in *.
    assert (Ln : (length O - 1 < length O)%nat) by (simpl; lia).
    destruct (nth_error O (length O - 1)) as [[i r]|] eqn:E; [|apply nth_error_None in E; lia].
    assert (F : firstn (Datatypes.S (length O - 1)) O = O) by (apply firstn_all2; lia). rewrite F.
    pose proof (firstn_split O _ _ E) as G. rewrite F in G.
    destruct (qlt_spec (Q - qsum (map rqty (firstn (length O - 1) O))) (qty r)) as [T|T]; [|reflexivity].
    exfalso. assert (S1 : qsum (map rqty O) = qsum (map rqty (firstn (length O - 1) O)) + qty r).
    { rewrite G at 1. rewrite map_app, qsum_app. simpl. unfold rqty at 2. simpl. ring. }
    qlra.
Qed.

Lemma fill_map {A B} (f : A -> B) (q h : B -> Qc) Q X : fillsum q h Q (map f X) = fillsum (fun a => q (f a)) (fun a => h (f a)) Q X.
Proof. revert Q; induction X as [|x X IH]; intro Q; simpl; [reflexivity|]. rewrite IH. reflexivity. Qed.

Definition idx (n : nat) (d : df) : list (nat * row) := combine (seq n (length d)) d.
Lemma idx_app n d e : idx n (d ++ e) = idx n d ++ idx (n + length d) e.
Proof.
  unfold idx. revert n; induction d as [|a d IH]; intro n; simpl; [rewrite Nat.add_0_r; reflexivity|]. f_equal.
  rewrite IH. rewrite Nat.add_succ_comm. reflexivity.
Qed.
Lemma idx_snd n d : map snd (idx n d) = d.
Proof. unfold idx. revert n; induction d as [|a d IH]; intro n; simpl; [reflexivity|]. f_equal. apply IH. Qed.
Lemma idx_bound n d i r : In (i, r) (idx n d) -> (n <= i < n + length d)%nat.
Proof. unfold idx. intro H. apply in_combine_l in H. apply in_seq in H. exact H. Qed.
Notation oth := not_by.
Lemma others_snd u n d : map snd (others_of u (idx n d)) = oth u d.
Proof. unfold others_of, not_by. rewrite <- (idx_snd n d) at 2. rewrite filter_map. reflexivity. Qed.
Lemma oth_app u a b : oth u (a ++ b) = oth u a ++ oth u b.
Proof. apply filter_app. Qed.
Lemma oth_in u r d : In r (oth u d) -> In r d /\ user r <> u.
Proof. unfold not_by. intro H. apply filter_In in H. destruct H as [H1 H2]. split; [exact H1|]. apply negb_true_iff, Z.eqb_neq in H2. exact H2. Qed.
Lemma oth_split {u d} (f : row -> Qc) : qsumf f d = qsumf f (filter (fun r => Z.eqb (user r) u) d) + qsumf f (oth u d).
Proof. apply qsumf_filter_split. Qed.
Lemma oth_sum_le u d f : (forall r, In r d -> 0 <= f r) -> qsumf f (oth u d) <= qsumf f d.
Proof.
  intro H. rewrite (oth_split (u := u) (d := d) f). assert (0 <= qsumf f (filter (fun r => Z.eqb (user r) u) d)); [|qlra].
  apply qsumf_nonneg. intros r Hr. apply filter_In in Hr. apply H, Hr.
Qed.

(** fee before the absolute value, for winners [w] followed by [rest] *)
Lemma fee_raw (w rest : df) (u : Z) (Q p : Qc) : w <> [] ->
  (forall r, In r (w ++ rest) -> 0 <= qty r) -> qsumf qty w = Q -> 0 < Q ->
  compute_fee (indexed (w ++ rest)) (length w - 1) u Q p =
    qabs (fillsum qty (fun r => price r - p) (Q - qsumf qty (oth u w)) (oth u rest)) /\
  fillsum qty (fun r => price r - p) Q (oth u (w ++ rest)) =
    qsumf (fun r => (price r - p) * qty r) (oth u w) + fillsum qty (fun r => price r - p) (Q - qsumf qty (oth u w)) (oth u rest).
Proof.
  intros Hw H0 HQ H1.
  assert (Ow : qsumf qty (oth u w) <= Q).
  { rewrite <- HQ. apply oth_sum_le. intros r Hr. apply H0, in_or_app. left; exact Hr. }
  assert (Owp : forall r, In r (oth u w) -> 0 <= qty r) by (intros r Hr; apply H0, in_or_app; left; apply (oth_in u), Hr).
  split.
  - set (h := fun ir : nat * row => if Nat.ltb (length w - 1) (fst ir) then price (snd ir) - p else 0).
    set (O := others_of u (idx 0 (w ++ rest))).
    assert (E : compute_fee (indexed (w ++ rest)) (length w - 1) u Q p = qabs (fillsum rqty h Q O)).
    { rewrite compute_fee_eq. change (indexed (w ++ rest)) with (idx 0 (w ++ rest)). fold O.
      assert (F : O = [] -> fillsum rqty h Q O = 0) by (intros ->; reflexivity).
      destruct O as [|a O'] eqn:EO; [rewrite F by reflexivity; symmetry; apply qabs_pos, Qcle_refl|]. rewrite <- EO in *. f_equal.
      rewrite <- winners_fill; [|intros [i r] Hi; apply H0; unfold rqty; simpl; rewrite <- (idx_snd 0 (w ++ rest)); apply in_map_iff; exists (i, r); split; [reflexivity|]; unfold O, others_of in Hi; apply filter_In in Hi; apply Hi | exact H1 | reflexivity].
      fold (qsumf (fun ir => (price (snd ir) - p) * qty (snd ir)) (filter (fun ir => Nat.ltb (length w - 1) (fst ir)) (new_winners O Q))).
      rewrite qsumf_filter. apply qsumf_ext. intros ir _. unfold h, rqty. destruct (Nat.ltb (length w - 1) (fst ir)); ring. }
    rewrite E. f_equal. unfold O. rewrite idx_app. unfold others_of. rewrite filter_app.
    fold (others_of u (idx 0 w)). fold (others_of u (idx (0 + length w) rest)).
    assert (S1 : qsumf rqty (others_of u (idx 0 w)) = qsumf qty (oth u w)).
    { rewrite <- (others_snd u 0 w). rewrite qsumf_map. reflexivity. }
    rewrite fill_app; [|intros ir Hi; apply Owp; rewrite <- (others_snd u 0 w); apply in_map, Hi | rewrite S1; exact Ow].
    rewrite S1. assert (Z1 : qsumf (fun x => h x * rqty x) (others_of u (idx 0 w)) = 0).
    { apply qsumf_zero. intros [i r] Hi. unfold others_of in Hi. apply filter_In in Hi. destruct Hi as [Hi _]. apply idx_bound in Hi.
      unfold h. simpl fst. destruct (Nat.ltb_spec (length w - 1) i); [lia | ring]. }
    rewrite Z1, Qcplus_0_l. rewrite <- (others_snd u (0 + length w) rest), fill_map. apply fill_ext.
    intros [i r] Hi. unfold others_of in Hi. apply filter_In in Hi. destruct Hi as [Hi _]. apply idx_bound in Hi. unfold h. simpl.
    destruct (Nat.ltb_spec (length w - 1) i); [reflexivity|]. destruct w; [contradiction Hw; reflexivity|]. simpl in *; lia.
  - rewrite oth_app. apply fill_app; [exact Owp | exact Ow].
Qed.

(** The cut of [r] in two does not matter *)
Lemma leftover_oth u pre r q post h Q : (forall x, In x (pre ++ [r]) -> 0 <= qty x) -> 0 <= q -> q <= qty r -> 0 <= Q ->
  (forall x y, h (with_qty x y) = h x) ->
  fillsum qty h Q (oth u ((pre ++ [with_qty r q]) ++ leftover r q post)) = fillsum qty h Q (oth u (pre ++ r :: post)).
Proof.
  intros H0 H1 H2 HQ Hh. rewrite <- app_assoc. rewrite !oth_app. unfold leftover. simpl app.
  assert (Hr : 0 <= qty r) by (apply H0, in_or_app; right; left; reflexivity).
  destruct (qlt_spec q (qty r)) as [T|T].
  - unfold not_by at 2 4. simpl. destruct (Z.eqb (user r) u) eqn:E; simpl; [reflexivity|].
    symmetry. apply fill_cut; auto.
    + intros x Hx. apply in_app_or in Hx. destruct Hx as [Hx|[<-|[<-|[<-|[]]]]]; simpl; try qlra.
      apply H0, in_or_app. left. apply (oth_in u), Hx.
    + simpl. ring.
  - replace q with (qty r) by qlra. rewrite with_qty_same. unfold not_by. simpl. destruct (Z.eqb (user r) u); reflexivity.
Qed.

(** the fee as an externality *)
Lemma fee_vcg (side : bool) (pre : df) r post q (u : Z) (Q p : Qc) :
  (forall x, In x (pre ++ r :: post) -> 0 <= qty x /\ buying x = side /\ 0 <= gain p x) ->
  qsumf qty pre + q = Q -> 0 <= q -> q <= qty r -> 0 < Q ->
  let w := pre ++ [with_qty r q] in
  compute_fee (indexed (w ++ leftover r q post)) (length pre) u Q p =
    fillsum qty (gain p) Q (oth u (pre ++ r :: post)) - qsumf (fun x => gain p x * qty x) (oth u w) /\
  0 <= compute_fee (indexed (w ++ leftover r q post)) (length pre) u Q p.
Proof.
  intros H E H1 H2 HQ w.
  assert (Hr : 0 <= qty r /\ buying r = side /\ 0 <= gain p r) by (apply H, in_or_app; right; left; reflexivity).
  assert (Hall : forall x, In x (w ++ leftover r q post) -> 0 <= qty x /\ buying x = side /\ 0 <= gain p x).
  { intros x Hx. unfold w in Hx. rewrite <- app_assoc in Hx. apply in_app_or in Hx. destruct Hx as [Hx|Hx]; [apply H, in_or_app; left; exact Hx|].
    destruct Hx as [<-|Hx]; [repeat split; try apply Hr; exact H1|]. unfold leftover in Hx.
    destruct (qlt_spec q (qty r)) as [T|T].
    - destruct Hx as [<-|Hx]; [repeat split; try apply Hr; simpl; qlra|]. apply H, in_or_app; right; right; exact Hx.
    - apply H, in_or_app; right; right; exact Hx. }
  assert (Hlen : (length w - 1)%nat = length pre) by (unfold w; rewrite app_length; simpl; lia).
  assert (Sw : qsumf qty w = Q) by (unfold w; rewrite qsumf_app, qsumf_cons, qsumf_nil; simpl; rewrite <- E; ring).
  destruct (fee_raw w (leftover r q post) u Q p) as [F1 F2]; auto.
  { unfold w. destruct pre; discriminate. }
  { intros x Hx. apply Hall, Hx. }
  rewrite Hlen in F1. rewrite F1. split; [|apply qabs_nonneg].
  assert (Qn : 0 <= Q) by qlra.
  assert (Rn : 0 <= Q - qsumf qty (oth u w)).
  { assert (qsumf qty (oth u w) <= qsumf qty w); [|rewrite Sw in *; qlra]. apply oth_sum_le. intros x Hx. apply Hall, in_or_app; left; exact Hx. }
  assert (V : fillsum qty (gain p) Q (oth u (pre ++ r :: post)) =
              qsumf (fun x => gain p x * qty x) (oth u w) + fillsum qty (gain p) (Q - qsumf qty (oth u w)) (oth u (leftover r q post))).
  { rewrite <- (leftover_oth u pre r q post (gain p) Q); auto.
    - fold w. rewrite oth_app. apply fill_app.
      + intros x Hx. apply Hall, in_or_app. left. apply (oth_in u), Hx.
      + qlra.
    - intros x Hx. apply H. apply in_app_or in Hx. apply in_or_app. destruct Hx as [Hx|[<-|[]]]; [left; exact Hx | right; left; reflexivity]. }
  rewrite V. assert (N : 0 <= fillsum qty (gain p) (Q - qsumf qty (oth u w)) (oth u (leftover r q post))).
  { apply fill_nonneg; auto; intros x Hx; apply Hall, in_or_app; right; apply (oth_in u), Hx. }
  destruct side.
  - rewrite (fill_ext qty (fun r0 => price r0 - p) (gain p)).
    + rewrite qabs_pos by exact N. ring.
    + intros x Hx. unfold gain. destruct (Hall x) as (_ & -> & _); [apply in_or_app; right; apply (oth_in u), Hx | reflexivity].
  - rewrite (fill_ext qty (fun r0 => price r0 - p) (fun x => - gain p x)).
    + rewrite fill_opp. rewrite qabs_neg by qlra. ring.
    + intros x Hx. unfold gain. destruct (Hall x) as (_ & -> & _); [apply in_or_app; right; apply (oth_in u), Hx | ring].
Qed.
