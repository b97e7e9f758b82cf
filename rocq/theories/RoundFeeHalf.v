(** The fee of one user in rounded arithmetic. *)
From Verif Require Import QcTac Num NumFacts ModelBase ModelCurves ModelHuang ModelMuda ModelRound ListFacts StoreFacts
  Spec SpecTrade SpecMuda SpecRound FillFacts CurveFacts IntersectFacts TradeFacts Sorter MudaSide MudaHalf MudaSolve MudaFacts MudaErrors
  MergeFacts UpdateFacts RoundFacts RoundHuang RoundError RoundMuda RoundStats RoundFee.

Lemma near_qabs x y e : near x y e -> near (qabs x) (qabs y) e.
Proof. intros [H1 H2]. unfold near, qabs. destruct (qle_spec 0 x), (qle_spec 0 y); split; qlra. Qed.
Lemma qabs_scale a x : 0 <= x -> qabs (a * x) = qabs a * x.
Proof.
  intro H. destruct (Qclt_le_dec a 0) as [L|L].
  - rewrite (qabs_neg a) by qlra. rewrite qabs_neg; [ring|]. pose proof (qmult_nonneg _ _ (ltac:(qlra) : 0 <= - a) H) as M.
    replace (- a * x) with (- (a * x)) in M by ring. qlra.
  - rewrite (qabs_pos a) by exact L. apply qabs_pos, qmult_nonneg; assumption.
Qed.
Lemma qabs_add a b : qabs (a + b) <= qabs a + qabs b.
Proof. unfold qabs. destruct (qle_spec 0 (a + b)), (qle_spec 0 a), (qle_spec 0 b); qlra. Qed.
Lemma abs_near x y e : qabs (x - y) <= e -> near x y e.
Proof. unfold near, qabs. destruct (qle_spec 0 (x - y)); split; qlra. Qed.

Lemma q3 x : qz 3 * x = x + x + x.
Proof. replace (qz 3) with (1 + 1 + 1) by (apply Qc_is_canon; reflexivity). ring. Qed.

Section Fee.
  Variables (R : rounding) (A : adder R) (n : nat).
  Hypothesis Hseq : forall l, (length l <= n)%nat -> A l = seq_sum R l.
  Variable u : Qc.
  Hypothesis Hrel : rel_error R u.
  Notation B k := ((1 + u) ^ k).

  (** ** The new winners *)
  Definition new_winners_r (others : list (nat * row)) (quantity : Qc) : list (nat * row) :=
    let qs := map (fun ir => qty (snd ir)) others in
    let new_index :=
      if qltb quantity (A qs)
      then argmax_bool (map (fun c => qleb quantity c) (cumsum_r R qs))
      else (length others - 1)%nat in
    let new_winning := firstn (Datatypes.S new_index) others in
    let diff := R (quantity - A (map (fun ir => qty (snd ir)) (firstn new_index others))) in
    match nth_error others new_index with
    | Some (_, r) => if qltb diff (qty r) then set_last_qty new_winning diff else new_winning
    | None => new_winning
    end.
  Definition term_r (p : Qc) (ir : nat * row) : Qc := R (R (price (snd ir) - p) * qty (snd ir)).
  Lemma compute_fee_r_eq d index v quantity p : compute_fee_r R A d index v quantity p =
    match others_of v d with
    | [] => 0
    | _ => qabs (A (map (term_r p) (filter (fun ir => Nat.ltb index (fst ir)) (new_winners_r (others_of v d) quantity))))
    end.
  Proof. unfold compute_fee_r, new_winners_r, others_of. destruct (filter _ d); reflexivity. Qed.

  Lemma winners_r_fill (O : list (nat * row)) (Q : Qc) : O <> [] -> (length O <= n)%nat ->
    (forall ir, In ir O -> 0 <= rqty ir /\ machine R (rqty ir)) -> 0 < Q ->
    exists m, 0 <= m /\ m <= qsumf rqty O /\ near m (qmin Q (qsumf rqty O)) (qnat (n + 1) * (u * B n) * qsumf rqty O) /\
      (forall h, (forall i r q, h (i, with_qty r q) = h (i, r)) -> qsumf (fun ir => h ir * rqty ir) (new_winners_r O Q) = fillsum rqty h m O) /\
      (forall ir, In ir (new_winners_r O Q) -> 0 <= rqty ir) /\ (length (new_winners_r O Q) <= n)%nat.
  Proof.
    intros Hne Hlen H HQ.
    assert (Hl : forall x, In x (map rqty O) -> 0 <= x /\ machine R x) by (intros x Hx; apply in_map_iff in Hx; destruct Hx as (ir & <- & Hi); apply H, Hi).
    destruct (pos_fill R A n Hseq u Hrel (map rqty O) Q Hl ltac:(destruct O; [congruence | discriminate]) ltac:(rewrite map_length; exact Hlen) HQ)
      as (x & E & Lk & D0 & M1 & M2).
    unfold new_winners_r. fold rqty. change (fun ir : nat * row => qty (snd ir)) with rqty.
    replace (if qltb Q (A (map rqty O)) then argmax_bool (map (fun c => qleb Q c) (cumsum_r R (map rqty O))) else (length O - 1)%nat)
      with (pos_r R A (map rqty O) Q) by (unfold pos_r; rewrite map_length; reflexivity).
    set (k := pos_r R A (map rqty O) Q) in *. rewrite map_length in Lk. rewrite nth_error_map in E.
    destruct (nth_error O k) as [[i r]|] eqn:En; [|discriminate]. cbn [option_map] in E. injection E as Ex. unfold rqty in Ex. cbn [snd] in Ex. subst x.
    rewrite firstn_map in *. set (X := firstn k O) in *. fold (qsumf rqty X) in *. fold (qsumf rqty O) in *. cbv zeta in *.
    set (df := R (Q - A (map rqty X))) in *.
    assert (HO : O = X ++ (i, r) :: skipn (Datatypes.S k) O) by apply split_at, En.
    assert (HX : forall ir, In ir X -> 0 <= rqty ir) by (intros ir Hi; apply H; rewrite HO; apply in_or_app; left; exact Hi).
    assert (Hr : 0 <= qty r) by (apply (H (i, r)); rewrite HO; apply in_or_app; right; left; reflexivity).
    assert (SX : 0 <= qsumf rqty X) by (apply qsumf_nonneg, HX).
    exists (qsumf rqty X + qmin (qty r) df).
    assert (Qm : 0 <= qmin (qty r) df) by (apply qmin_glb; assumption).
    split; [qlra|]. split; [exact M1|]. split; [exact M2|].
    rewrite (firstn_split O k _ En). fold X.
    assert (Lx : (length (X ++ [(i, r)]) <= n)%nat).
    { rewrite app_length. simpl. pose proof (f_equal (@length _) HO) as L. rewrite app_length in L. simpl in L. lia. }
    assert (Fl : forall h, fillsum rqty h (qsumf rqty X + qmin (qty r) df) O = qsumf (fun x => h x * rqty x) X + h (i, r) * qmin (qty r) df).
    { intro h. rewrite HO. rewrite fill_stop.
      - f_equal. replace (qsumf rqty X + qmin (qty r) df - qsumf rqty X) with (qmin (qty r) df) by ring. reflexivity.
      - intros ir Hi. rewrite <- HO in Hi. apply H, Hi.
      - qlra.
      - unfold rqty at 3. cbn [snd]. pose proof (qmin_l (qty r) df). qlra. }
    destruct (qlt_spec df (qty r)) as [T|T].
    - unfold set_last_qty. rewrite rev_unit, rev_involutive.
      assert (Em : qmin (qty r) df = df) by (destruct (qmin_case (qty r) df) as [[-> ?]|[-> ?]]; qlra).
      split; [|split].
      + intros h Hh. rewrite Fl, Em, qsumf_app, qsumf_cons, qsumf_nil, Hh. unfold rqty at 2. cbn [snd with_qty qty]. ring.
      + intros ir Hi. apply in_app_or in Hi. destruct Hi as [Hi|[<-|[]]]; [apply HX, Hi | exact D0].
      + rewrite app_length in *. exact Lx.
    - assert (Em : qmin (qty r) df = qty r) by (destruct (qmin_case (qty r) df) as [[-> ?]|[-> ?]]; qlra).
      split; [|split].
      + intros h Hh. rewrite Fl, Em, qsumf_app, qsumf_cons, qsumf_nil. unfold rqty at 2. cbn [snd]. ring.
      + intros ir Hi. apply in_app_or in Hi. destruct Hi as [Hi|[<-|[]]]; [apply HX, Hi | exact Hr].
      + exact Lx.
  Qed.

  (** ** The sum of the products *)
  Lemma term_near a x : 0 <= x -> near (R (R a * x)) (a * x) ((B 2 - 1) * qabs (a * x)).
  Proof.
    intro X0. pose proof (u_nonneg R u Hrel) as U.
    destruct (rnd_near R u Hrel a) as [N1 N2].
    assert (N : near (R a * x) (a * x) (u * qabs (a * x))).
    { rewrite qabs_scale by exact X0. pose proof (qmult_le_r _ _ _ X0 N1) as P1. pose proof (qmult_le_r _ _ _ X0 N2) as P2. split.
      - replace (a * x + u * (qabs a * x)) with ((a + u * qabs a) * x) by ring. exact P1.
      - replace (R a * x + u * (qabs a * x)) with ((R a + u * qabs a) * x) by ring. exact P2. }
    apply (near_weaken _ _ (u * qabs (R a * x) + u * qabs (a * x))).
    - apply near_trans with (R a * x); [apply rnd_near, Hrel | exact N].
    - assert (L : qabs (R a * x) <= (1 + u) * qabs (a * x)).
      { destruct N as [N3 N4]. assert (near (qabs (R a * x)) (qabs (a * x)) (u * qabs (a * x))) as [N5 _] by (apply near_qabs; split; assumption).
        replace ((1 + u) * qabs (a * x)) with (qabs (a * x) + u * qabs (a * x)) by ring. exact N5. }
      pose proof (qmult_le_l _ _ _ U L) as M. replace ((B 2 - 1) * qabs (a * x)) with (u * ((1 + u) * qabs (a * x)) + u * qabs (a * x)) by (cbn [Qcpower]; ring). qlra.
  Qed.
  Lemma terms_near p (l : list (nat * row)) : (forall ir, In ir l -> 0 <= rqty ir) -> (length l <= n)%nat ->
    near (A (map (term_r p) l)) (qsumf (fun ir => (price (snd ir) - p) * rqty ir) l)
         ((B (n + 2) - 1) * qsumf (fun ir => qabs (price (snd ir) - p) * rqty ir) l).
  Proof.
    intros H Ln. pose proof (u_nonneg R u Hrel) as U.
    set (W := qsumf (fun ir => qabs (price (snd ir) - p) * rqty ir) l).
    assert (W0 : 0 <= W) by (apply qsumf_nonneg; intros; apply qmult_nonneg; [apply qabs_nonneg | auto]).
    pose proof (sums_signed R u Hrel _ _ (asum_ok R A (map (term_r p) l))) as N1.
    assert (Hm : forall x, In x (map (term_r p) l) -> machine R x) by (intros x Hx; apply in_map_iff in Hx; destruct Hx as (ir & <- & _); apply rnd_machine).
    specialize (N1 Hm). rewrite map_length in N1.
    assert (T : forall ir, In ir l -> near (term_r p ir) ((price (snd ir) - p) * rqty ir) ((B 2 - 1) * (qabs (price (snd ir) - p) * rqty ir))).
    { intros ir Hi. unfold term_r. change (qty (snd ir)) with (rqty ir). rewrite <- qabs_scale by auto. apply term_near. auto. }
    assert (N2 : near (qsum (map (term_r p) l)) (qsumf (fun ir => (price (snd ir) - p) * rqty ir) l) ((B 2 - 1) * W)).
    { fold (qsumf (term_r p) l). unfold W. rewrite <- qsumf_scale. split; rewrite <- qsumf_plus; apply qsumf_le; intros ir Hi; apply T, Hi. }
    assert (Ab : qsumf qabs (map (term_r p) l) <= B 2 * W).
    { rewrite qsumf_map. unfold W. rewrite <- qsumf_scale. apply qsumf_le. intros ir Hi.
      destruct (near_qabs _ _ _ (T ir Hi)) as [T1 _]. rewrite qabs_scale in T1 by auto.
      replace (B 2 * (qabs (price (snd ir) - p) * rqty ir)) with (qabs (price (snd ir) - p) * rqty ir + (B 2 - 1) * (qabs (price (snd ir) - p) * rqty ir)) by ring. exact T1. }
    assert (Bl : B (length l - 1) <= B n) by (apply (B_mono R u Hrel); lia).
    pose proof (B_ge1 R u Hrel (length l - 1)) as B1. pose proof (B_ge1 R u Hrel n) as B1n.
    apply (near_weaken _ _ _ _ (near_trans _ _ _ _ _ N1 N2)).
    pose proof (qmult_le_l (B (length l - 1) - 1) _ _ ltac:(qlra) Ab) as P1.
    assert (P2 : 0 <= B 2 * W) by (apply qmult_nonneg; [pose proof (B_ge1 R u Hrel 2); qlra | exact W0]).
    pose proof (qmult_le_r _ _ _ P2 (ltac:(qlra) : B (length l - 1) - 1 <= B n - 1)) as P3.
    replace (B (n + 2)) with (B n * B 2).
    - replace ((B n * B 2 - 1) * W) with ((B n - 1) * (B 2 * W) + (B 2 - 1) * W) by ring. qlra.
    - replace (n + 2)%nat with (Datatypes.S (Datatypes.S n)) by lia. rewrite !(B_S u). cbn [Qcpower]. ring.
  Qed.

  (** ** The fee *)
  Lemma others_len v i d : (length (others_of v (idx i d)) <= length d)%nat.
  Proof.
    unfold others_of, idx. etransitivity; [apply filter_len|]. rewrite combine_length. lia.
  Qed.
  Lemma gain_abs b p x : buying x = b -> 0 <= gain p x -> qabs (price x - p) = gain p x /\ price x - p = (if b then gain p x else - gain p x).
  Proof.
    intros E H. unfold gain in *. rewrite E in *. destruct b; split; try ring; [apply qabs_pos, H|]. rewrite qabs_neg; [ring | qlra].
  Qed.
  Definition E_r : Qc := qnat (n + 2) * (u * B (n + 2)).
  Lemma E_r_nonneg : 0 <= E_r.
  Proof.
    unfold E_r. apply qmult_nonneg; [pose proof (qnat_pos (n + 2) ltac:(lia)); qlra|].
    apply qmult_nonneg; [apply (u_nonneg R u Hrel) | pose proof (B_ge1 R u Hrel (n + 2)); qlra].
  Qed.
  Lemma E_r_pos : qnat (n + 1) * (u * B n) <= E_r.
  Proof.
    unfold E_r. pose proof (u_nonneg R u Hrel) as U. pose proof (B_mono R u Hrel n (n + 2) ltac:(lia)) as M. pose proof (B_ge1 R u Hrel (n + 2)) as B1.
    pose proof (qmult_le_l _ _ _ U M) as M1. pose proof (qnat_pos (n + 1) ltac:(lia)) as K.
    pose proof (qmult_le_l _ _ _ (ltac:(qlra) : 0 <= qnat (n + 1)) M1) as M2.
    replace (n + 2)%nat with (Datatypes.S (n + 1)) at 1 by lia. rewrite qnat_S.
    replace ((qnat (n + 1) + 1) * (u * B (n + 2))) with (qnat (n + 1) * (u * B (n + 2)) + u * B (n + 2)) by ring.
    assert (0 <= u * B (n + 2)) by (apply qmult_nonneg; [exact U | qlra]). qlra.
  Qed.
  Lemma E_r_sum : B (n + 2) - 1 <= E_r.
  Proof. apply (B_lin R u Hrel). Qed.

  Lemma fee_r_near (side : bool) (w rest : df) (v : Z) (Q p W dw : Qc) : w <> [] -> (length (w ++ rest) <= n)%nat ->
    (forall x, In x (w ++ rest) -> (0 <= qty x /\ machine R (qty x)) /\ buying x = side /\ 0 <= gain p x /\ gain p x <= W) ->
    0 <= W -> 0 < Q -> near (qsumf qty w) Q dw ->
    near (compute_fee_r R A (indexed (w ++ rest)) (length w - 1) v Q p)
         (fillsum qty (gain p) Q (oth v (w ++ rest)) - qsumf (fun x => gain p x * qty x) (oth v w))
         ((qz 3 * (E_r * qsumf qty (w ++ rest)) + dw) * W).
  Proof.
    intros Hw Ln H HW HQ Nw. set (T := qsumf qty (w ++ rest)). rewrite q3. pose proof E_r_nonneg as E0.
    assert (T0 : 0 <= T) by (apply qsumf_nonneg; intros; apply H; assumption).
    assert (ET : 0 <= E_r * T) by (apply qmult_nonneg; assumption).
    assert (dw0 : 0 <= dw) by (destruct Nw; qlra).
    rewrite compute_fee_r_eq. change (indexed (w ++ rest)) with (idx 0 (w ++ rest)).
    rewrite <- (others_snd v 0 (w ++ rest)). rewrite fill_map.
    set (O := others_of v (idx 0 (w ++ rest))).
    assert (HO : forall ir, In ir O -> In (snd ir) (w ++ rest)).
    { intros ir Hi. unfold O, others_of in Hi. apply filter_In in Hi. rewrite <- (idx_snd 0 (w ++ rest)). apply in_map, Hi. }
    change (fun a : nat * row => qty (snd a)) with rqty.
    assert (SO : qsumf rqty O <= T).
    { change rqty with (fun a : nat * row => qty (snd a)). rewrite <- (qsumf_map qty snd). unfold O. rewrite others_snd. apply oth_sum_le. intros; apply H; assumption. }
    set (ow := qsumf qty (oth v w)). set (gw := qsumf (fun x => gain p x * qty x) (oth v w)).
    set (Ow := others_of v (idx 0 w)). set (Or := others_of v (idx (0 + length w) rest)).
    assert (EO : O = Ow ++ Or) by (unfold O, Ow, Or; rewrite idx_app; unfold others_of; apply filter_app).
    assert (S1 : qsumf rqty Ow = ow) by (unfold Ow, ow; rewrite <- (others_snd v 0 w), qsumf_map; reflexivity).
    assert (S2 : qsumf (fun ir => gain p (snd ir) * rqty ir) Ow = gw) by (unfold Ow, gw; rewrite <- (others_snd v 0 w), qsumf_map; reflexivity).
    assert (HOq : forall ir, In ir O -> 0 <= rqty ir) by (intros ir Hi; apply (H _ (HO ir Hi))).
    assert (HOg : forall ir, In ir O -> 0 <= gain p (snd ir) /\ gain p (snd ir) <= W) by (intros ir Hi; apply (H _ (HO ir Hi))).
    assert (HWw : forall ir, In ir Ow -> In ir O) by (intros ir Hi; rewrite EO; apply in_or_app; left; exact Hi).
    assert (ow0 : 0 <= ow) by (rewrite <- S1; apply qsumf_nonneg; auto).
    assert (owO : ow <= qsumf rqty O).
    { rewrite EO, qsumf_app, S1. assert (0 <= qsumf rqty Or); [|qlra]. apply qsumf_nonneg. intros ir Hi. apply HOq. rewrite EO. apply in_or_app; right; exact Hi. }
    assert (oww : ow <= qsumf qty w) by (apply oth_sum_le; intros; apply H, in_or_app; left; assumption).
    destruct O as [|a O'] eqn:EO'.
    { assert (Ow = []) by (destruct Ow; [reflexivity | discriminate]). rewrite H0 in S2. cbn [fillsum].
      rewrite <- S2, qsumf_nil. replace (0 - 0) with 0 by ring. apply near_self. apply qmult_nonneg; qlra. }
    rewrite <- EO' in *.
    destruct (winners_r_fill O Q ltac:(rewrite EO'; discriminate)
      ltac:(unfold O; etransitivity; [apply others_len | exact Ln])
      (fun ir Hi => proj1 (H _ (HO ir Hi))) HQ) as (m & m0 & m1 & m2 & m3 & m4 & m5).
    set (N := new_winners_r O Q) in *. set (PN := filter (fun ir => Nat.ltb (length w - 1) (fst ir)) N).
    (* rounding of the sum *)
    assert (PNq : forall ir, In ir PN -> 0 <= rqty ir) by (intros ir Hi; apply filter_In in Hi; apply m4, Hi).
    assert (PNl : (length PN <= n)%nat) by (etransitivity; [apply filter_len | exact m5]).
    pose proof (terms_near p PN PNq PNl) as N1.
    (* the exact sum *)
    set (h := fun ir : nat * row => if Nat.ltb (length w - 1) (fst ir) then gain p (snd ir) else 0).
    set (h' := fun ir : nat * row => if Nat.ltb (length w - 1) (fst ir) then 0 else gain p (snd ir)).
    set (X := fillsum rqty h m O).
    assert (Es : forall (k : row -> Qc), (forall r q, k (with_qty r q) = k r) -> (forall ir, In ir O -> k (snd ir) = gain p (snd ir)) ->
       qsumf (fun ir => k (snd ir) * rqty ir) PN = X).
    { intros k Hk He. unfold PN. rewrite qsumf_filter.
      transitivity (qsumf (fun ir => (if Nat.ltb (length w - 1) (fst ir) then k (snd ir) else 0) * rqty ir) N).
      - apply qsumf_ext. intros ir _. destruct (Nat.ltb (length w - 1) (fst ir)); ring.
      - rewrite (m3 (fun ir => if Nat.ltb (length w - 1) (fst ir) then k (snd ir) else 0)) by (intros i r q; cbn [fst snd]; rewrite Hk; reflexivity).
        unfold X, h. apply fill_ext. intros ir Hi. rewrite He by exact Hi. reflexivity. }
    assert (XW : X <= W * T).
    { apply Qcle_trans with (W * qsumf rqty O); [|apply qmult_le_l; assumption]. apply fill_le; auto.
      intros ir Hi. unfold h. destruct (Nat.ltb _ _); [apply HOg, Hi | split; qlra]. }
    assert (X0 : 0 <= X) by (apply fill_nonneg; auto; intros ir Hi; unfold h; destruct (Nat.ltb _ _); [apply HOg, Hi | qlra]).
    assert (N2 : near (qabs (A (map (term_r p) PN))) X (E_r * T * W)).
    { assert (Ea : qsumf (fun ir => qabs (price (snd ir) - p) * rqty ir) PN = X).
      { apply Es with (k := fun r => qabs (price r - p)); [reflexivity|]. intros ir Hi. destruct (H _ (HO ir Hi)) as (_ & B1 & B2 & _). apply (gain_abs side); assumption. }
      assert (Eb : qabs (qsumf (fun ir => (price (snd ir) - p) * rqty ir) PN) = X).
      { destruct side.
        - rewrite (Es (fun r => price r - p)); [apply qabs_pos, X0 | reflexivity|]. intros ir Hi. destruct (H _ (HO ir Hi)) as (_ & B1 & B2 & _). apply (gain_abs true _ _ B1 B2).
        - replace (qsumf (fun ir => (price (snd ir) - p) * rqty ir) PN) with (- X); [rewrite qabs_neg by qlra; ring|].
          rewrite <- (Es (fun r => - (price r - p))); [|reflexivity|].
          + rewrite <- qsumf_opp. apply qsumf_ext. intros ir _. ring.
          + intros ir Hi. destruct (H _ (HO ir Hi)) as (_ & B1 & B2 & _). destruct (gain_abs false _ _ B1 B2) as [_ ->]. ring. }
      rewrite Ea in N1. apply near_qabs in N1. rewrite Eb in N1. apply (near_weaken _ _ _ _ N1).
      pose proof (B_ge1 R u Hrel (n + 2)) as B1.
      pose proof (qmult_le_r _ _ _ X0 E_r_sum) as P1. pose proof (qmult_le_l _ _ _ E0 XW) as P2. replace (E_r * T * W) with (E_r * (W * T)) by ring. qlra. }
    (* the two parts of the filling *)
    assert (Sp : fillsum rqty (fun ir => gain p (snd ir)) m O = X + fillsum rqty (fun ir => gain p (snd ir)) m Ow).
    { rewrite (fill_ext rqty (fun ir => gain p (snd ir)) (fun ir => h ir + h' ir)) by (intros ir _; unfold h, h'; destruct (Nat.ltb _ _); ring).
      rewrite fill_plus. fold X. f_equal. rewrite EO. rewrite fill_zero_tail.
      - apply fill_ext. intros [i r] Hi. unfold Ow, others_of in Hi. apply filter_In in Hi. destruct Hi as [Hi _]. apply idx_bound in Hi.
        unfold h'. cbn [fst snd]. destruct (Nat.ltb_spec (length w - 1) i); [lia | reflexivity].
      - intros [i r] Hi. unfold Or, others_of in Hi. apply filter_In in Hi. destruct Hi as [Hi _]. apply idx_bound in Hi.
        unfold h'. cbn [fst snd]. destruct (Nat.ltb_spec (length w - 1) i); [reflexivity|]. destruct w; [contradiction Hw; reflexivity|]. simpl in *; lia. }
    pose proof E_r_pos as EP.
    assert (D : qnat (n + 1) * (u * B n) * qsumf rqty O <= E_r * T).
    { assert (0 <= qsumf rqty O) by (apply qsumf_nonneg; auto).
      pose proof (qmult_le_r _ _ _ H0 EP) as P1. pose proof (qmult_le_l _ _ _ E0 SO) as P2. qlra. }
    pose proof (near_weaken _ _ _ _ m2 D) as m2'.
    assert (T0' : 0 <= qsumf rqty O) by (apply qsumf_nonneg; auto).
    assert (F1 : near (fillsum rqty (fun ir => gain p (snd ir)) m O) (fillsum rqty (fun ir => gain p (snd ir)) Q O) (E_r * T * W)).
    { rewrite (fill_cap rqty _ Q) by (auto; qlra). apply fill_near; auto. apply qmin_glb; [qlra | exact T0']. }
    assert (F2 : near (fillsum rqty (fun ir => gain p (snd ir)) m Ow) gw ((E_r * T + dw) * W)).
    { rewrite <- S2. rewrite <- (fill_all rqty (fun ir => gain p (snd ir)) (qsumf rqty Ow)) by (auto; apply Qcle_refl).
      rewrite (fill_cap rqty _ m) by auto. rewrite S1. apply fill_near; auto.
      - apply qmin_glb; assumption.
      - destruct m2' as [_ m2']. destruct Nw as [Nw _]. split.
        + pose proof (qmin_r m ow). qlra.
        + destruct (qmin_case m ow) as [[-> ?]|[-> ?]]; [|qlra]. destruct (qmin_case Q (qsumf rqty O)) as [[Eq ?]|[Eq ?]]; rewrite Eq in m2'; qlra. }
    destruct N2 as [N3 N4], F1 as [F3 F4], F2 as [F5 F6].
    replace ((E_r * T + E_r * T + E_r * T + dw) * W) with (E_r * T * W + (E_r * T * W) + (E_r * T + dw) * W) by ring.
    split; qlra.
  Qed.
End Fee.
