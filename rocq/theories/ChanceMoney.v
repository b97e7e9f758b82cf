(** The average payment in peer to peer trading when all bids have the same quantity and all prices are compatible. *)
From Verif Require Import QcTac Num ModelBase ModelHuang ModelP2P ListFacts MergeFacts StoreFacts Spec SpecTrade TradeFacts P2PFacts P2PTrades SpecP2P P2PSchedule SpecChance ChanceFacts ChancePick ChanceP2P ChanceOrder ChanceRound ChanceTop.

Lemma mean_sum {A B} (f : A -> B -> Qc) (l : list A) (m : list B) : mean (fun x => qsumf (f x) m) l = qsumf (fun y => mean (fun x => f x y) l) m.
Proof. unfold mean, Qcdiv. rewrite qsumf_scale_r. f_equal. apply qsumf_swap. Qed.

Section Even.
  Variables (d : df) (c q : Qc).
  Hypothesis Hl : map lbl d = seq 0 (length d).
  Hypothesis Hpos : 0 < q.
  Hypothesis Hq : forall x, In x d -> qty x = q.
  Hypothesis Hc : forall x y, In x d -> In y d -> buying x = true -> buying y = false -> price y <= price x.
  Let LP := list_prod (filter buying d) (filter (fun r => negb (buying r)) d).
  Let value (xy : row * row) : Qc := q * (price (fst xy) * c + (1 - c) * price (snd xy)).
  Let hits (L : list pair) (xy : row * row) : bool := existsb (fun p => Nat.eqb (fst p) (lbl (fst xy)) && Nat.eqb (snd p) (lbl (snd xy))) L.

  Lemma even_row x y : In (x, y) LP -> In x d /\ In y d /\ buying x = true /\ buying y = false.
  Proof. intro I. apply in_prod_iff in I. destruct I as [I J]. apply filter_In in I, J. destruct J as [J K]. apply negb_true_iff in K. tauto. Qed.
  Lemma traded_app i t1 t2 : traded_by i (t1 ++ t2) = traded_by i t1 + traded_by i t2.
  Proof. unfold traded_by. rewrite filter_app, qsumf_app. reflexivity. Qed.
  Lemma money_app i t1 t2 : money i (t1 ++ t2) = money i t1 + money i t2.
  Proof. unfold money. rewrite filter_app, qsumf_app. reflexivity. Qed.
  Lemma even_ne x y : In x d -> In y d -> buying x = true -> buying y = false -> lbl x <> lbl y.
  Proof. intros Ix Iy Bx By E. apply (row_of d Hl) in E; try assumption. subst. congruence. Qed.

  (** meetings of different bids that have not traded *)
  Lemma even_deals i tl L tl' : Deals d c tl L tl' -> NoDup (bids_of L) -> (forall j, In j (bids_of L) -> traded_by j tl = 0) ->
    (forall j, traded_by j tl' = traded_by j tl + (if existsb (Nat.eqb j) (bids_of L) then q else 0)) /\
    money i tl' = money i tl + qsumf (fun xy => if hits L xy then value xy else 0) (pairs_with d i).
  Proof.
    induction 1 as [|tl x y L tl' Hx Hy Bx By D IH]; intros N Z.
    - split; [intro j; cbn [bids_of flat_map existsb]; ring|]. rewrite qsumf_zero by reflexivity. ring.
    - cbn [bids_of flat_map app fst snd] in N, Z. fold (bids_of L) in N, Z. inversion_clear N as [|? ? N1 N2]. inversion_clear N2 as [|? ? N3 N4].
      pose proof (even_ne x y Hx Hy Bx By) as Nxy.
      assert (Rx : rest x tl = q) by (unfold rest; rewrite (Z (lbl x)), (Hq x Hx) by (left; reflexivity); ring).
      assert (Ry : rest y tl = q) by (unfold rest; rewrite (Z (lbl y)), (Hq y Hy) by (right; left; reflexivity); ring).
      assert (Ed : deal c x y tl = [mkTrans (lbl x) q (price x * c + (1 - c) * price y) (Z.of_nat (lbl y)) (qltb q q); mkTrans (lbl y) q (price x * c + (1 - c) * price y) (Z.of_nat (lbl x)) (qltb q q)]).
      { unfold deal. rewrite (proj2 (qleb_le _ _) (Hc x y Hx Hy Bx By)), Rx, Ry. unfold qmin. destruct (qleb q q); reflexivity. }
      assert (Td : forall j, traded_by j (deal c x y tl) = if Nat.eqb j (lbl x) || Nat.eqb j (lbl y) then q else 0).
      { intro j. rewrite Ed. unfold traded_by. cbn [filter t_bid]. rewrite (Nat.eqb_sym (lbl x) j), (Nat.eqb_sym (lbl y) j).
        destruct (Nat.eqb_spec j (lbl x)) as [E1|_]; destruct (Nat.eqb_spec j (lbl y)) as [E2|_]; try congruence; cbn [orb]; rewrite ?qsumf_cons, ?qsumf_nil; cbn [t_qty]; ring. }
      assert (Md : money i (deal c x y tl) = if Nat.eqb (lbl x) i || Nat.eqb (lbl y) i then value (x, y) else 0).
      { rewrite Ed. unfold money, value. cbn [filter t_bid fst snd].
        destruct (Nat.eqb_spec (lbl x) i) as [E1|_]; destruct (Nat.eqb_spec (lbl y) i) as [E2|_]; try congruence; cbn [orb]; rewrite ?qsumf_cons, ?qsumf_nil; cbn [t_qty t_price]; ring. }
      destruct IH as [T1 M1]; [exact N4| |].
      { intros j Hj. rewrite traded_app, Td, (Z j) by (right; right; exact Hj).
        destruct (Nat.eqb_spec j (lbl x)) as [->|_]; [exfalso; apply N1; right; exact Hj|]. destruct (Nat.eqb_spec j (lbl y)) as [->|_]; [contradiction|]. cbn [orb]. ring. }
      split.
      + intro j. rewrite T1, traded_app, Td. cbn [bids_of flat_map app fst snd existsb]. fold (bids_of L).
        assert (NI : forall k, ~ In k (bids_of L) -> existsb (Nat.eqb k) (bids_of L) = false).
        { intros k Nk. apply not_true_iff_false. intro E. apply existsb_exists in E. destruct E as (k' & I & E). apply Nat.eqb_eq in E. subst k'. contradiction. }
        destruct (Nat.eqb_spec j (lbl x)) as [->|_]; [cbn [orb]; rewrite (NI (lbl x)) by (intro I; apply N1; right; exact I); ring|].
        destruct (Nat.eqb_spec j (lbl y)) as [->|_]; [cbn [orb]; rewrite (NI (lbl y)) by exact N3; ring|]. cbn [orb]. ring.
      + rewrite M1, money_app, Md.
        assert (Sum : qsumf (fun xy => if hits ((lbl x, lbl y) :: L) xy then value xy else 0) (pairs_with d i) =
          (if Nat.eqb (lbl x) i || Nat.eqb (lbl y) i then value (x, y) else 0) + qsumf (fun xy => if hits L xy then value xy else 0) (pairs_with d i)).
        { (* the pair (x, y) itself occurs once *)
          assert (One : qsumf (fun xy => if Nat.eqb (lbl x) (lbl (fst xy)) && Nat.eqb (lbl y) (lbl (snd xy)) then value xy else 0) (pairs_with d i) =
            if Nat.eqb (lbl x) i || Nat.eqb (lbl y) i then value (x, y) else 0).
          { unfold pairs_with. rewrite qsumf_filter. fold LP.
            rewrite (qsumf_ext _ (fun xy => if Nat.eqb (lbl x) (lbl (fst xy)) && Nat.eqb (lbl y) (lbl (snd xy)) then (if Nat.eqb (lbl x) i || Nat.eqb (lbl y) i then value (x, y) else 0) else 0)).
            2: { intros [x' y'] I. destruct (even_row x' y' I) as (Ix' & Iy' & _). cbn [fst snd].
                 destruct (Nat.eqb_spec (lbl x) (lbl x')) as [E|_]; [|destruct (Nat.eqb (lbl x') i || Nat.eqb (lbl y') i); reflexivity]. apply (row_of d Hl) in E; try assumption. subst x'.
                 destruct (Nat.eqb_spec (lbl y) (lbl y')) as [E|_]; [|destruct (Nat.eqb (lbl x) i || Nat.eqb (lbl y') i); reflexivity]. apply (row_of d Hl) in E; try assumption. subst y'. cbn [andb]. reflexivity. }
            assert (ND : NoDup (map (fun xy : row * row => (lbl (fst xy), lbl (snd xy))) LP)) by (unfold LP; rewrite <- (pairs_lab d); apply (ps_NoDup d Hl)).
            assert (IL : In (x, y) LP) by (apply in_prod; apply filter_In; rewrite ?By; auto).
            generalize dependent (if Nat.eqb (lbl x) i || Nat.eqb (lbl y) i then value (x, y) else 0). intros v _. revert ND IL. generalize LP. clear.
            intro l; induction l as [|[x' y'] l IH]; intros ND I; [contradiction|]. rewrite qsumf_cons. cbn [map] in ND. inversion_clear ND as [|? ? N1 N2]. cbn [fst snd] in *.
            destruct I as [E|I].
            - injection E as -> ->. rewrite !Nat.eqb_refl. cbn [andb]. rewrite qsumf_zero; [ring|]. intros [a b] Iab. cbn [fst snd].
              destruct (Nat.eqb_spec (lbl x) (lbl a)) as [E1|_]; [|reflexivity]. destruct (Nat.eqb_spec (lbl y) (lbl b)) as [E2|_]; [|reflexivity].
              exfalso. apply N1. rewrite E1, E2. apply (in_map (fun xy : row * row => (lbl (fst xy), lbl (snd xy))) l (a, b) Iab).
            - rewrite IH by assumption. destruct (Nat.eqb_spec (lbl x) (lbl x')) as [E1|_]; [|cbn [andb]; ring]. destruct (Nat.eqb_spec (lbl y) (lbl y')) as [E2|_]; [|cbn [andb]; ring].
              exfalso. apply N1. rewrite <- E1, <- E2. apply (in_map (fun xy : row * row => (lbl (fst xy), lbl (snd xy))) l (x, y) I). }
          rewrite <- One, <- qsumf_plus. apply qsumf_ext. intros [x' y'] I. apply filter_In in I. destruct I as [I _]. fold LP in I. destruct (even_row x' y' I) as (Ix' & Iy' & _).
          unfold hits. cbn [existsb fst snd].
          destruct (Nat.eqb_spec (lbl x) (lbl x')) as [E|_]; [|cbn [andb orb]; ring]. apply (row_of d Hl) in E; try assumption. subst x'.
          destruct (Nat.eqb_spec (lbl y) (lbl y')) as [E|_]; [|cbn [andb orb]; ring]. apply (row_of d Hl) in E; try assumption. subst y'. cbn [andb orb].
          assert (F : existsb (fun p : pair => Nat.eqb (fst p) (lbl x) && Nat.eqb (snd p) (lbl y)) L = false).
          { apply not_true_iff_false. intro E. apply existsb_exists in E. destruct E as ([b s] & Ip & E). apply andb_true_iff in E. cbn [fst snd] in E. destruct E as [E1 E2].
            apply Nat.eqb_eq in E1, E2. subst b s. apply N1. right. apply in_flat_map. exists (lbl x, lbl y). split; [exact Ip | left; reflexivity]. }
          rewrite F. ring. }
        rewrite Sum. ring.
  Qed.

  Lemma even_run i r : (exists x y, In x d /\ In y d /\ buying x = true /\ buying y = false) ->
    money_of i (p2p_random d c r) = qsumf (fun xy => if met_early (lbl (fst xy), lbl (snd xy)) (p2p_random d c r) then value xy else 0) (pairs_with d i).
  Proof.
    intros (x0 & y0 & Ix0 & Iy0 & Bx0 & By0).
    assert (Hn : qty_nonneg d) by (intros x Ix; rewrite Hq by exact Ix; apply Qclt_le_weak, Hpos).
    destruct (p2p_run d c r Hl Hn) as (gtl & E & _). destruct (p2p_is_schedule d c Hl Hn r _ _ E) as (g & Eg & Sc & St). injection Eg as <-.
    rewrite E. cbn [money_of]. revert Sc St. generalize (snd (fold_left (trade_pair c (map price d)) (concat gtl) (map qty d, tm_init))). intros tm Sc St.
    (* the first round *)
    assert (First : forall gtl tl, Schedule d c gtl tl -> gtl = [] /\ tl = [] \/ exists T, gtl = [T] /\ Round d [] [] T /\ Deals d c [] T tl).
    { induction 1 as [|gtl' tl T tl' Sc' IH (x & Ix & Px) R D]; [left; auto|]. right. destruct IH as [[-> ->]|(T1 & -> & R1 & D1)]; [exists T; auto|].
      exfalso. destruct R as [Rs _ Ra _]. destruct T as [|p T]; [congruence|]. destruct (Ra p (or_introl eq_refl)) as (x1 & y1 & Ix1 & Iy1 & Bx1 & By1 & -> & Nm & Zr).
      cbn [concat app] in Nm, Zr. rewrite app_nil_r in Nm, Zr. destruct Zr as [->|[Z1 Z2]]; [destruct R1 as [R1s _ _ _]; congruence|].
      destruct R1 as [_ Rd _ Rm]. destruct (Rm (lbl x1, lbl y1)) as (p' & Ip & Ep).
      { exists x1, y1. cbn [In]. auto 10. }
      destruct (even_deals i [] T1 tl D1 Rd) as [Tr _]; [reflexivity|].
      assert (Tq : forall z, In z d -> In (lbl z) (bids_of T1) -> rest z tl = 0).
      { intros z Iz Hz. unfold rest. rewrite Tr, (Hq z Iz). assert (X : existsb (Nat.eqb (lbl z)) (bids_of T1) = true) by (apply existsb_exists; exists (lbl z); rewrite Nat.eqb_refl; auto).
        rewrite X. change (traded_by (lbl z) []) with (0 : Qc). ring. }
      cbn [fst snd] in Ep. destruct Ep as [Ep|Ep]; [apply Z1, (Tq x1 Ix1) | apply Z2, (Tq y1 Iy1)]; rewrite <- Ep; apply in_flat_map; exists p'; cbn [In]; auto. }
    destruct (First _ _ Sc) as [[-> Et]|(T & -> & R & D)].
    - (* somebody can trade, so there is a round *)
      exfalso. rewrite Et in St. destruct St as [Z|Z].
      + specialize (Z x0 Ix0). unfold rest in Z. rewrite (Hq x0 Ix0) in Z. change (traded_by (lbl x0) []) with (0 : Qc) in Z. qlra.
      + apply (Z (lbl x0, lbl y0)). exists x0, y0. cbn [In concat]. auto 10.
    - destruct (even_deals i [] T _ D (rd_disjoint _ _ _ _ R)) as [_ Mo]; [reflexivity|]. rewrite Mo. change (money i []) with (0 : Qc).
      cbn [met_early fst snd]. unfold hits. ring.
  Qed.

  (** the average of the money is the value of the meetings over the size of the larger side *)
  Theorem even_mean i M K : (exists x y, In x d /\ In y d /\ buying x = true /\ buying y = false) -> fair M (pairs_count d) -> (pairs_count d <= K)%nat ->
    average M K (p2p_random d c) (money_of i) =
    qsumf value (pairs_with d i) / num_of (Nat.max (length (filter buying d)) (length (filter (fun r => negb (buying r)) d))).
  Proof.
    intros Ex F HK. unfold average. rewrite (mean_ext _ (fun l => qsumf (fun xy => if met_early (lbl (fst xy), lbl (snd xy)) (p2p_random d c (st l)) then value xy else 0) (pairs_with d i))).
    2: { intros l _. apply even_run, Ex. }
    rewrite mean_sum. unfold Qcdiv. rewrite <- qsumf_scale_r. apply qsumf_ext. intros [x y] I. apply filter_In in I. destruct I as [I _]. fold LP in I. destruct (even_row x y I) as (Ix & Iy & Bx & By).
    assert (Hn : qty_nonneg d) by (intros z Iz; rewrite Hq by exact Iz; apply Qclt_le_weak, Hpos).
    assert (Hp : exists x, In x d /\ 0 < qty x) by (exists x; rewrite Hq by exact Ix; auto).
    pose proof (early_chance d c Hl Hn Hp M K F HK x y Ix Iy Bx By) as EC. unfold share, Qcdiv in EC. rewrite Qcmult_1_l in EC. rewrite <- EC, <- mean_scale.
    apply mean_ext. intros l _. cbn [fst snd]. destruct (met_early _ _); ring.
  Qed.
End Even.
