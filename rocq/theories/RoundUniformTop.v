(** The uniform price mechanism in rounded arithmetic: what holds exactly and what holds up to rounding. *)
From Verif Require Import QcTac Num NumFacts ModelBase ModelCurves ModelHuang ModelMuda ModelMarket ModelUniform ModelRound ModelFloat ModelRoundUniform ListFacts Spec SpecTrade SpecRound
  CurveFacts IntersectFacts StoreFacts MergeFacts UpdateFacts TradeFacts Sorter HuangFacts UniformFacts RoundFacts RoundHuang RoundError RoundTop RoundUniform.

Lemma Forall2_combine {X Y} (P : X -> Y -> Prop) l m : Forall2 P l m -> forall x y, In (x, y) (combine l m) -> P x y.
Proof. induction 1 as [|a b l m H F IH]; intros x y I; [destruct I|]. cbn [combine] in I. destruct I as [E|I]; [injection E as <- <-; exact H | auto]. Qed.
Lemma Forall_combine {X Y} (P : Y -> Prop) (l : list X) m : Forall P m -> forall x y, In (x, y) (combine l m) -> P y.
Proof. intros F x y I. apply in_combine_r in I. rewrite Forall_forall in F. auto. Qed.

Lemma qnat_ge0 k : 0 <= qnat k.
Proof. destruct k as [|k]; [vm_compute; discriminate | pose proof (qnat_pos (Datatypes.S k) ltac:(lia)); qlra]. Qed.
(** the quantities of the long side, split where the short side is used up *)
Lemma long_nonpos (R : rounding) l : forall t a, machine R a -> (forall x, In x l -> 0 <= qty x) -> t < a -> Forall (fun q => q <= 0) (long_qs R l t a).
Proof.
  induction l as [|x l IH]; intros t a Ma Hq L; [constructor|]. cbn [long_qs]. pose proof (Hq x (or_introl eq_refl)) as Q.
  assert (G : a <= R (a + qty x)) by (apply rnd_ge; [exact Ma | qlra]). replace (qty x + a) with (a + qty x) by ring.
  constructor; [|apply IH; [apply rnd_machine | intros; apply Hq; right; assumption | qlra]].
  destruct (qle_spec (R (a + qty x)) t); [exfalso; qlra|]. apply rnd_nonpos. qlra.
Qed.
Lemma long_split (R : rounding) l : forall t a, machine R t -> a <= t -> (forall x, In x l -> 0 <= qty x) ->
  long_qs R l t a = map qty l /\ fold_left (fun s x => R (s + x)) (map qty l) a <= t \/
  exists P x Q, l = P ++ x :: Q /\ let aP := fold_left (fun s x => R (s + x)) (map qty P) a in
    long_qs R l t a = map qty P ++ R (t - aP) :: long_qs R Q t (R (aP + qty x)) /\ 0 <= t - aP /\ t - aP <= qty x /\ t < R (aP + qty x).
Proof.
  induction l as [|x l IH]; intros t a Mt L Hq; [left; split; [reflexivity | exact L]|]. cbn [long_qs map fold_left]. replace (qty x + a) with (a + qty x) by ring.
  destruct (qle_spec (R (a + qty x)) t) as [G|G].
  - destruct (IH t (R (a + qty x)) Mt G) as [(E & F)|(P & y & Q & -> & E & F)]; [intros; apply Hq; right; assumption | |].
    + left. rewrite E. auto.
    + right. exists (x :: P), y, Q. split; [reflexivity|]. cbv zeta. cbn [map fold_left app]. rewrite E. auto.
  - right. exists [], x, l. split; [reflexivity|]. cbv zeta. cbn [map fold_left app]. split; [reflexivity|]. split; [qlra|]. split; [|exact G].
    destruct (Qclt_le_dec (qty x) (t - a)) as [K|K]; [|exact K]. exfalso. pose proof (rnd_le R (a + qty x) t Mt ltac:(qlra)). qlra.
Qed.

Section Top.
  Variables (R : rounding) (A : adder R) (S : sorter) (d : df).
  Hypothesis Hq : qty_nonneg d.
  Hypothesis Hp : price_nonneg d.
  Hypothesis Hm : machine_qty R d.
  Hypothesis Hu : labels_unique d.
  Notation n := (length d).
  Notation W := (qsumf qty d).

  (** [Sh] trades in full, [Y ++ [y]] as far as it goes *)
  Record sides (tl : list trans) (c p : Qc) (s : bool) (Sh Y : df) (y : row) : Prop := {
    sd_perm : Permutation tl (emit Sh (map qty Sh) p ++ emit (Y ++ [y]) (long_qs R (Y ++ [y]) (A (map qty Sh)) 0) p);
    sd_short : forall r, In r Sh -> In r d /\ buying r = negb s;
    sd_long : forall r, In r (Y ++ [y]) -> In r d /\ buying r = s;
    sd_dup : NoDup (map lbl (Sh ++ Y ++ [y]));
    sd_before : Y = [] \/ sq R Y < c;
    sd_c : c <= sq R Sh /\ c <= sq R (Y ++ [y]);
    sd_A : A (map qty Sh) <= A (map qty (Y ++ [y]));
    sd_len : (length Sh + length (Y ++ [y]) <= n)%nat;
    sd_sum : qsumf qty Sh + qsumf qty (Y ++ [y]) <= W;
    sd_ir : (exists ps pb, (ps <= p /\ p <= pb) /\ forall r, In r (Sh ++ Y ++ [y]) -> if buying r then pb <= price r else price r <= ps) \/ ~ (halves R /\ machine_price R d) }.

  Lemma uniform_r_sides tm ex : uniform_price_mechanism_r R A S d = Ok (tm, ex) ->
    exists c p s Sh Y y, ex = XUniform (Fin c) (Fin p) /\ find_competitive_price_r R S d = Ok (Fin p) /\ 0 <= c /\ sides (tm_trans tm) c p s Sh Y y.
  Proof.
    intro E. pose proof (uniform_r_cases R A S d Hq Hp) as U. rewrite E in U.
    inversion U as [|c p B1 rb B2 L1 rs L2 tm' EB EL Lp Ir Cr C0 Pr B3 B4 L3 L4 Mn T E1]. subst tm' ex. exists c, p.
    assert (RB : forall r, In r (B1 ++ [rb]) -> In r d /\ buying r = true).
    { intros r Hr. apply (buyer_row S d _ _ _ r EB). change (rb :: B2) with ([rb] ++ B2). rewrite app_assoc. apply in_or_app. left; exact Hr. }
    assert (RL : forall r, In r (L1 ++ [rs]) -> In r d /\ buying r = false).
    { intros r Hr. apply (seller_row S d _ _ _ r EL). change (rs :: L2) with ([rs] ++ L2). rewrite app_assoc. apply in_or_app. left; exact Hr. }
    assert (P : Permutation d (((B1 ++ [rb]) ++ (L1 ++ [rs])) ++ (B2 ++ L2))).
    { assert (P0 : Permutation d ((B1 ++ rb :: B2) ++ (L1 ++ rs :: L2))).
      { rewrite <- EB, <- EL, (s_desc_perm S (buyers d)), (s_asc_perm S (sellers d)). unfold buyers, sellers.
        clear. induction d as [|r d' IH]; [constructor|]. cbn [filter]. destruct (buying r); cbn [negb app]; [constructor; exact IH | apply Permutation_cons_app; exact IH]. }
      rewrite P0. change (rb :: B2) with ([rb] ++ B2). change (rs :: L2) with ([rs] ++ L2). rewrite (app_assoc B1), (app_assoc L1), <- (app_assoc (B1 ++ [rb])), <- (app_assoc (B1 ++ [rb])).
      apply Permutation_app_head. rewrite (app_assoc B2), (app_assoc (L1 ++ [rs])). apply Permutation_app_tail, Permutation_app_comm. }
    assert (ND : NoDup (map lbl ((B1 ++ [rb]) ++ (L1 ++ [rs])))).
    { assert (N : NoDup (map lbl (((B1 ++ [rb]) ++ (L1 ++ [rs])) ++ (B2 ++ L2)))) by (apply (Permutation_NoDup (Permutation_map lbl P)), Hu). rewrite map_app in N. apply NoDup_app_l in N. exact N. }
    assert (Ln : (length (B1 ++ [rb]) + length (L1 ++ [rs]) <= n)%nat) by (rewrite (Permutation_length P), !app_length; lia).
    assert (Sm : qsumf qty (B1 ++ [rb]) + qsumf qty (L1 ++ [rs]) <= W).
    { rewrite (qsumf_perm qty _ _ P), (qsumf_app qty ((B1 ++ [rb]) ++ (L1 ++ [rs]))), (qsumf_app qty (B1 ++ [rb])).
      assert (0 <= qsumf qty (B2 ++ L2)); [|qlra]. apply qsumf_nonneg. intros r Hr. apply Hq. apply (Permutation_in _ (Permutation_sym P)), in_or_app. right; exact Hr. }
    pose proof (s_desc_sorted S (buyers d)) as Sd. rewrite EB in Sd. apply sorted_app in Sd. destruct Sd as (Sd & _).
    pose proof (s_asc_sorted S (sellers d)) as Sa. rewrite EL in Sa. apply sorted_app in Sa. destruct Sa as (Sa & _).
    assert (Hr : (exists ps pb, (ps <= p /\ p <= pb) /\ forall r, In r (B1 ++ [rb]) \/ In r (L1 ++ [rs]) -> if buying r then pb <= price r else price r <= ps) \/ ~ (halves R /\ machine_price R d)).
    { destruct (Qclt_le_dec p (price rs)) as [G|G]; [right | destruct (Qclt_le_dec (price rb) p) as [G'|G']; [right | left]].
      - intros [Hh Mp]. destruct (Ir Hh) as [X _]; [apply Mp, (RB rb), in_or_app; right; left; reflexivity | apply Mp, (RL rs), in_or_app; right; left; reflexivity | qlra].
      - intros [Hh Mp]. destruct (Ir Hh) as [_ X]; [apply Mp, (RB rb), in_or_app; right; left; reflexivity | apply Mp, (RL rs), in_or_app; right; left; reflexivity | qlra].
      - exists (price rs), (price rb). split; [split; assumption|]. intros r [I|I].
        + rewrite (proj2 (RB r I)). apply in_app_or in I. destruct I as [I|[<-|[]]]; [exact (Sd r I) | apply Qcle_refl].
        + rewrite (proj2 (RL r I)). apply in_app_or in I. destruct I as [I|[<-|[]]]; [exact (Sa r I) | apply Qcle_refl]. }
    unfold uniform_trans in T. destruct (qltb _ _) eqn:Q.
    - apply qltb_lt in Q. exists true, (L1 ++ [rs]), B1, rb. split; [reflexivity|]. split; [exact Pr|]. split; [exact C0|]. constructor; try assumption.
      + rewrite T. reflexivity.
      + rewrite map_app in *. apply (Permutation_NoDup (Permutation_app_comm _ _)), ND.
      + split; assumption.
      + qlra.
      + lia.
      + qlra.
      + destruct Hr as [(ps & pb & H1 & H2)|H]; [left; exists ps, pb; split; [exact H1|]; intros r I; apply H2; apply in_app_or in I; tauto | right; exact H].
    - apply qltb_ge in Q. exists false, (B1 ++ [rb]), L1, rs. split; [reflexivity|]. split; [exact Pr|]. split; [exact C0|]. constructor; try assumption.
      + rewrite T. reflexivity.
      + split; assumption.
      + destruct Hr as [(ps & pb & H1 & H2)|H]; [left; exists ps, pb; split; [exact H1|]; intros r I; apply H2; apply in_app_or in I; tauto | right; exact H].
  Qed.

  Section Sides.
    Variables (tl : list trans) (c p : Qc) (s : bool) (Sh Y : df) (y : row).
    Hypothesis H : sides tl c p s Sh Y y.
    Let Lo := Y ++ [y].
    Let t := A (map qty Sh).
    Lemma short_q : forall x, In x (map qty Sh) -> 0 <= x /\ machine R x.
    Proof. intros x Hx. apply in_map_iff in Hx. destruct Hx as (r & <- & Hr). destruct (sd_short _ _ _ _ _ _ _ H r Hr). split; [apply Hq | apply Hm]; assumption. Qed.
    Lemma long_q : forall x, In x (map qty Lo) -> 0 <= x /\ machine R x.
    Proof. intros x Hx. apply in_map_iff in Hx. destruct Hx as (r & <- & Hr). destruct (sd_long _ _ _ _ _ _ _ H r Hr). split; [apply Hq | apply Hm]; assumption. Qed.
    Lemma t_machine : machine R t.
    Proof. apply (sums_machine R (map qty Sh) t); [apply asum_ok | intros x Hx; apply short_q, Hx]. Qed.
    Lemma t_nonneg : 0 <= t.
    Proof. apply (sums_nonneg R (map qty Sh) t); [apply asum_ok | intros x Hx; apply short_q, Hx]. Qed.
    Lemma sides_in tr : In tr tl -> exists r q, In r d /\ tr = mkTrans (lbl r) q p (-1) false /\ (In (r, q) (combine Sh (map qty Sh)) \/ In (r, q) (combine Lo (long_qs R Lo t 0))).
    Proof.
      intro I. apply (Permutation_in _ (sd_perm _ _ _ _ _ _ _ H)), in_app_or in I. destruct I as [I|I]; apply emit_in in I; destruct I as (r & q & I & Hr & ->); exists r, q.
      - split; [apply (sd_short _ _ _ _ _ _ _ H r Hr)|]. auto.
      - split; [apply (sd_long _ _ _ _ _ _ _ H r Hr)|]. auto.
    Qed.
    Lemma sides_once : once tl.
    Proof.
      unfold once. apply (Permutation_NoDup (Permutation_sym (Permutation_map t_bid (sd_perm _ _ _ _ _ _ _ H)))). rewrite map_app, !emit_bids, <- map_app by (rewrite ?map_length, ?long_length; reflexivity).
      exact (sd_dup _ _ _ _ _ _ _ H).
    Qed.
    Lemma sides_refer : refer d tl.
    Proof. intros tr I. destruct (sides_in tr I) as (r & q & Hr & -> & _). exists r. split; [exact Hr | reflexivity]. Qed.
    Lemma combine_self (l : df) r q : In (r, q) (combine l (map qty l)) -> In r l /\ q = qty r.
    Proof. induction l as [|x l IH]; intro I; [destruct I|]. cbn [map combine] in I. destruct I as [E|I]; [injection E as <- <-; split; [left|]; reflexivity | destruct (IH I); split; [right|]; assumption]. Qed.
    Lemma sides_upper tr r : In tr tl -> In r d -> lbl r = t_bid tr -> t_qty tr <= qty r.
    Proof.
      intros I Hr El. destruct (sides_in tr I) as (x & q & Hx & -> & D). cbn [t_bid t_qty] in *. assert (r = x) by (apply (NoDup_map_in lbl d); auto). subst x.
      destruct D as [D|D]; [destruct (combine_self _ _ _ D) as [_ ->]; apply Qcle_refl|].
      exact (Forall2_combine _ _ _ (long_upper R Lo t 0 t_machine (fun x Hx => proj2 (long_q (qty x) (in_map qty _ _ Hx)))) r q D).
    Qed.
    Lemma sides_rational : halves R -> machine_price R d -> rational d tl.
    Proof.
      intros Hh Mp tr r I Hr El. destruct (sd_ir _ _ _ _ _ _ _ H) as [(ps & pb & P & Q)|N]; [|tauto].
      destruct (sides_in tr I) as (x & q & Hx & -> & D). cbn [t_bid t_price] in *. assert (r = x) by (apply (NoDup_map_in lbl d); auto). subst x.
      assert (J : In r (Sh ++ Y ++ [y])) by (apply in_or_app; destruct D as [D|D]; apply in_combine_l in D; auto).
      specialize (Q r J). destruct (buying r); qlra.
    Qed.
    (** no prefix of the long side exceeds the short side by more than [e] *)
    Lemma long_prefix e : 0 <= e -> c <= t + e -> forall pre z post, Lo = pre ++ z :: post -> - e <= t - fold_left (fun s x => R (s + x)) (map qty pre) 0.
    Proof.
      intros E0 Le pre z post E. pose proof t_nonneg as T0.
      destruct (rev post) as [|w m] eqn:Er; apply (f_equal (@rev row)) in Er; rewrite rev_involutive in Er; cbn [rev] in Er.
      - subst post. unfold Lo in E. apply app_inj_tail in E. destruct E as [<- _]. destruct (sd_before _ _ _ _ _ _ _ H) as [->|B]; [cbn; qlra | unfold seq_sum in B; qlra].
      - subst post. unfold Lo in E. rewrite app_comm_cons, app_assoc in E. apply app_inj_tail in E. destruct E as [E _].
        destruct (sd_before _ _ _ _ _ _ _ H) as [Z|B]; [rewrite Z in E; symmetry in E; apply app_eq_nil in E; destruct E as [-> _]; cbn; qlra|].
        assert (G : fold_left (fun s x => R (s + x)) (map qty pre) 0 <= sq R Y).
        { rewrite E, map_app. unfold seq_sum. apply fold_prefix; [apply machine_0|]. rewrite <- map_app. rewrite <- E. intros x Hx. apply long_q. unfold Lo. rewrite map_app. apply in_or_app. left; exact Hx. }
        qlra.
    Qed.
    Lemma long_low e : 0 <= e -> c <= t + e -> Forall (fun q => R (- e) <= q) (long_qs R Lo t 0).
    Proof. intros E0 Le. apply long_lower; [intros x Hx; apply long_q, in_map, Hx | qlra | apply long_prefix; assumption]. Qed.
    Lemma sides_lower e : 0 <= e -> c <= t + e -> forall tr, In tr tl -> R (- e) <= t_qty tr.
    Proof.
      intros E0 Le tr I. destruct (sides_in tr I) as (x & q & Hx & -> & D). cbn [t_qty]. destruct D as [D|D].
      - destruct (combine_self _ _ _ D) as [J ->]. pose proof (rnd_nonpos R (- e) ltac:(qlra)). pose proof (Hq x Hx). qlra.
      - exact (Forall_combine _ _ _ (long_low e E0 Le) x q D).
    Qed.
    Lemma sides_sums : let b := qsumf qty Sh in let l := qsum (long_qs R Lo t 0) in
      bought d tl - sold d tl = if s then l - b else b - l.
    Proof.
      cbv zeta. pose proof (sd_perm _ _ _ _ _ _ _ H) as P. fold Lo t in P.
      assert (As : all_side (negb s) d (emit Sh (map qty Sh) p)).
      { intros tr I. apply emit_in in I. destruct I as (r & q & _ & Hr & ->). exists r. destruct (sd_short _ _ _ _ _ _ _ H r Hr). auto. }
      assert (Al : all_side s d (emit Lo (long_qs R Lo t 0) p)).
      { intros tr I. apply emit_in in I. destruct I as (r & q & _ & Hr & ->). exists r. destruct (sd_long _ _ _ _ _ _ _ H r Hr). auto. }
      destruct (side_sums _ _ _ Hu As) as [As1 As2]. destruct (side_sums _ _ _ Hu Al) as [Al1 Al2].
      rewrite emit_sum in As1, As2, Al1, Al2 by (rewrite ?map_length, ?long_length; reflexivity).
      assert (Bp : bought d tl = bought d (emit Sh (map qty Sh) p ++ emit Lo (long_qs R Lo t 0) p)) by (unfold bought; apply qsumf_perm, filter_perm, P).
      assert (Sp : sold d tl = sold d (emit Sh (map qty Sh) p ++ emit Lo (long_qs R Lo t 0) p)) by (unfold sold; apply qsumf_perm, filter_perm, P).
      rewrite Bp, Sp, bought_app, sold_app, As1, As2, Al1, Al2. unfold qsumf. destruct s; cbn [negb]; ring.
    Qed.
  End Sides.

  (** ** Accumulated rounding *)
  Section Error.
    Variable u : Qc.
    Hypothesis Hrel : rel_error R u.
    Notation D := (qnat n * (u * (1 + u) ^ n) * W).
    Let U : 0 <= u := proj1 Hrel.
    Lemma W_nonneg : 0 <= W.
    Proof. apply qsumf_nonneg, Hq. Qed.
    Lemma coef_nonneg : 0 <= qnat n * (u * (1 + u) ^ n).
    Proof.
      apply qmult_nonneg; [apply qnat_ge0|].
      apply qmult_nonneg; [exact U|]. pose proof (B_ge1 R u Hrel n). qlra.
    Qed.
    Lemma D_nonneg : 0 <= D.
    Proof. apply qmult_nonneg; [apply coef_nonneg | apply W_nonneg]. Qed.
    Lemma sum_near l x : sums_to R l x -> (forall x, In x l -> 0 <= x /\ machine R x) -> (length l <= n)%nat -> qsum l <= W -> near x (qsum l) D.
    Proof.
      intros St Hl Ll Lw. apply (near_weaken _ _ _ _ (sums_near R u Hrel l x n St Hl Ll)). apply qmult_le_l; [apply coef_nonneg | exact Lw].
    Qed.
    Lemma qsum_low x l : x <= 0 -> Forall (fun q => x <= q) l -> qnat (length l) * x <= qsum l.
    Proof.
      intro X. induction 1 as [|q l Q F IH]; [cbn [length]; replace (qnat 0) with 0 by (apply Qc_is_canon; reflexivity); rewrite Qcmult_0_l; apply Qcle_refl|]. cbn [length]. rewrite qnat_S. change (qsum (q :: l)) with (q + qsum l).
      replace ((qnat (length l) + 1) * x) with (qnat (length l) * x + x) by ring. qlra.
    Qed.
    Lemma qsum_high l : Forall (fun q => q <= 0) l -> qsum l <= 0.
    Proof. induction 1 as [|q l Q F IH]; [cbn; qlra|]. change (qsum (q :: l)) with (q + qsum l). qlra. Qed.

    Section Sides.
      Variables (tl : list trans) (c p : Qc) (s : bool) (Sh Y : df) (y : row).
      Hypothesis H : sides tl c p s Sh Y y.
      Let Lo := Y ++ [y].
      Let t := A (map qty Sh).
      Lemma Hl : (length Sh + length Lo <= n)%nat.
      Proof. exact (sd_len _ _ _ _ _ _ _ H). Qed.
      Lemma Hs : qsumf qty Sh + qsumf qty Lo <= W.
      Proof. exact (sd_sum _ _ _ _ _ _ _ H). Qed.
      Lemma Sh_nonneg : 0 <= qsumf qty Sh.
      Proof. apply qsumf_nonneg. intros r Hr. apply (short_q _ _ _ _ _ _ _ H), in_map, Hr. Qed.
      Lemma Lo_nonneg : 0 <= qsumf qty Lo.
      Proof. apply qsumf_nonneg. intros r Hr. apply (long_q _ _ _ _ _ _ _ H), in_map, Hr. Qed.
      Lemma short_near : near t (qsumf qty Sh) D.
      Proof.
        apply (sum_near (map qty Sh) t (asum_ok R A _)); [apply (short_q _ _ _ _ _ _ _ H) | rewrite map_length; pose proof Hl; lia|].
        pose proof Lo_nonneg. pose proof Hs. change (qsum (map qty Sh)) with (qsumf qty Sh). qlra.
      Qed.
      (** the clearing quantity exceeds the traded quantity by rounding only *)
      Lemma c_near : c <= t + (D + D).
      Proof.
        destruct (sd_c _ _ _ _ _ _ _ H) as [C _]. pose proof short_near as [_ S2].
        destruct (sum_near (map qty Sh) (sq R Sh) (seq_sum_ok R _)) as [K _]; [apply (short_q _ _ _ _ _ _ _ H) | rewrite map_length; pose proof Hl; lia | pose proof Lo_nonneg; pose proof Hs; change (qsum (map qty Sh)) with (qsumf qty Sh); qlra|].
        change (qsum (map qty Sh)) with (qsumf qty Sh) in K. qlra.
      Qed.
      Lemma long_near e : 0 <= e -> c <= t + e -> near (qsum (long_qs R Lo t 0)) t (D + u * W + qnat n * R e).
      Proof.
        intros E0 Le. pose proof (t_nonneg _ _ _ _ _ _ _ H) as T0. fold t in T0. pose proof (t_machine _ _ _ _ _ _ _ H) as Mt. fold t in Mt.
        pose proof W_nonneg as W0. pose proof D_nonneg as D0. pose proof (rnd_nonneg R e E0) as Re. pose proof (qmult_nonneg u W U W0) as UW.
        assert (N0 : 0 <= qnat n * R e) by (apply qmult_nonneg; [apply qnat_ge0 | exact Re]).
        assert (QL : forall x, In x (map qty Lo) -> 0 <= x /\ machine R x) by apply (long_q _ _ _ _ _ _ _ H).
        assert (QLr : forall x, In x Lo -> 0 <= qty x) by (intros x Hx; apply QL, in_map, Hx). pose proof Sh_nonneg as S0. pose proof Lo_nonneg as L0. pose proof Hl as Hl. pose proof Hs as Hs.
        destruct (long_split R Lo t 0 Mt T0 QLr) as [(E & F)|(P & x & Q & EL & E & F1 & F2 & F3)].
        - rewrite E. change (qsum (map qty Lo)) with (qsumf qty Lo). assert (LW : qsum (map qty Lo) <= W) by (change (qsum (map qty Lo)) with (qsumf qty Lo); qlra).
          destruct (sum_near (map qty Lo) (sq R Lo) (seq_sum_ok R _) QL) as [_ K2]; [rewrite map_length; pose proof Hl; lia | exact LW|].
          destruct (sum_near (map qty Lo) (A (map qty Lo)) (asum_ok R A _) QL) as [K3 _]; [rewrite map_length; pose proof Hl; lia | exact LW|].
          pose proof (sd_A _ _ _ _ _ _ _ H) as G. fold Lo t in G. change (qsum (map qty Lo)) with (qsumf qty Lo) in *. unfold seq_sum in K2. split; qlra.
        - cbv zeta in E, F1, F2, F3. set (aP := fold_left _ (map qty P) 0) in *. rewrite E. rewrite qsum_app. change (qsum (R (t - aP) :: ?l)) with (R (t - aP) + qsum l).
          set (qs := long_qs R Q t (R (aP + qty x))).
          assert (QQ : forall z, In z Q -> 0 <= qty z) by (intros z Hz; apply QLr; rewrite EL; apply in_or_app; right; right; exact Hz).
          assert (H1 : qsum qs <= 0) by (apply qsum_high, long_nonpos; [apply rnd_machine | exact QQ | exact F3]).
          assert (H2 : - (qnat n * R e) <= qsum qs).
          { assert (Fl : Forall (fun q => R (- e) <= q) qs).
            { pose proof (long_low _ _ _ _ _ _ _ H e E0 Le) as Fa. fold Lo t in Fa. rewrite E in Fa. apply Forall_app in Fa. destruct Fa as [_ Fa]. inversion_clear Fa as [|? ? _ Fb]. exact Fb. }
            rewrite rnd_opp in Fl. pose proof (qsum_low (- R e) qs ltac:(qlra) Fl) as K.
            assert (Ln : qnat (length qs) <= qnat n).
            { unfold qnat. apply (proj1 (qz_le _ _)). unfold qs. rewrite long_length. rewrite EL, app_length in Hl. cbn [length] in Hl. lia. }
            pose proof (qmult_le_r _ _ _ Re Ln) as M. replace (qnat (length qs) * - R e) with (- (qnat (length qs) * R e)) in K by ring. qlra. }
          assert (PW : qsum (map qty P) <= W /\ qty x <= W).
          { rewrite EL, qsumf_app, qsumf_cons in Hs. pose proof (qsumf_nonneg qty Q QQ). change (qsum (map qty P)) with (qsumf qty P).
            assert (0 <= qsumf qty P) by (apply qsumf_nonneg; intros z Hz; apply QLr; rewrite EL; apply in_or_app; left; exact Hz).
            assert (0 <= qty x) by (apply QLr; rewrite EL; apply in_or_app; right; left; reflexivity). split; qlra. }
          destruct PW as [PW XW].
          assert (QP : forall z, In z (map qty P) -> 0 <= z /\ machine R z) by (intros z Hz; apply QL; rewrite EL, map_app; apply in_or_app; left; exact Hz).
          destruct (sum_near (map qty P) (sq R P) (seq_sum_ok R _) QP) as [K1 K2]; [rewrite map_length; pose proof Hl as Hl; rewrite EL, app_length in Hl; cbn [length] in Hl; lia | exact PW|].
          change (sq R P) with aP in K1, K2.
          destruct (rnd_near_pos R u Hrel (t - aP) F1) as [R1 R2]. assert (V : u * (t - aP) <= u * W) by (apply qmult_le_l; [exact U | qlra]).
          split; qlra.
      Qed.
      Lemma sides_balance e : 0 <= e -> c <= t + e -> qabs (bought d tl - sold d tl) <= D + D + u * W + qnat n * R e.
      Proof.
        intros E0 Le. pose proof (long_near e E0 Le) as N1. pose proof short_near as N2. pose proof (near_trans _ _ _ _ _ N1 N2) as [N3 N4].
        rewrite (sides_sums _ _ _ _ _ _ _ H). fold Lo t. unfold qabs. destruct s; match goal with |- (if qleb 0 ?z then _ else _) <= _ => destruct (qle_spec 0 z) | |- _ => idtac end; qlra.
      Qed.
    End Sides.
  End Error.

  (** ** Summary *)
  Theorem uniform_r_summary tm ex : uniform_price_mechanism_r R A S d = Ok (tm, ex) ->
    exists c p, ex = XUniform (Fin c) (Fin p) /\ find_competitive_price_r R S d = Ok (Fin p) /\ once (tm_trans tm) /\ refer d (tm_trans tm) /\
      (forall t, In t (tm_trans tm) -> t_price t = p /\ t_source t = (-1)%Z /\ t_active t = false) /\
      (forall t r, In t (tm_trans tm) -> In r d -> lbl r = t_bid t -> t_qty t <= qty r) /\
      (halves R -> machine_price R d -> rational d (tm_trans tm)).
  Proof.
    intro E. destruct (uniform_r_sides tm ex E) as (c & p & s & Sh & Y & y & -> & Pr & C0 & H). exists c, p. split; [reflexivity|]. split; [exact Pr|].
    split; [exact (sides_once _ _ _ _ _ _ _ H)|]. split; [exact (sides_refer _ _ _ _ _ _ _ H)|].
    split; [intros t I; destruct (sides_in _ _ _ _ _ _ _ H t I) as (r & q & _ & -> & _); auto|].
    split; [intros t r; exact (sides_upper _ _ _ _ _ _ _ H t r) | exact (sides_rational _ _ _ _ _ _ _ H)].
  Qed.
  Theorem uniform_r_seq tm ex u : (forall l, (length l <= n)%nat -> A l = seq_sum R l) -> rel_error R u -> uniform_price_mechanism_r R A S d = Ok (tm, ex) ->
    feasible d (tm_trans tm) /\ qabs (bought d (tm_trans tm) - sold d (tm_trans tm)) <= (qnat (2 * n) * (u * (1 + u) ^ n) + u) * W.
  Proof.
    intros Hs Hrel E. destruct (uniform_r_sides tm ex E) as (c & p & s & Sh & Y & y & -> & Pr & C0 & H).
    assert (Le : c <= A (map qty Sh) + 0).
    { rewrite Hs by (rewrite map_length; pose proof (sd_len _ _ _ _ _ _ _ H); lia). pose proof (proj1 (sd_c _ _ _ _ _ _ _ H)). qlra. }
    assert (Z : 0 <= 0) by apply Qcle_refl. split.
    - apply feasible_once; [exact Hu | exact Hq | exact (sides_once _ _ _ _ _ _ _ H) | | exact (sides_refer _ _ _ _ _ _ _ H)].
      intros t r I Hr El. split; [|exact (sides_upper _ _ _ _ _ _ _ H t r I Hr El)].
      pose proof (sides_lower _ _ _ _ _ _ _ H 0 Z Le t I) as K. rewrite rnd_opp, rnd_zero in K. qlra.
    - pose proof (sides_balance u Hrel _ _ _ _ _ _ _ H 0 Z Le) as K. rewrite rnd_zero in K. replace (2 * n)%nat with (n + n)%nat by lia.
      assert (En : qnat (n + n) = qnat n + qnat n) by (unfold qnat; rewrite Nat2Z.inj_add, qz_plus; reflexivity). rewrite En.
      replace (((qnat n + qnat n) * (u * (1 + u) ^ n) + u) * W) with (qnat n * (u * (1 + u) ^ n) * W + qnat n * (u * (1 + u) ^ n) * W + u * W + qnat n * 0) by ring. exact K.
  Qed.
  Theorem uniform_r_any tm ex u : rel_error R u -> uniform_price_mechanism_r R A S d = Ok (tm, ex) ->
    let D := qnat n * (u * (1 + u) ^ n) * W in
    (forall t, In t (tm_trans tm) -> - (qz 2 * (1 + u) * D) <= t_qty t) /\
    qabs (bought d (tm_trans tm) - sold d (tm_trans tm)) <= (qnat (2 * n + 2) * (1 + u)) * D + u * W.
  Proof.
    intros Hrel E. cbv zeta. destruct (uniform_r_sides tm ex E) as (c & p & s & Sh & Y & y & -> & Pr & C0 & H).
    pose proof (c_near u Hrel _ _ _ _ _ _ _ H) as Le. pose proof (D_nonneg u Hrel) as D0. set (D := qnat n * (u * (1 + u) ^ n) * W) in *.
    assert (D2 : 0 <= D + D) by qlra. pose proof (proj1 Hrel) as U. destruct (rnd_near_pos R u Hrel (D + D) D2) as [R1 _].
    assert (UD : 0 <= u * D) by (apply qmult_nonneg; assumption).
    assert (Rb : R (D + D) <= qz 2 * (1 + u) * D).
    { replace (qz 2 * (1 + u) * D) with (D + D + u * (D + D)) by (replace (qz 2) with (1 + 1) by (apply Qc_is_canon; reflexivity); ring). exact R1. }
    split.
    - intros t I. pose proof (sides_lower _ _ _ _ _ _ _ H (D + D) D2 Le t I) as K. rewrite rnd_opp in K. qlra.
    - pose proof (sides_balance u Hrel _ _ _ _ _ _ _ H (D + D) D2 Le) as K. fold D in K.
      assert (Pn : 0 <= qnat n) by (apply qnat_ge0).
      pose proof (qmult_le_l _ _ _ Pn Rb) as M.
      assert (En : qnat (2 * n + 2) = qz 2 * qnat n + qz 2).
      { unfold qnat. replace (Z.of_nat (2 * n + 2)) with (2 * Z.of_nat n + 2)%Z by lia. rewrite qz_plus, qz_mult. reflexivity. }
      rewrite En. replace ((qz 2 * qnat n + qz 2) * (1 + u) * D) with (qnat n * (qz 2 * (1 + u) * D) + (D + D + u * D + u * D)) by (replace (qz 2) with (1 + 1) by (apply Qc_is_canon; reflexivity); ring).
      qlra.
  Qed.
  Theorem uniform_r_runs : uniform_price_mechanism_r R A S d = Err TypeError /\ (forall x, ~ Crossing (fst (demand_curve_r R S d)) (fst (supply_curve_r R S d)) x) \/
    exists tm c p, uniform_price_mechanism_r R A S d = Ok (tm, XUniform (Fin c) (Fin p)) /\ Crossing (fst (demand_curve_r R S d)) (fst (supply_curve_r R S d)) (Fin c).
  Proof.
    pose proof (uniform_r_cases R A S d Hq Hp) as U. inversion U as [Nc E|c p B1 rb B2 L1 rs L2 tm EB EL Lp Ir Cr C0 Pr B3 B4 L3 L4 Mn T E]; [left; auto|]. right. exists tm, c, p. auto.
  Qed.
End Top.
