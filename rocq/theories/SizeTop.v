(** How many transactions a run makes. *)
From Verif Require Import QcTac Num ModelBase ModelCurves ModelHuang ModelMuda ModelP2P ModelMarket ModelRound ListFacts Spec SpecTrade SpecP2P SpecRound Sorter MudaTop
  P2PFacts P2PSchedule HuangMarketFacts FairRuns MarketTop ModelFloat RoundFacts RoundTop RoundP2P SizeP2P.

Lemma once_length d tl : refer d tl -> once tl -> (length tl <= length d)%nat.
Proof.
  intros R O. rewrite <- (map_length t_bid tl), <- (map_length lbl d). apply NoDup_incl_length; [exact O|].
  intros i Hi. apply in_map_iff in Hi. destruct Hi as (t & <- & Ht). destruct (R t Ht) as (r & Hr & E). rewrite <- E. apply in_map, Hr.
Qed.
Theorem p2p_size R (A : adder R) d c r : map lbl d = seq 0 (length d) -> qty_nonneg d -> machine_qty R d ->
  forall tm ex, p2p_random_r R A d c r = Ok (tm, ex) -> (length (filter (fun t => qltb 0 (t_qty t)) (tm_trans tm)) <= 2 * (length d - 1))%nat.
Proof.
  intros Hl Hq Hm tm ex E. destruct (p2p_rounded R A d c r Hl Hq Hm) as (tm' & gtl & E' & D & _). rewrite E in E'. injection E' as <- _.
  apply (trades_bound R d c (labels_ok d Hl) Hq Hm _ _ D).
Qed.
Theorem p2p_rounds d c r : map lbl d = seq 0 (length d) -> qty_nonneg d -> forall tm gtl, p2p_random d c r = Ok (tm, XP2P gtl) ->
  (length gtl <= length (buyers d) + length (sellers d) - 1)%nat /\ length (tm_trans tm) = (2 * length (concat gtl))%nat /\
  (length (concat gtl) <= length (buyers d) * length (sellers d))%nat /\
  (forall T, In T gtl -> (length T <= length (buyers d) /\ length T <= length (sellers d))%nat).
Proof.
  intros Hl Hq tm gtl E. destruct (p2p_is_schedule d c Hl Hq r tm _ E) as (g & [= <-] & HS & _).
  split; [apply (rounds_bound d c Hl Hq _ _ HS)|]. destruct (meetings_bound d c Hl _ _ HS) as [M1 M2]. split; [exact M1|]. split; [exact M2|].
  intros T HT. apply (schedule_iff d c Hl) in HS. destruct HS as [HL _]. apply in_split in HT. destruct HT as (g1 & g2 & Eg).
  destruct (HL g1 T g2 Eg) as (_ & _ & Rd). pose proof (rd_disjoint _ _ _ _ Rd) as N.
  assert (Nf : NoDup (map fst T) /\ NoDup (map snd T)).
  { clear - N. induction T as [|p T IH]; [split; constructor|]. cbn [flat_map app map] in *. inversion N as [|? ? N1 N2]; subst. inversion N2 as [|? ? N3 N4]; subst. destruct (IH N4) as [F1 F2].
    split; (constructor; [|assumption]); intro K; apply in_map_iff in K; destruct K as (q & Eq & Hq'); [apply N1; right | apply N3]; apply in_flat_map; exists q; (split; [exact Hq'|]); cbn [In]; auto. }
  destruct Nf as [Nf Ns]. assert (Al : forall p, In p T -> In (fst p) (map lbl (buyers d)) /\ In (snd p) (map lbl (sellers d))).
  { intros p Hp. apply (rd_allowed _ _ _ _ Rd) in Hp. destruct Hp as (x & y & Hx & Hy & Bx & By & -> & _). cbn [fst snd]; split; apply in_map, filter_In; [auto | rewrite By; auto]. }
  split; [rewrite <- (map_length fst T), <- (map_length lbl (buyers d)) | rewrite <- (map_length snd T), <- (map_length lbl (sellers d))];
    (apply NoDup_incl_length; [assumption|]); intros i Hi; apply in_map_iff in Hi; destruct Hi as (p & <- & Hp); apply Al, Hp.
Qed.
Theorem market_size S m a tm ex : let d := get_df (mk_bm m) in qty_nonneg d -> snd (market_run S m a) = Ok (tm, ex) ->
  match a with
  | AHuang _ _ | AMuda _ => (length (tm_trans tm) <= length d)%nat
  | AP2P _ _ => (length (tm_trans tm) <= 2 * (length (buyers d) * length (sellers d)) /\ length (filter (fun t => qltb 0 (t_qty t)) (tm_trans tm)) <= 2 * (length d - 1))%nat
  | AUnknown => False
  end.
Proof.
  intros d Hq E. pose proof (get_df_lbl (mk_bm m)) as Hl. fold d in Hl. destruct a as [smp cnt|fl|c r|].
  - destruct (market_huang_sound S m smp cnt tm ex Hq E) as (_ & O & Rf & _). apply (once_length d); assumption.
  - rewrite market_run_snd in E. cbn [run_algo mechanism] in E. apply mech0_inv in E. destruct E as [[-> _]|E]; [cbn; lia|].
    destruct (top_safe S d fl tm ex Hq (labels_ok d Hl) E) as (Rf & O & _). apply (once_length d); assumption.
  - rewrite market_run_snd in E. cbn [run_algo mechanism] in E. apply mech0_inv in E. destruct E as [[-> _]|E]; [cbn; lia|].
    destruct (p2p_is_schedule d c Hl Hq r tm _ E) as (g & -> & _). destruct (p2p_rounds d c r Hl Hq tm g E) as (_ & L1 & L2 & _). split; [lia|].
    assert (E2 : p2p_random_r exact (np_adder exact) d c r = Ok (tm, XP2P g)) by (rewrite p2p_exact; exact E). apply (p2p_size exact _ d c r Hl Hq (fun x _ => eq_refl) tm _ E2).
  - rewrite market_run_snd in E. discriminate.
Qed.
