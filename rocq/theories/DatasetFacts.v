(** Facts about the generator of random bids. *)
From Coq Require Import QArith.Qround.
From Verif Require Import QcTac Num ModelBase ModelHuang ModelDatasets ListFacts UpdateFacts AllocFacts.

Lemma qnat_le a b : (a <= b)%nat -> qnat a <= qnat b.
Proof. intro H. unfold qnat, Qcle. rewrite !this_qz. rewrite <- Zle_Qle. lia. Qed.
Lemma qnat_inj a b : qnat a = qnat b -> a = b.
Proof. unfold qnat. intro H. apply (f_equal this) in H. assert (E : (this (qz (Z.of_nat a)) == this (qz (Z.of_nat b)))%Q) by (rewrite H; reflexivity).
  rewrite !this_qz in E. apply (proj1 (inject_Z_injective _ _)) in E. lia. Qed.

(** length of [np.arange(0, 1, eps)] *)
Lemma arange_len_ge eps n : 0 < eps -> qnat n <= 1 / eps -> (n <= arange_len eps)%nat.
Proof.
  intros He H. unfold arange_len. assert (Z.of_nat n <= Qceiling (this (1 / eps)%Qc))%Z; [|lia].
  rewrite <- (Qceiling_Z (Z.of_nat n)). apply Qceiling_resp_le. unfold qnat, Qcle in H. rewrite this_qz in H. exact H.
Qed.
Lemma arange_lt eps i : 0 < eps -> (i < arange_len eps)%nat -> arange_at eps i < 1.
Proof.
  intros He Hi. unfold arange_len in Hi. unfold arange_at.
  assert (L : qnat i < 1 / eps).
  { unfold Qclt, qnat. rewrite this_qz. set (x := this (1 / eps)%Qc) in *.
    destruct (Qlt_le_dec (inject_Z (Z.of_nat i)) x) as [|N]; [assumption|]. exfalso.
    apply Qceiling_resp_le in N. rewrite Qceiling_Z in N. lia. }
  assert (E : 1 / eps * eps = 1) by (field; intro Z; rewrite Z in He; revert He; apply Qcle_not_lt, Qcle_refl).
  rewrite <- E. apply Qcmult_lt_compat_r; assumption.
Qed.
Lemma arange_nonneg eps i : 0 < eps -> 0 <= arange_at eps i.
Proof. intro H. apply qmult_nonneg; [change 0 with (qnat 0); apply qnat_le; lia | apply Qclt_le_weak, H]. Qed.
Lemma arange_inj eps i j : 0 < eps -> arange_at eps i = arange_at eps j -> i = j.
Proof.
  intros He E. apply qnat_inj. unfold arange_at in E.
  assert (N : eps <> 0) by (intro Z; rewrite Z in He; revert He; apply Qcle_not_lt, Qcle_refl).
  assert (X : (qnat i * eps) * / eps = (qnat j * eps) * / eps) by (rewrite E; reflexivity).
  rewrite <- !Qcmult_assoc, Qcmult_inv_r, !Qcmult_1_r in X by exact N. exact X.
Qed.

Section Side.
  Variables (r : chooser) (eps : Qc) (k : nat) (o : Qc) (q : nat) (buys : bool) (u0 : Z).
  Hypothesis He : 0 < eps.
  Hypothesis Hq : (q <= arange_len eps)%nat.
  Let n := arange_len eps.
  Definition side_bids : list bid :=
    map (fun jqv => mkBid (fst (snd jqv)) (snd (snd jqv)) (u0 + Z.of_nat (fst jqv))%Z buys 0 true)
      (combine (seq 0 q) (combine (map (arange_at eps) (ch r k n q)) (map (fun i => arange_at eps i + o) (ch r (S k) n q)))).
  Lemma gen_side_ok : gen_side r eps k o q buys u0 = Ok side_bids.
  Proof. unfold gen_side. fold n. destruct (Nat.leb_spec q n); [reflexivity | unfold n in *; lia]. Qed.
  Lemma fst_combine {A B} (la : list A) : forall lb : list B, length la = length lb -> map fst (combine la lb) = la.
  Proof. induction la as [|a la IH]; intros [|b lb] H; simpl in *; try discriminate; [reflexivity|]. f_equal. apply IH. lia. Qed.
  Lemma snd_combine {A B} (la : list A) : forall lb : list B, length la = length lb -> map snd (combine la lb) = lb.
  Proof. induction la as [|a la IH]; intros [|b lb] H; simpl in *; try discriminate; [reflexivity|]. f_equal. apply IH. lia. Qed.
  Let len1 : length (map (arange_at eps) (ch r k n q)) = q. Proof. rewrite map_length. apply ch_len, Hq. Qed.
  Let len2 : length (map (fun i => arange_at eps i + o) (ch r (S k) n q)) = q. Proof. rewrite map_length. apply ch_len, Hq. Qed.
  Let len3 : length (combine (map (arange_at eps) (ch r k n q)) (map (fun i => arange_at eps i + o) (ch r (S k) n q))) = q.
  Proof. rewrite combine_length, len1, len2. lia. Qed.
  Lemma side_users : map b_user side_bids = map (fun j => (u0 + Z.of_nat j)%Z) (seq 0 q).
  Proof.
    unfold side_bids. rewrite map_map. cbn [b_user].
    rewrite <- (map_map fst (fun j => (u0 + Z.of_nat j)%Z)), fst_combine by (rewrite seq_length, len3; reflexivity). reflexivity.
  Qed.
  Lemma side_qty : map b_qty side_bids = map (arange_at eps) (ch r k n q).
  Proof.
    unfold side_bids. rewrite map_map. cbn [b_qty].
    rewrite <- (map_map snd fst), snd_combine by (rewrite seq_length, len3; reflexivity). apply fst_combine. rewrite len1, len2. reflexivity.
  Qed.
  Lemma side_price : map b_price side_bids = map (fun i => arange_at eps i + o) (ch r (S k) n q).
  Proof.
    unfold side_bids. rewrite map_map. cbn [b_price].
    rewrite <- (map_map snd snd), snd_combine by (rewrite seq_length, len3; reflexivity). apply snd_combine. rewrite len1, len2. reflexivity.
  Qed.
  Lemma side_length : length side_bids = q.
  Proof. rewrite <- (map_length b_qty), side_qty, map_length. apply ch_len, Hq. Qed.
  Lemma side_fields b : In b side_bids -> b_buying b = buys /\ b_time b = 0 /\ b_div b = true /\
    0 <= b_qty b /\ b_qty b < 1 /\ o <= b_price b /\ b_price b < o + 1.
  Proof.
    intro H. assert (Iq : In (b_qty b) (map b_qty side_bids)) by (apply in_map, H). assert (Ip : In (b_price b) (map b_price side_bids)) by (apply in_map, H).
    rewrite side_qty in Iq. rewrite side_price in Ip. apply in_map_iff in Iq, Ip, H. destruct H as (x & <- & _). cbn [b_buying b_time b_div b_qty b_price] in *.
    destruct Iq as (i & <- & Hi). destruct Ip as (j & <- & Hj). apply ch_range in Hi; [|exact Hq]. apply ch_range in Hj; [|exact Hq].
    pose proof (arange_lt eps i He Hi). pose proof (arange_lt eps j He Hj). pose proof (arange_nonneg eps i He). pose proof (arange_nonneg eps j He).
    repeat split; try assumption; qlra.
  Qed.
  Lemma NoDup_map_inj {A B} (f : A -> B) l : (forall x y, f x = f y -> x = y) -> NoDup l -> NoDup (map f l).
  Proof.
    intros I. induction 1 as [|a l N _ IH]; simpl; constructor; [|exact IH]. intro H. apply in_map_iff in H. destruct H as (x & E & Hx).
    apply I in E. subst. contradiction.
  Qed.
  Lemma side_distinct : NoDup (map b_price side_bids) /\ NoDup (map b_qty side_bids).
  Proof.
    rewrite side_price, side_qty. split; apply NoDup_map_inj; try (apply ch_nodup, Hq).
    - intros x y E. apply (arange_inj eps); [exact He|]. qlra.
    - intros x y E. apply (arange_inj eps); [exact He | exact E].
  Qed.
End Side.

(** the precision used *)
Definition eps_used (mx : nat) (eps : Qc) : Qc := if qltb (1 / eps) (qnat mx) then 1 / qnat mx / qz 2 else eps.
Lemma eps_ok mx eps : 0 < eps -> 0 < eps_used mx eps /\ (mx <= arange_len (eps_used mx eps))%nat.
Proof.
  intro He. unfold eps_used. destruct (qlt_spec (1 / eps) (qnat mx)) as [L|L].
  - assert (P : 0 < qnat mx).
    { eapply Qclt_trans; [|exact L]. unfold Qcdiv. rewrite Qcmult_1_l. apply qinv_pos, He. }
    pose proof (qinv_pos _ P) as Pi. assert (Q : 0 < 1 / qnat mx / qz 2).
    { unfold Qcdiv. rewrite Qcmult_1_l. apply qmult_pos; [exact Pi | reflexivity]. }
    split; [exact Q|]. apply arange_len_ge; [exact Q|].
    assert (N : qnat mx <> 0) by (intro Z; rewrite Z in P; revert P; apply Qcle_not_lt, Qcle_refl).
    assert (E : 1 / (1 / qnat mx / qz 2) = qnat mx * qz 2).
    { field. repeat split; try exact N; try (intro Z; apply (f_equal this) in Z; vm_compute in Z; discriminate). }
    rewrite E. assert (qnat mx * qz 2 = qnat mx + qnat mx) by (replace (qz 2) with (1 + 1) by (apply Qc_is_canon; reflexivity); ring). qlra.
  - split; [exact He | apply arange_len_ge; assumption].
Qed.

Theorem generate_ok nb ns os ob r eps : 0 < eps -> exists bs ss, generate nb ns os ob r eps = Ok (bs ++ ss) /\
  length bs = nb /\ length ss = ns /\ map b_user (bs ++ ss) = map Z.of_nat (seq 0 (nb + ns)) /\
  (forall b, In b bs -> b_buying b = true /\ ob <= b_price b /\ b_price b < ob + 1) /\
  (forall b, In b ss -> b_buying b = false /\ os <= b_price b /\ b_price b < os + 1) /\
  (forall b, In b (bs ++ ss) -> 0 <= b_qty b /\ b_qty b < 1 /\ b_time b = 0 /\ b_div b = true) /\
  NoDup (map b_price bs) /\ NoDup (map b_price ss) /\ NoDup (map b_qty bs) /\ NoDup (map b_qty ss).
Proof.
  intro He. set (mx := Nat.max nb ns). destruct (eps_ok mx eps He) as [Hu Hm]. set (e := eps_used mx eps) in *.
  assert (Hb : (nb <= arange_len e)%nat) by (unfold mx in Hm; lia). assert (Hs : (ns <= arange_len e)%nat) by (unfold mx in Hm; lia).
  exists (side_bids r e 0 ob nb true 0), (side_bids r e 2 os ns false (Z.of_nat nb)).
  assert (E : generate nb ns os ob r eps = Ok (side_bids r e 0 ob nb true 0 ++ side_bids r e 2 os ns false (Z.of_nat nb))).
  { unfold generate. fold mx. assert (qeqb eps 0 = false) as -> by (apply qeqb_neq; intro Z; rewrite Z in He; revert He; apply Qcle_not_lt, Qcle_refl).
    assert (E : (if qltb (1 / eps) (qnat mx) then (if Nat.eqb mx 0 then Err ZeroDivisionError else Ok (1 / qnat mx / qz 2)) else Ok eps) = Ok e).
    { unfold e, eps_used. destruct (qlt_spec (1 / eps) (qnat mx)) as [L|]; [|reflexivity]. destruct (Nat.eqb_spec mx 0) as [Z|]; [|reflexivity].
      exfalso. rewrite Z in L. assert (0 < 1 / eps) by (unfold Qcdiv; rewrite Qcmult_1_l; apply qinv_pos, He). change (qnat 0) with (0 : Qc) in L. qlra. }
    rewrite E. cbn [bind]. rewrite (gen_side_ok r e 0 ob nb true 0 Hb). cbn [bind]. rewrite (gen_side_ok r e 2 os ns false (Z.of_nat nb) Hs). reflexivity. }
  split; [exact E|]. split; [apply side_length; assumption|]. split; [apply side_length; assumption|].
  split.
  { rewrite map_app, !side_users by assumption. rewrite seq_app, map_app. f_equal.
    cbn [Nat.add]. replace (seq nb ns) with (map (fun j => (nb + j)%nat) (seq 0 ns)) by (clear; revert nb; induction ns as [|m IH]; intro nb; [reflexivity|]; simpl; rewrite Nat.add_0_r; f_equal; rewrite <- seq_shift, map_map, <- (IH (S nb)); apply map_ext; intro; lia).
      rewrite map_map. apply map_ext. intro; lia. }
  split; [intros b H; apply side_fields in H; try assumption; tauto|]. split; [intros b H; apply side_fields in H; try assumption; tauto|].
  split; [intros b H; apply in_app_iff in H; destruct H as [H|H]; apply side_fields in H; try assumption; tauto|].
  repeat split; apply side_distinct; assumption.
Qed.
