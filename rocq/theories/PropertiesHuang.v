(** Properties C08 - C13: the Huang auction on a table of bids. *)
From Verif Require Import QcTac Num ModelBase ModelCurves ModelHuang Spec SpecTrade Sorter Conform
  UpdateFacts TradeFacts HuangFacts.

(** C08. Total bought = total sold; when there are transactions this is also
    extra["quantity_traded"]. *)
Theorem C08_huang_conserves :
  forall (S : sorter) (d : df) tm ex, qty_nonneg d -> price_nonneg d -> labels_unique d ->
    huang_auction S d = Ok (tm, ex) ->
    bought d (tm_trans tm) = sold d (tm_trans tm) /\
    (tm_trans tm <> [] -> exists ps pb q, ex = XHuang ps pb q /\ q = bought d (tm_trans tm)).
Proof.
  exact (fun S d tm ex Hq Hp Hu E =>
    let H := huang_summary S d Hq Hp Hu tm ex E in
    conj (proj1 H) (proj1 (proj2 (proj2 (proj2 (proj2 (proj2 (proj2 H)))))))).
Qed.
Print Assumptions C08_huang_conserves.
Example C08_example :
  let d := frame [B (qz 1) (qz 3) 0; B (qz 2) (qz 2) 1; A (qz 2) (qz 1) 2; A (qz 2) (qf 3 2) 3] in
  match huang_auction stable_sorter d with
  | Ok (tm, XHuang _ _ q) => map this [bought d (tm_trans tm); sold d (tm_trans tm); q] = [1; 1; 1]%Q
  | _ => False
  end.
Proof. vm_compute. reflexivity. Qed.

(** The reported "quantity_traded" need not be what was traded: here nothing trades and 1/5 is reported. *)
Theorem C08_quantity_reported_refuted :
  exists (S : sorter) (d : df) tm ps pb q, qty_pos d /\ price_nonneg d /\ labels_unique d /\
    huang_auction S d = Ok (tm, XHuang ps pb q) /\ tm_trans tm = [] /\ q <> 0.
Proof. exact huang_reported_witness. Qed.
Print Assumptions C08_quantity_reported_refuted.

(** C09. Every transaction refers to a bid, no bid appears twice, none is over-filled. *)
Theorem C09_huang_feasible :
  forall (S : sorter) (d : df) tm ex, qty_nonneg d -> price_nonneg d -> labels_unique d ->
    huang_auction S d = Ok (tm, ex) ->
    refer d (tm_trans tm) /\ once (tm_trans tm) /\ feasible d (tm_trans tm).
Proof.
  exact (fun S d tm ex Hq Hp Hu E =>
    let H := huang_summary S d Hq Hp Hu tm ex E in
    conj (proj1 (proj2 (proj2 H))) (conj (proj1 (proj2 H)) (proj1 (proj2 (proj2 (proj2 H)))))).
Qed.
Print Assumptions C09_huang_feasible.
Example C09_example :
  let d := frame [B (qz 3) (qz 9) 0; B (qz 1) (qz 8) 1; B (qz 1) (qz 7) 2; A (qz 2) (qz 1) 3; A (qz 3) (qz 6) 4] in
  show (huang_auction stable_sorter d) = Some
  ([(3%nat, 2%Q, 6%Q, (-1)%Z, false); (0%nat, 2%Q, 7%Q, (-1)%Z, false); (1%nat, 0%Q, 7%Q, (-1)%Z, false)], SH 6 7 2).
Proof. vm_compute. reflexivity. Qed.

(** C10. One price per side, the buying price strictly above the selling price; nobody loses. *)
Theorem C10_huang_rational :
  forall (S : sorter) (d : df) tm ex, qty_nonneg d -> price_nonneg d -> labels_unique d ->
    huang_auction S d = Ok (tm, ex) ->
    rational d (tm_trans tm) /\
    (tm_trans tm = [] \/ exists ps pb q, ex = XHuang ps pb q) /\
    (forall ps pb q, ex = XHuang ps pb q -> ps < pb /\
       forall t r, In t (tm_trans tm) -> In r d -> lbl r = t_bid t -> t_price t = if buying r then pb else ps).
Proof. exact huang_rational. Qed.
Print Assumptions C10_huang_rational.
Example C10_example :
  let d := frame [B (qz 3) (qz 9) 0; B (qz 1) (qz 8) 1; A (qz 2) (qz 1) 3; A (qz 3) (qz 6) 4] in
  match huang_auction stable_sorter d with
  | Ok (tm, XHuang ps pb q) => map this [ps; pb; q] = [6; 8; 2]%Q /\ length (tm_trans tm) = 2%nat
  | _ => False
  end.
Proof. vm_compute. split; reflexivity. Qed.

(** C11. With distinct prices exactly the bids strictly better than the price setters trade. *)
Theorem C11_huang_traders :
  forall (S : sorter) (d : df) tm ps pb q, qty_nonneg d -> price_nonneg d -> labels_unique d ->
    prices_distinct d -> huang_auction S d = Ok (tm, XHuang ps pb q) ->
    (exists rb, In rb d /\ buying rb = true /\ price rb = pb /\ ~ In (lbl rb) (map t_bid (tm_trans tm))) /\
    (exists rs, In rs d /\ buying rs = false /\ price rs = ps /\ ~ In (lbl rs) (map t_bid (tm_trans tm))) /\
    let better_b := filter (fun r => buying r && qltb pb (price r)) d in
    let better_s := filter (fun r => negb (buying r) && qltb (price r) ps) d in
    (better_b = [] \/ better_s = [] -> tm_trans tm = []) /\
    (better_b <> [] -> better_s <> [] ->
       (forall r, In r d -> (In (lbl r) (map t_bid (tm_trans tm)) <-> In r better_b \/ In r better_s)) /\
       bought d (tm_trans tm) = qmin (demand_above d pb) (supply_below d ps)).
Proof. exact (fun S d tm ps pb q Hq Hp Hu => huang_traders S d Hq Hp Hu tm ps pb q). Qed.
Print Assumptions C11_huang_traders.
Example C11_example :
  let d := frame [B (qz 3) (qz 9) 0; B (qz 1) (qz 8) 1; A (qz 2) (qz 1) 3; A (qz 3) (qz 6) 4] in
  map lbl (filter (fun r => buying r && qltb (qz 8) (price r)) d) = [0%nat] /\
  map lbl (filter (fun r => negb (buying r) && qltb (price r) (qz 6)) d) = [2%nat].
Proof. vm_compute. split; reflexivity. Qed.

(** C12. Rationing by a common reduction. *)
Theorem C12_update_quantity :
  forall (q : list Qc) (gap : Qc), q <> [] -> 0 <= gap -> gap <= qsum q ->
  exists t, 0 <= t /\ update_quantity q gap = Ok (map (fun x => qmax 0 (x - t)) q) /\
    qsum (map (fun x => qmax 0 (x - t)) q) = qsum q - gap.
Proof. exact update_quantity_spec. Qed.
Print Assumptions C12_update_quantity.
Example C12_example : show_list (update_quantity [qz 4; qz 1; qz 3] (qz 4)) = Some [5 # 2; 0; 3 # 2]%Q.
Proof. vm_compute. reflexivity. Qed.

(** C13. The auction never raises. *)
Theorem C13_huang_total :
  forall (S : sorter) (d : df), qty_nonneg d -> price_nonneg d ->
  exists tm ex, huang_auction S d = Ok (tm, ex).
Proof. exact huang_total. Qed.
Print Assumptions C13_huang_total.
Example C13_example : qty_nonneg (frame [B 0 0 0; A 0 0 1]) /\ show (huang_auction stable_sorter (frame [B 0 0 0; A 0 0 1])) = Some ([], SE).
Proof.
  split; [|vm_compute; reflexivity].
  intros r [<-|[<-|[]]]; simpl; qlra.
Qed.
