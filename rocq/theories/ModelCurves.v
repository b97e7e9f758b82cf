(** Model of pymarket/bids/demand_curves.py. *)
From Verif Require Import QcTac Num ModelBase.

(** A two column array. *)
Definition curve := list (num * num).

(** [df[['acum','price']].values] for a sorted frame *)
Definition curve_rows (d : df) : curve :=
  combine (map Fin (cumsum (map qty d))) (map (fun r => Fin (price r)) d).

(** demand_curves.py:6-76 [demand_curve_from_bids] *)
Definition demand_curve_from_bids (S : sorter) (d : df) : curve * list nat :=
  let b := s_desc S (buyers d) in
  (curve_rows b ++ [(PInf, Fin 0)], map lbl b).

(** demand_curves.py:79-150 [supply_curve_from_bids] *)
Definition supply_curve_from_bids (S : sorter) (d : df) : curve * list nat :=
  let s := s_asc S (sellers d) in
  (curve_rows s ++ [(PInf, PInf)], map lbl s).

(** demand_curves.py:194-196, the [for step in f] loop *)
Fixpoint step_search (x : num) (f : curve) : option num :=
  match f with
  | [] => None
  | (a, v) :: r => if nleb x a then Some v else step_search x r
  end.

(** demand_curves.py:153-196 [get_value_stepwise] *)
Definition get_value_stepwise (x : num) (f : curve) : option num :=
  if nltb x (Fin 0) then None else step_search x f.

(** [set(g[:,0]).union(set(f[:,0]))]: order is irrelevant, it is sorted next *)
Definition nmem (x : num) (l : list num) : bool := existsb (neqb x) l.
Fixpoint ndedup (l : list num) : list num :=
  match l with
  | [] => []
  | x :: r => if nmem x r then ndedup r else x :: ndedup r
  end.
(** [sorted(...)] on the (duplicate free) list *)
Fixpoint ninsert (x : num) (l : list num) : list num :=
  match l with
  | [] => [x]
  | y :: r => if nleb x y then x :: l else y :: ninsert x r
  end.
Definition nsort (l : list num) : list num := fold_right ninsert [] l.

(** [f.max(axis=0)[0]]; an empty array raises ValueError *)
Definition col_max (f : curve) : res num :=
  match map fst f with
  | [] => Err ValueError
  | x :: r => Ok (fold_left nmax r x)
  end.

(** a comparison [fext[i] > gext[i]]; [None > y] raises TypeError *)
Definition opt_gt (a b : option num) : res bool :=
  match a, b with Some x, Some y => Ok (nltb y x) | _, _ => Err TypeError end.
Definition opt_lt (a b : option num) : res bool := opt_gt b a.

(** demand_curves.py:278-280, the scan: [ (xs[i], fext[i], gext[i]) ] in order *)
Fixpoint scan (pts : list (num * option num * option num)) (x_ast : option num)
  : res (option num) :=
  match pts with
  | p :: ((q :: _) as r) =>
      let '(x, fx, gx) := p in
      let '(_, fx', gx') := q in
      c1 <- opt_gt fx gx ;;
      if c1 then
        c2 <- opt_lt fx' gx' ;;
        scan r (if c2 then Some x else x_ast)
      else scan r x_ast
  | _ => Ok x_ast
  end.

(** [x in f[:, 0]]; for [None] numpy answers False *)
Definition mem_col (x : option num) (f : curve) : bool :=
  match x with Some v => nmem v (map fst f) | None => false end.

(** [get_value_stepwise(xs[-1], g)]: IndexError when xs is empty *)
Definition value_at_last (xs : list num) (g : curve) : res (option num) :=
  match rev xs with
  | [] => Err IndexError
  | x :: _ => Ok (get_value_stepwise x g)
  end.

(** demand_curves.py:285-286: value of the piece, or at the last common point *)
Definition piece_value (ast : option nat) (xs : list num) (g : curve) : res (option num) :=
  match ast with
  | Some i => match nth_error g i with Some (_, v) => Ok (Some v) | None => Err IndexError end
  | None => value_at_last xs g
  end.

(** demand_curves.py:274, the list of abscissae considered *)
Definition common_xs (f g : curve) (x_max : num) : list num :=
  nsort (filter (fun x => nleb x x_max) (ndedup (map fst g ++ map fst f))).

(** demand_curves.py:199-294 [intersect_stepwise] *)
Definition intersect_stepwise (f g : curve) (k : Qc)
  : res (option num * option nat * option nat * num) :=
  fm <- col_max f ;;
  gm <- col_max g ;;
  let x_max := nmin fm gm in
  let xs := common_xs f g x_max in
  let pts := map (fun x => (x, get_value_stepwise x f, get_value_stepwise x g)) xs in
  x_ast <- scan pts None ;;
  let f_ast := option_map (fun x => argmax_bool (map (fun p => nleb x (fst p)) f)) x_ast in
  let g_ast := option_map (fun x => argmax_bool (map (fun p => nleb x (fst p)) g)) x_ast in
  g_val <- piece_value g_ast xs g ;;
  f_val <- piece_value f_ast xs f ;;
  match g_val, f_val with
  | Some gv, Some fv =>
      let both := mem_col x_ast f && mem_col x_ast g in
      let v :=
        match x_ast with
        | Some _ => if both then nadd (nmul gv (Fin k)) (nmul (Fin (1 - k)) fv)
                    else if mem_col x_ast f then gv else fv
        | None => nadd (nmul gv (Fin k)) (nmul (Fin (1 - k)) fv)
        end in
      Ok (x_ast, f_ast, g_ast, v)
  | _, _ => Err TypeError
  end.
