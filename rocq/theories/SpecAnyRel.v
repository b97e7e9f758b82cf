(** When two runs of peer to peer trading on different kinds of numbers are the same up to relations between prices
    [SP], quantities [SQ] and prices of transactions [SX]. *)
From Verif Require Import QcTac ModelBase ModelAny.

Section Rel.
  Context {P Q X P' Q' X' : Type}.
  Variables (SP : P -> P' -> Prop) (SQ : Q -> Q' -> Prop) (SX : X -> X' -> Prop).

  (** related arguments give related results and the same answers *)
  Record same_ops (o : ops P Q X) (o' : ops P' Q' X') : Prop := {
    so_le : forall p p' q q', SP p p' -> SP q q' -> o_le o p q = o_le o' p' q';
    so_mix : forall p p' q q', SP p p' -> SP q q' -> SX (o_mix o p q) (o_mix o' p' q');
    so_free : SX (o_free o) (o_free o');
    so_none : SQ (o_none o) (o_none o');
    so_min : forall p p' q q', SQ p p' -> SQ q q' -> SQ (o_min o p q) (o_min o' p' q');
    so_sub : forall p p' q q', SQ p p' -> SQ q q' -> SQ (o_sub o p q) (o_sub o' p' q');
    so_pos : forall p p', SQ p p' -> o_pos o p = o_pos o' p';
    so_is0 : forall p p', SQ p p' -> o_is0 o p = o_is0 o' p';
    so_more : forall l l', Forall2 SQ l l' -> o_more o l = o_more o' l' }.
  Record same_row (x : arow P Q) (x' : arow P' Q') : Prop := {
    sr_lbl : a_lbl x = a_lbl x'; sr_qty : SQ (a_qty x) (a_qty x'); sr_price : SP (a_price x) (a_price x'); sr_buying : a_buying x = a_buying x' }.
  Record same_trans (t : atrans Q X) (t' : atrans Q' X') : Prop := {
    st_bid : x_bid t = x_bid t'; st_qty : SQ (x_qty t) (x_qty t'); st_price : SX (x_price t) (x_price t');
    st_source : x_source t = x_source t'; st_active : x_active t = x_active t' }.
  (** the same rounds and related transactions, or the same exception *)
  Definition same_result (a : res (list (atrans Q X) * list (list (nat * nat)))) (b : res (list (atrans Q' X') * list (list (nat * nat)))) : Prop :=
    match a, b with
    | Ok (T, g), Ok (T', g') => Forall2 same_trans T T' /\ g = g'
    | Err e, Err e' => e = e'
    | _, _ => False
    end.
End Rel.
