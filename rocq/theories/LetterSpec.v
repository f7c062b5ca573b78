(** What it means to write a document in other letters (C101): independent of box construction, layout and painting. *)
From Verif Require Import Base Len StyleModel DomModel GfxModel CStrModel.
Local Open Scope list_scope.

(** The characters that are not letters to the layout: tab, newline, form feed, carriage return, space, hyphen. *)
Definition special (c : char) : Prop := In c [9; 10; 12; 13; 32; 45]%N.
(** [f] writes one character for another, but keeps those. *)
Definition keeps_special (f : char -> char) : Prop := forall c, (special c -> f c = c) /\ (~ special c -> ~ special (f c)).
(** The document with every text written in other letters. *)
Definition reletter_data (f : char -> char) (x : node_data) : node_data := match x with DomModel.DText t => DomModel.DText (map f t) | _ => x end.
Definition reletter (f : char -> char) (d : doc) : doc :=
  Doc (map (fun n => Node (n_parent n) (n_next n) (n_prev n) (n_first n) (n_last n) (reletter_data f (n_data n))) (nodes d)) (style_elements d).

Section Any.
Context {ar : Arith}.
(** Written in other letters every text is as wide as it was. *)
Definition as_wide (f : char -> char) (width_of : style -> text -> Len) : Prop := forall st t, width_of st (map f t) = width_of st t.
(** The same drawing call, texts written in other letters. *)
Inductive relettered (f : char -> char) : dcall -> dcall -> Prop :=
| LtText t x y fo c : relettered f (GfxModel.DText (label_of t) x y fo c) (GfxModel.DText (label_of (map f t)) x y fo c)
| LtRect x y w h c : relettered f (DRect x y w h c) (DRect x y w h c)
| LtLine ps c w s : relettered f (DLine ps c w s) (DLine ps c w s)
| LtBBox x y w h : relettered f (DBBox x y w h) (DBBox x y w h).
End Any.
