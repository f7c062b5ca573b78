(** Documents in which absolutely positioned elements have been made empty and invisible, and what stays of a drawing then
    (C111), and documents that differ in floats (C112): independent of box construction, layout and painting. *)
From Verif Require Import Base Len StyleModel GfxModel TreeModel.
Local Open Scope list_scope.
Section Any.
Context {ar : Arith}.

(** An element with a transparent background and without borders *)
Definition invisible (s : style) : Prop :=
  N_of_ascii (c_alpha (to_rgba s (sv s Lbackground_color))) = 0%N /\
  sv s Lborder_top_style = LSNone /\ sv s Lborder_right_style = LSNone /\
  sv s Lborder_bottom_style = LSNone /\ sv s Lborder_left_style = LSNone.

(** The same nodes with the same styles, except that any absolutely positioned element may, in the second, be empty and
    invisible; its other properties - sizes, offsets, margins - may differ as well. *)
Inductive hollowed : snode -> snode -> Prop :=
| Ho_text t : hollowed (SText t) (SText t)
| Ho_other : hollowed SOther SOther
| Ho_element br st l l' : Forall2 hollowed l l' -> hollowed (SElem br st l) (SElem br st l')
| Ho_absolute st st' i i' l :
    sv st Ldisplay = DispBox OBlock i -> sv st Lposition = PosAbsolute ->
    sv st' Ldisplay = DispBox OBlock i' -> sv st' Lposition = PosAbsolute -> invisible st' ->
    hollowed (SElem false st l) (SElem false st' []).

(** The same nodes with the same styles, except in floats: their styles and what is in them may be anything, as long as they
    are floats. *)
Inductive other_floats : snode -> snode -> Prop :=
| Fl_text t : other_floats (SText t) (SText t)
| Fl_other : other_floats SOther SOther
| Fl_element br st l l' : Forall2 other_floats l l' -> other_floats (SElem br st l) (SElem br st l')
| Fl_float st st' i i' l l' :
    sv st Ldisplay = DispBox OBlock i -> sv st Lposition <> PosAbsolute -> sv st Lfloat <> FloatNone ->
    sv st' Ldisplay = DispBox OBlock i' -> sv st' Lposition <> PosAbsolute -> sv st' Lfloat <> FloatNone ->
    other_floats (SElem false st l) (SElem false st' l').

(** What can be seen of a drawing: everything but the boxes reported for measuring *)
Definition seen (c : dcall) : bool := match c with DBBox _ _ _ _ => false | _ => true end.
(** [part_of a b]: b is a with further calls before, between and after those of a *)
Inductive part_of {A} : list A -> list A -> Prop :=
| Pt_nil : part_of [] []
| Pt_more x a b : part_of a b -> part_of a (x :: b)
| Pt_same x a b : part_of a b -> part_of (x :: a) (x :: b).
End Any.
