(** What the offsets top, right, bottom and left of boxes may do to a page (C32): independent of layout and of
    painting. *)
From Verif Require Import Base Len GeomModel StyleModel GfxModel InlineModel.
Local Open Scope len_scope.
Local Open Scope list_scope.

(** position and the four offset properties. *)
Definition is_offset (l : longhand) : bool := match l with Lposition | Ltop | Lright | Lbottom | Lleft => true | _ => false end.
Definition a_length (v : lpa Len) : Prop := match v with LPAPct _ => False | _ => True end.
(** The offsets of a style are lengths or `auto`. *)
Definition length_offsets (s : style) : Prop :=
  a_length (sv s Ltop) /\ a_length (sv s Lright) /\ a_length (sv s Lbottom) /\ a_length (sv s Lleft).
(** Two styles with the same values of all properties but position and the offsets.  Where a box is relatively positioned
    its offsets are lengths or `auto`; those of an absolutely positioned box are the same.  In a document without
    absolutely positioned boxes ([free]) position may change from static to relative and back; in any other it stays, as it
    decides which box an absolutely positioned one is placed in. *)
Definition reoffset (free : bool) (s s' : style) : Prop :=
  (forall l, is_offset l = false -> sv s' l = sv s l) /\ s_specified_display s' = s_specified_display s /\
  match sv s Lposition, sv s' Lposition with
  | PosStatic, PosStatic => True
  | PosRelative, PosRelative => length_offsets s /\ length_offsets s'
  | PosAbsolute, PosAbsolute => free = false /\ forall l, sv s' l = sv s l
  | PosStatic, PosRelative => free = true /\ length_offsets s'
  | PosRelative, PosStatic => free = true /\ length_offsets s
  | _, _ => False
  end.
(** The styles of a document with other offsets; the style of an element is computed from that of its parent. *)
Definition restyled_by {I} (R : style -> style -> Prop) (style_of style_of' : I -> option style -> style) : Prop :=
  forall i, R (style_of i None) (style_of' i None) /\ forall p p', R p p' -> R (style_of i (Some p)) (style_of' i (Some p')).
(** Fonts and measured texts do not depend on position and offsets. *)
Definition offsetless {A} (f : style -> A) : Prop := forall free s s', reoffset free s s' -> f s' = f s.

(** CSS 2.2, 9.4.3: a relatively positioned box moves right by `left`, else left by `right`; down by `top`, else up by
    `bottom`.  Other boxes do not move. *)
Definition moves (near far : lpa Len) : Len :=
  match near, far with LPALen n, _ => n | _, LPALen f => - f | _, _ => l0 end.
Definition offset_of (s : style) : vec2 Len :=
  match sv s Lposition with
  | PosRelative => Vec2 (moves (sv s Lleft) (sv s Lright)) (moves (sv s Ltop) (sv s Lbottom))
  | _ => vec2_zero
  end.
(** How far a box with style [s] is moved when it gets the style [s']. *)
Definition displacement (s s' : style) : vec2 Len :=
  Vec2 (v_inline (offset_of s') - v_inline (offset_of s)) (v_block (offset_of s') - v_block (offset_of s)).
(** The corner [a] is moved to [b]: by the displacement, or ([split]: on later lines of a box that is split into lines)
    by its vertical part only. *)
Definition moved_corner (split : bool) (s s' : style) (a b : vec2 Len) : Prop :=
  b = vec2_add a (displacement s s') \/ split = true /\ b = vec2_add a (Vec2 l0 (v_block (displacement s s'))).

(** The same fragments in the same order, with the same sizes, paddings, borders, margins and texts.  Corners are relative
    to the parent's: every box is at the displaced corner, and lines, texts and groups of absolutely positioned boxes
    exactly where they were.  [split]: in a line. *)
Section Displaced.
Variable R : style -> style -> Prop.
Inductive displaced : bool -> fragment -> fragment -> Prop :=
| DisBox split st st' ch ch' r r' p b m cm : R st st' -> r_size r' = r_size r ->
    moved_corner split st st' (r_start r) (r_start r') ->
    Forall2 (displaced split) ch ch' -> displaced split (FBox st ch r p b m cm) (FBox st' ch' r' p b m cm)
| DisAnon split split' r ch ch' : Forall2 (displaced split') ch ch' -> displaced split (FAnon r ch) (FAnon r ch')
| DisText split st st' r fo fo' sg : R st st' -> R fo fo' -> displaced split (FText st r fo sg) (FText st' r fo' sg).
End Displaced.

(** A drawing call made at another place: [d] to the right and below. *)
Inductive moved_call (d : Len * Len) : dcall -> dcall -> Prop :=
| MvText l x y f c : moved_call d (DText l x y f c) (DText l (x + fst d) (y + snd d) f c)
| MvRect x y w h c : moved_call d (DRect x y w h c) (DRect (x + fst d) (y + snd d) w h c)
| MvLine x y u v c w s : moved_call d (DLine [(x, y); (u, v)] c w s) (DLine [(x + fst d, y + snd d); (u + fst d, v + snd d)] c w s)
| MvBBox x y w h : moved_call d (DBBox x y w h) (DBBox (x + fst d) (y + snd d) w h).
