(** What it means that only vertical properties change, and what is seen of a drawing across the page (C103): independent of
    layout and of painting. *)
From Verif Require Import Base Len StyleModel StyleSpec GfxModel ExceptSpec.
Local Open Scope list_scope.
Section Any.
Context {ar : Arith}.

(** The vertical properties *)
Definition is_vertical (l : longhand) : bool :=
  match l with
  | Ltop | Lbottom | Lheight | Lmargin_top | Lmargin_bottom | Lpadding_top | Lpadding_bottom
  | Lborder_top_color | Lborder_bottom_color | Lborder_top_style | Lborder_bottom_style | Lborder_top_width | Lborder_bottom_width
  | Lline_height | Lvertical_align => true
  | _ => false
  end.

(** What a call draws across the page: a text from where in which font and colour, a background or a box from where and how
    wide.  The lines of borders are left out. *)
Inductive across :=
| AText (label : string) (x : Len) (f : font) (color : rgba)
| AFill (x width : Len) (fill : rgba)
| ABox (x width : Len).
Definition across_of (c : dcall) : list across :=
  match c with
  | GfxModel.DText t x _ f col => [AText t x f col]
  | DRect x _ w _ col => [AFill x w col]
  | DBBox x _ w _ => [ABox x w]
  | DLine _ _ _ _ => []
  end.

(** An element that is not absolutely positioned by its distance from the right edge only *)
Definition not_from_right (st : style) : Prop :=
  is_absolutely_positioned (sv st Lposition) = true -> sv st Lleft = LPAAuto -> sv st Lright = LPAAuto.
(** A font, or what is measured with it, is looked up from the size, the slant, the weight and the family only. *)
Definition by_font {A} (f : style -> A) : Prop := forall s s',
  sv s' Lfont_size = sv s Lfont_size -> sv s' Lfont_style = sv s Lfont_style -> sv s' Lfont_weight = sv s Lfont_weight ->
  sv s' Lfont_family = sv s Lfont_family -> f s' = f s.
End Any.
