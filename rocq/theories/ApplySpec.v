(** To which elements a property applies, and when two trees of styled nodes differ only in values of properties that do
    not apply (C109): independent of box construction, layout and painting. *)
From Verif Require Import Base Len StyleModel TreeModel.
Local Open Scope list_scope.
Section Any.
Context {ar : Arith}.

(** The box of an element, as its `display` says. *)
Inductive box_kind := Block | Inline | NoBox.
Definition box_of (st : style) : box_kind :=
  match sv st Ldisplay with DispBox OBlock _ => Block | DispBox OInline _ => Inline | DispNone | DispContents => NoBox end.
(** Relative or absolute position. *)
Definition positioned (st : style) : bool := match sv st Lposition with PosStatic => false | _ => true end.
(** Offsets apply to boxes that are positioned; sizes and text alignment to blocks; vertical alignment to inline boxes;
    margins, paddings, borders and backgrounds to all boxes; the other properties to everything. *)
Definition applies (k : box_kind) (pos : bool) (l : longhand) : bool :=
  match l with
  | Ltop | Lright | Lbottom | Lleft => pos && match k with NoBox => false | _ => true end
  | Lwidth | Lheight | Ltext_align => match k with Block => true | _ => false end
  | Lvertical_align => match k with Inline => true | _ => false end
  | Lmargin_top | Lmargin_right | Lmargin_bottom | Lmargin_left
  | Lpadding_top | Lpadding_right | Lpadding_bottom | Lpadding_left
  | Lborder_top_color | Lborder_right_color | Lborder_bottom_color | Lborder_left_color
  | Lborder_top_style | Lborder_right_style | Lborder_bottom_style | Lborder_left_style
  | Lborder_top_width | Lborder_right_width | Lborder_bottom_width | Lborder_left_width
  | Lbackground_color => match k with NoBox => false | _ => true end
  | _ => true
  end.
(** The same values of all properties that apply to such a box, and the same `display` before it is adapted to the position. *)
Definition agree (k : box_kind) (s s' : style) : Prop :=
  (forall l, applies k (positioned s) l = true -> sv s' l = sv s l) /\ s_specified_display s' = s_specified_display s.
(** The same nodes with styles that agree in what applies.  A line break has no box. *)
Inductive alike : snode -> snode -> Prop :=
| Al_text t : alike (SText t) (SText t)
| Al_other : alike SOther SOther
| Al_break st st' l l' : agree NoBox st st' -> alike (SElem true st l) (SElem true st' l')
| Al_element st st' l l' : agree (box_of st) st st' -> Forall2 alike l l' -> alike (SElem false st l) (SElem false st' l').
End Any.
