(** What it means for styles, style sheets and drawings to differ in colors only (C90): independent of the cascade, of
    layout and of painting. *)
From Verif Require Import Base Len StyleModel StyleSpec GfxModel.
Local Open Scope list_scope.
Section Any.
Context {ar : Arith}.

(** The properties that hold a color. *)
Definition is_color (l : longhand) : bool :=
  match l with
  | Lcolor | Lbackground_color | Lborder_top_color | Lborder_right_color | Lborder_bottom_color | Lborder_left_color => true
  | _ => false
  end.
(** Two styles with the same values of all other properties. *)
Definition recolored (s s' : style) : Prop :=
  (forall l, is_color l = false -> sv s' l = sv s l) /\ s_specified_display s' = s_specified_display s.
(** The styles of a document, recolored; the style of an element is computed from that of its parent. *)
Definition recolored_styles {I} (style_of style_of' : I -> option style -> style) : Prop :=
  forall i, recolored (style_of i None) (style_of' i None) /\
    forall p p', recolored p p' -> recolored (style_of i (Some p)) (style_of' i (Some p')).
(** Fonts and measured texts do not depend on colors. *)
Definition colorless {A} (f : style -> A) : Prop := forall s s', recolored s s' -> f s' = f s.

(** A drawing call in another color: the same text in the same font, the same rectangle, the same line, the same box. *)
Inductive recolored_call : dcall -> dcall -> Prop :=
| RText l x y f c c' : recolored_call (DText l x y f c) (DText l x y f c')
| RRect x y w h c c' : recolored_call (DRect x y w h c) (DRect x y w h c')
| RLine ps c c' w s : recolored_call (DLine ps c w s) (DLine ps c' w s)
| RBBox x y w h : recolored_call (DBBox x y w h) (DBBox x y w h).
(** Filled rectangles are the backgrounds. *)
Definition not_background (c : dcall) : bool := match c with DRect _ _ _ _ _ => false | _ => true end.

(** The background of a style can be seen: its color, the text color if it is `currentcolor`, is not transparent. *)
Definition seen_background (s : style) : bool :=
  match sv s Lbackground_color with CRGBA r => (0 <? N_of_ascii (c_alpha r))%N | CCurrent => (0 <? N_of_ascii (c_alpha (sv s Lcolor)))%N end.
(** Recolored, and backgrounds that could be seen still can, and no others. *)
Definition reshaded (s s' : style) : Prop := recolored s s' /\ seen_background s' = seen_background s.
Definition reshaded_styles {I} (style_of style_of' : I -> option style -> style) : Prop :=
  forall i, reshaded (style_of i None) (style_of' i None) /\
    forall p p', reshaded p p' -> reshaded (style_of i (Some p)) (style_of' i (Some p')).

(** Style sheets, recolored: the same rules with the same selectors, and in each block the same valid declarations of
    other properties in the same order with the same importance. *)
Definition without_colors (es : list (decl * bool)) : list (decl * bool) :=
  filter (fun e => negb (is_color (decl_longhand (fst e)))) es.
Definition recolored_block (ct : token -> option color) (a b : list item) : Prop :=
  without_colors (declared ct b) = without_colors (declared ct a).
Inductive recolored_rule {selector} (ct : token -> option color) : rule selector -> rule selector -> Prop :=
| RcStyle sels a b : recolored_block ct a b -> recolored_rule ct (RStyle sels a) (RStyle sels b)
| RcErr : recolored_rule ct RErr RErr.
Definition recolored_sheets {selector} (ct : token -> option color) (s s' : list (list (rule selector))) : Prop :=
  Forall2 (Forall2 (recolored_rule ct)) s s'.
Definition recolored_parent (p p' : option style) : Prop :=
  match p, p' with Some s, Some s' => recolored s s' | None, None => True | _, _ => False end.
Definition recolored_attr (ct : token -> option color) (a b : option (list item)) : Prop :=
  match a, b with Some x, Some y => recolored_block ct x y | None, None => True | _, _ => False end.
End Any.
