(** Styles and style sheets that differ in some properties only (C103): independent of the cascade, of layout and of
    painting. *)
From Verif Require Import Base Len StyleModel StyleSpec GfxModel.
Local Open Scope list_scope.
Section Any.
Context {ar : Arith}.
(** the properties in which they may differ *)
Variable x : longhand -> bool.

Definition same_but (s s' : style) : Prop :=
  (forall l, x l = false -> sv s' l = sv s l) /\ s_specified_display s' = s_specified_display s.
(** The styles of a document; the style of an element is computed from that of its parent. *)
Definition styles_but {I} (style_of style_of' : I -> option style -> style) : Prop :=
  forall i, same_but (style_of i None) (style_of' i None) /\
    forall p p', same_but p p' -> same_but (style_of i (Some p)) (style_of' i (Some p')).

(** Style sheets: the same rules with the same selectors, and in each block the same valid declarations of the other
    properties in the same order with the same importance. *)
Definition without (es : list (decl * bool)) : list (decl * bool) := filter (fun e => negb (x (decl_longhand (fst e)))) es.
Definition block_but (ct : token -> option color) (a b : list item) : Prop := without (declared ct b) = without (declared ct a).
Inductive rule_but {selector} (ct : token -> option color) : rule selector -> rule selector -> Prop :=
| RbStyle sels a b : block_but ct a b -> rule_but ct (RStyle sels a) (RStyle sels b)
| RbErr : rule_but ct RErr RErr.
Definition sheets_but {selector} (ct : token -> option color) (s s' : list (list (rule selector))) : Prop :=
  Forall2 (Forall2 (rule_but ct)) s s'.
Definition parent_but (p p' : option style) : Prop :=
  match p, p' with Some s, Some s' => same_but s s' | None, None => True | _, _ => False end.
Definition attr_but (ct : token -> option color) (a b : option (list item)) : Prop :=
  match a, b with Some x, Some y => block_but ct x y | None, None => True | _, _ => False end.

(** No other property is computed from these: font-size and color are what em and currentColor refer to, position and
    float change the display, and the style of a border its width. *)
Definition self_contained : Prop :=
  x Lfont_size = false /\ x Lcolor = false /\ x Ldisplay = false /\ x Lposition = false /\ x Lfloat = false /\
  (x Lborder_top_width = false -> x Lborder_top_style = false) /\
  (x Lborder_right_width = false -> x Lborder_right_style = false) /\
  (x Lborder_bottom_width = false -> x Lborder_bottom_style = false) /\
  (x Lborder_left_width = false -> x Lborder_left_style = false).
End Any.
