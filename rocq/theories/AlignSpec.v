(** What it means for styles, style sheets and drawings to differ in the alignment of text only (C102): independent of the
    cascade, of layout and of painting. *)
From Verif Require Import Base Len StyleModel StyleSpec GfxModel EdgesSpec.
Local Open Scope list_scope.
Section Any.
Context {ar : Arith}.

Definition is_align (l : longhand) : bool := match l with Ltext_align => true | _ => false end.
(** Two styles with the same values of all other properties. *)
Definition realigned (s s' : style) : Prop :=
  (forall l, is_align l = false -> sv s' l = sv s l) /\ s_specified_display s' = s_specified_display s.
(** The styles of a document, with other alignments; the style of an element is computed from that of its parent. *)
Definition realigned_styles {I} (style_of style_of' : I -> option style -> style) : Prop :=
  forall i, realigned (style_of i None) (style_of' i None) /\
    forall p p', realigned p p' -> realigned (style_of i (Some p)) (style_of' i (Some p')).
(** The same thing drawn further to the left or the right. *)
Definition sideways (c c' : dcall) : Prop := exists dx, c' = moved dx l0 c.

(** Style sheets, realigned: the same rules with the same selectors, and in each block the same valid declarations of
    other properties in the same order with the same importance. *)
Definition without_align (es : list (decl * bool)) : list (decl * bool) :=
  filter (fun e => negb (is_align (decl_longhand (fst e)))) es.
Definition realigned_block (ct : token -> option color) (a b : list item) : Prop :=
  without_align (declared ct b) = without_align (declared ct a).
Inductive realigned_rule {selector} (ct : token -> option color) : rule selector -> rule selector -> Prop :=
| RaStyle sels a b : realigned_block ct a b -> realigned_rule ct (RStyle sels a) (RStyle sels b)
| RaErr : realigned_rule ct RErr RErr.
Definition realigned_sheets {selector} (ct : token -> option color) (s s' : list (list (rule selector))) : Prop :=
  Forall2 (Forall2 (realigned_rule ct)) s s'.
Definition realigned_parent (p p' : option style) : Prop :=
  match p, p' with Some s, Some s' => realigned s s' | None, None => True | _, _ => False end.
Definition realigned_attr (ct : token -> option color) (a b : option (list item)) : Prop :=
  match a, b with Some x, Some y => realigned_block ct x y | None, None => True | _, _ => False end.
End Any.
