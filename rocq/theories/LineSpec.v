(** What it means for styles, style sheets and drawings to differ in the line styles of borders only - solid, dashed, dotted
    and the like, but not whether there is a border (C108): independent of the cascade, of layout and of painting. *)
From Verif Require Import Base Len StyleModel StyleSpec GfxModel.
Local Open Scope list_scope.
Section Any.
Context {ar : Arith}.

Definition is_line_style (l : longhand) : bool :=
  match l with Lborder_top_style | Lborder_right_style | Lborder_bottom_style | Lborder_left_style => true | _ => false end.
(** Two styles with the same values of all other properties and with borders on the same sides. *)
Definition relined (s s' : style) : Prop :=
  (forall l, is_line_style l = false -> sv s' l = sv s l) /\ s_specified_display s' = s_specified_display s /\
  (sv s' Lborder_top_style = LSNone <-> sv s Lborder_top_style = LSNone) /\
  (sv s' Lborder_right_style = LSNone <-> sv s Lborder_right_style = LSNone) /\
  (sv s' Lborder_bottom_style = LSNone <-> sv s Lborder_bottom_style = LSNone) /\
  (sv s' Lborder_left_style = LSNone <-> sv s Lborder_left_style = LSNone).
Definition relined_parent (p p' : option style) : Prop :=
  match p, p' with Some s, Some s' => relined s s' | None, None => True | _, _ => False end.
(** The styles of a document; the style of an element is computed from that of its parent. *)
Definition relined_styles {I} (style_of style_of' : I -> option style -> style) : Prop :=
  forall i, relined (style_of i None) (style_of' i None) /\
    forall p p', relined p p' -> relined (style_of i (Some p)) (style_of' i (Some p')).
(** Fonts and measured texts do not depend on borders. *)
Definition borderless {A} (f : style -> A) : Prop := forall s s', relined s s' -> f s' = f s.

(** The same drawing call, but for the line type of a line. *)
Inductive relined_call : dcall -> dcall -> Prop :=
| LSame c : relined_call c c
| LLine ps c w k k' : relined_call (DLine ps c w k) (DLine ps c w k').

(** The same declaration, or two declarations of a line style of the same border, neither of them `none`. *)
Inductive relined_decl : decl -> decl -> Prop :=
| DlSame d : relined_decl d d
| DlTop v v' : v <> LSNone -> v' <> LSNone -> relined_decl (DVal Lborder_top_style v) (DVal Lborder_top_style v')
| DlRight v v' : v <> LSNone -> v' <> LSNone -> relined_decl (DVal Lborder_right_style v) (DVal Lborder_right_style v')
| DlBottom v v' : v <> LSNone -> v' <> LSNone -> relined_decl (DVal Lborder_bottom_style v) (DVal Lborder_bottom_style v')
| DlLeft v v' : v <> LSNone -> v' <> LSNone -> relined_decl (DVal Lborder_left_style v) (DVal Lborder_left_style v').
(** Style sheets: the same rules with the same selectors, and in each block the same valid declarations in the same order
    with the same importance, but for those line styles. *)
Definition relined_block (ct : token -> option color) (a b : list item) : Prop :=
  Forall2 (fun e e' => relined_decl (fst e) (fst e') /\ snd e' = snd e) (declared ct a) (declared ct b).
Inductive relined_rule {selector} (ct : token -> option color) : rule selector -> rule selector -> Prop :=
| LrStyle sels a b : relined_block ct a b -> relined_rule ct (RStyle sels a) (RStyle sels b)
| LrErr : relined_rule ct RErr RErr.
Definition relined_sheets {selector} (ct : token -> option color) (s s' : list (list (rule selector))) : Prop :=
  Forall2 (Forall2 (relined_rule ct)) s s'.
Definition relined_attr (ct : token -> option color) (a b : option (list item)) : Prop :=
  match a, b with Some x, Some y => relined_block ct x y | None, None => True | _, _ => False end.
End Any.
