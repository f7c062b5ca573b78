(** What it means that only horizontal properties change, and what is seen of a drawing down the page (C104): independent of
    layout and of painting. *)
From Verif Require Import Base Len StyleModel StyleSpec TreeModel GfxModel.
Local Open Scope list_scope.
Section Any.
Context {ar : Arith}.

(** The horizontal properties *)
Definition is_horizontal (l : longhand) : bool :=
  match l with
  | Lleft | Lright | Lwidth | Lmargin_left | Lmargin_right | Lpadding_left | Lpadding_right
  | Lborder_left_color | Lborder_right_color | Lborder_left_style | Lborder_right_style | Lborder_left_width | Lborder_right_width
  | Ltext_align => true
  | _ => false
  end.

(** What a call draws down the page: a text at which height in which font and colour, a background or a box from which height
    and how high.  The lines of borders are left out. *)
Inductive down :=
| WText (label : string) (y : Len) (f : font) (color : rgba)
| WFill (y height : Len) (fill : rgba)
| WBox (y height : Len).
Definition down_of (c : dcall) : list down :=
  match c with
  | GfxModel.DText t _ y f col => [WText t y f col]
  | DRect _ y _ h col => [WFill y h col]
  | DBBox _ y _ h => [WBox y h]
  | DLine _ _ _ _ => []
  end.

(** Text that is not wrapped *)
Definition unwrapped (st : style) : Prop := sv st Lwhite_space = WSNowrap \/ sv st Lwhite_space = WSPre.
(** Margins, borders and paddings at the top and the bottom that are not in percent: in CSS these count from the width. *)
Definition length_lp (v : lp Len) : Prop := match v with LPLen _ => True | LPPct _ => False end.
Definition length_lpa (v : lpa Len) : Prop := match v with LPALen _ | LPAAuto => True | LPAPct _ => False end.
Definition no_percent (st : style) : Prop :=
  length_lp (sv st Lpadding_top) /\ length_lp (sv st Lpadding_bottom) /\
  length_lp (sv st Lborder_top_width) /\ length_lp (sv st Lborder_bottom_width) /\
  length_lpa (sv st Lmargin_top) /\ length_lpa (sv st Lmargin_bottom).
(** An element that is not absolutely positioned, or from the top or the bottom by a length, with a height that is a length
    or automatic *)
Definition by_lengths (st : style) : Prop :=
  is_absolutely_positioned (sv st Lposition) = true ->
  length_lpa (sv st Ltop) /\ length_lpa (sv st Lbottom) /\ length_lpa (sv st Lheight) /\
  (sv st Ltop = LPAAuto \/ sv st Lbottom = LPAAuto).
(** [G] holds of the style of every element, but for those inside display: none. *)
Fixpoint elements_styled (G : style -> Prop) (n : snode) : Prop :=
  match n with
  | SText _ | SOther => True
  | SElem br st kids =>
      if br then G st else
      match sv st Ldisplay with
      | DispNone => True
      | _ => G st /\ fold_right (fun k R => elements_styled G k /\ R) True kids
      end
  end.
End Any.
