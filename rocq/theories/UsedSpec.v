(** When values of properties come to the same length, and trees of styled nodes that differ only in how such lengths are
    written (C110): independent of box construction, layout and painting. *)
From Verif Require Import Base Len StyleModel TreeModel.
Local Open Scope len_scope.
Local Open Scope list_scope.

(** Lengths, and percentages of the width [w] of the containing block *)
Definition length_at (w : Len) (v : lp Len) : Len := match v with LPLen l => l | LPPct p => w * p end.
Definition size_at (w : Len) (v : lpa Len) : option Len := match v with LPALen l => Some l | LPAPct p => Some (w * p) | LPAAuto => None end.
(** Line heights: percentages and numbers are of the font size. *)
Definition used_line_height (s : style) : Len :=
  match sv s Lline_height with LPNLen l => l | LPNPct p => sv s Lfont_size * p | LPNNum n => sv s Lfont_size * n end.
(** Vertical alignment: percentages are of the line height. *)
Definition used_alignment (s : style) : vertical_align Len :=
  match sv s Lvertical_align with VAPct p => VALen (used_line_height s * p) | v => v end.

Definition written_variously (l : longhand) : bool :=
  match l with
  | Lwidth | Lline_height | Lvertical_align
  | Lmargin_top | Lmargin_right | Lmargin_bottom | Lmargin_left
  | Lpadding_top | Lpadding_right | Lpadding_bottom | Lpadding_left
  | Lborder_top_width | Lborder_right_width | Lborder_bottom_width | Lborder_left_width => true
  | _ => false
  end.
(** Two styles that come to the same in a containing block of width [w] *)
Definition same_used (w : Len) (s s' : style) : Prop :=
  (forall l, written_variously l = false -> sv s' l = sv s l) /\ s_specified_display s' = s_specified_display s /\
  used_line_height s' = used_line_height s /\ used_alignment s' = used_alignment s /\
  size_at w (sv s' Lwidth) = size_at w (sv s Lwidth) /\
  size_at w (sv s' Lmargin_top) = size_at w (sv s Lmargin_top) /\ size_at w (sv s' Lmargin_right) = size_at w (sv s Lmargin_right) /\
  size_at w (sv s' Lmargin_bottom) = size_at w (sv s Lmargin_bottom) /\ size_at w (sv s' Lmargin_left) = size_at w (sv s Lmargin_left) /\
  length_at w (sv s' Lpadding_top) = length_at w (sv s Lpadding_top) /\ length_at w (sv s' Lpadding_right) = length_at w (sv s Lpadding_right) /\
  length_at w (sv s' Lpadding_bottom) = length_at w (sv s Lpadding_bottom) /\ length_at w (sv s' Lpadding_left) = length_at w (sv s Lpadding_left) /\
  length_at w (sv s' Lborder_top_width) = length_at w (sv s Lborder_top_width) /\ length_at w (sv s' Lborder_right_width) = length_at w (sv s Lborder_right_width) /\
  length_at w (sv s' Lborder_bottom_width) = length_at w (sv s Lborder_bottom_width) /\ length_at w (sv s' Lborder_left_width) = length_at w (sv s Lborder_left_width).

(** The width of the content box of a block: its `width`, or what its margins, borders and paddings leave of [w]. *)
Definition or_zero (o : option Len) : Len := match o with Some l => l | None => l0 end.
Definition content_width (w : Len) (s : style) : Len :=
  match size_at w (sv s Lwidth) with
  | Some x => x
  | None => w - (or_zero (size_at w (sv s Lmargin_left)) + length_at w (sv s Lborder_left_width) + length_at w (sv s Lpadding_left) +
                 length_at w (sv s Lpadding_right) + length_at w (sv s Lborder_right_width) + or_zero (size_at w (sv s Lmargin_right)))
  end.
(** The containing block of what is in an element: its content box if it is a block, and its own containing block if not. *)
Definition width_inside (w : Len) (s : style) : Len := match sv s Ldisplay with DispBox OBlock _ => content_width w s | _ => w end.

(** The same nodes, with styles that come to the same in their containing blocks.  Absolutely positioned elements, whose
    containing block lies further out, are the same. *)
Inductive same_lengths : Len -> snode -> snode -> Prop :=
| Sl_text w t : same_lengths w (SText t) (SText t)
| Sl_other w : same_lengths w SOther SOther
| Sl_break w st st' l l' : same_used w st st' -> same_lengths w (SElem true st l) (SElem true st' l')
| Sl_absolute w st i l : sv st Lposition = PosAbsolute -> sv st Ldisplay = DispBox OBlock i -> same_lengths w (SElem false st l) (SElem false st l)
| Sl_element w st st' l l' : sv st Lposition <> PosAbsolute -> same_used w st st' -> Forall2 (same_lengths (width_inside w st)) l l' ->
    same_lengths w (SElem false st l) (SElem false st' l').
