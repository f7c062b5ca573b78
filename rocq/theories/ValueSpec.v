(** Specification of the values of the longhands: what each token means, and what CSS allows. *)
From Verif Require Import StyleModel StyleSpec GfxModel.
Local Open Scope string_scope.

(** Lengths: a number with a unit, or 0. *)
Inductive length_token : token -> slength -> Prop :=
| lt_abs v u f : In (lower u, f) unit_px -> length_token (TDim v u) (SAbs (v * px f)%len)
| lt_em v u : lower u = "em" -> length_token (TDim v u) (SEm v)
| lt_zero : length_token (TNumber l0) (SAbs l0).
(** The declarations of a length, a percentage and a colour, for the longhands that take one. *)
Definition length_decl (l : longhand) (s : slength) : option decl :=
  match l with
  | Lfont_size => Some (DVal Lfont_size s)
  | Lline_height => Some (DVal Lline_height (LPNLen s))
  | Lvertical_align => Some (DVal Lvertical_align (VALen s))
  | Ltop => Some (DVal Ltop (LPALen s)) | Lleft => Some (DVal Lleft (LPALen s))
  | Lbottom => Some (DVal Lbottom (LPALen s)) | Lright => Some (DVal Lright (LPALen s))
  | Lwidth => Some (DVal Lwidth (LPALen s)) | Lheight => Some (DVal Lheight (LPALen s))
  | Lmargin_top => Some (DVal Lmargin_top (LPALen s)) | Lmargin_right => Some (DVal Lmargin_right (LPALen s))
  | Lmargin_bottom => Some (DVal Lmargin_bottom (LPALen s)) | Lmargin_left => Some (DVal Lmargin_left (LPALen s))
  | Lpadding_top => Some (DVal Lpadding_top (LPLen s)) | Lpadding_right => Some (DVal Lpadding_right (LPLen s))
  | Lpadding_bottom => Some (DVal Lpadding_bottom (LPLen s)) | Lpadding_left => Some (DVal Lpadding_left (LPLen s))
  | Lborder_top_width => Some (DVal Lborder_top_width (LPLen s)) | Lborder_right_width => Some (DVal Lborder_right_width (LPLen s))
  | Lborder_bottom_width => Some (DVal Lborder_bottom_width (LPLen s)) | Lborder_left_width => Some (DVal Lborder_left_width (LPLen s))
  | _ => None
  end.
Definition percent_decl (l : longhand) (p : Len) : option decl :=
  match l with
  | Lline_height => Some (DVal Lline_height (LPNPct p))
  | Lvertical_align => Some (DVal Lvertical_align (VAPct p))
  | Ltext_align => Some (DVal Ltext_align (TAPct p))
  | Ltop => Some (DVal Ltop (LPAPct p)) | Lleft => Some (DVal Lleft (LPAPct p))
  | Lbottom => Some (DVal Lbottom (LPAPct p)) | Lright => Some (DVal Lright (LPAPct p))
  | Lwidth => Some (DVal Lwidth (LPAPct p)) | Lheight => Some (DVal Lheight (LPAPct p))
  | Lmargin_top => Some (DVal Lmargin_top (LPAPct p)) | Lmargin_right => Some (DVal Lmargin_right (LPAPct p))
  | Lmargin_bottom => Some (DVal Lmargin_bottom (LPAPct p)) | Lmargin_left => Some (DVal Lmargin_left (LPAPct p))
  | Lpadding_top => Some (DVal Lpadding_top (LPPct p)) | Lpadding_right => Some (DVal Lpadding_right (LPPct p))
  | Lpadding_bottom => Some (DVal Lpadding_bottom (LPPct p)) | Lpadding_left => Some (DVal Lpadding_left (LPPct p))
  | Lborder_top_width => Some (DVal Lborder_top_width (LPPct p)) | Lborder_right_width => Some (DVal Lborder_right_width (LPPct p))
  | Lborder_bottom_width => Some (DVal Lborder_bottom_width (LPPct p)) | Lborder_left_width => Some (DVal Lborder_left_width (LPPct p))
  | _ => None
  end.
Definition color_decl (l : longhand) (c : color) : option decl :=
  match l with
  | Lcolor => Some (DVal Lcolor c)
  | Lborder_top_color => Some (DVal Lborder_top_color c) | Lborder_right_color => Some (DVal Lborder_right_color c)
  | Lborder_bottom_color => Some (DVal Lborder_bottom_color c) | Lborder_left_color => Some (DVal Lborder_left_color c)
  | Lbackground_color => Some (DVal Lbackground_color c)
  | _ => None
  end.

Section Values.
Variable color_token : token -> option color.
(** [means l t d]: for the longhand [l], the token [t] is the value of the declaration [d]. *)
Inductive means (l : longhand) : token -> decl -> Prop :=
| m_keyword k d : l <> Lfont_family -> In (l, k, d) keyword_values -> means l (TIdent k) d
| m_length t s d : length_token t s -> length_decl l s = Some d -> means l t d
| m_percent p d : percent_decl l p = Some d -> means l (TPercent p) d
| m_color t c d : color_token t = Some c -> color_decl l c = Some d -> means l t d
| m_number n : l = Lline_height -> n <> l0 -> means l (TNumber n) (DVal Lline_height (LPNNum n))
| m_generic s d : l = Lfont_family -> In (l, lower s, d) keyword_values -> means l (TIdent s) d
| m_family s : l = Lfont_family -> (forall d, ~ In (l, lower s, d) keyword_values) -> means l (TIdent s) (DVal Lfont_family (FamName s))
| m_quoted s : l = Lfont_family -> means l (TQuoted s) (DVal Lfont_family (FamName s)).
(** Values with the CSS-wide keywords, which come first. *)
Definition is_wide (t : token) (k : wide) : Prop := exists s, t = TIdent s /\ In (s, k) wide_keywords.
Definition declares (l : longhand) (t : token) (d : decl) : Prop :=
  (exists k, is_wide t k /\ d = DWide l k) \/ ((forall k, ~ is_wide t k) /\ means l t d).
End Values.

(** Longhands for which CSS 2.2 calls negative values illegal (10.2, 10.5, 10.8.1, 8.4, 8.5.1, 15.7). *)
Definition not_negative (l : longhand) : bool :=
  match l with
  | Lfont_size | Lline_height | Lwidth | Lheight | Lpadding_top | Lpadding_right | Lpadding_bottom | Lpadding_left
  | Lborder_top_width | Lborder_right_width | Lborder_bottom_width | Lborder_left_width => true
  | _ => false
  end.
Definition amount (t : token) : option Len :=
  match t with TNumber v | TPercent v | TDim v _ => Some v | _ => None end.
Definition negative_value (t : token) : Prop := exists v, amount t = Some v /\ (v < l0)%Qc.
(** What CSS asks: the values above, without the illegal ones. *)
Definition legal (color_token : token -> option color) (l : longhand) (t : token) (d : decl) : Prop :=
  declares color_token l t d /\ ~ (not_negative l = true /\ negative_value t).
