(** What it means for a drawing to be another one, enlarged (C87). *)
From Verif Require Import Base Len GeomModel StyleModel StyleSpec GfxModel.
Local Open Scope len_scope.

(** Lengths are multiplied by [k]; percentages, plain numbers and keywords stay. *)
Definition zoom_lp (k : Len) (v : lp Len) : lp Len := match v with LPLen l => LPLen (k * l) | LPPct p => LPPct p end.
Definition zoom_lpa (k : Len) (v : lpa Len) : lpa Len :=
  match v with LPALen l => LPALen (k * l) | LPAPct p => LPAPct p | LPAAuto => LPAAuto end.
Definition zoom_lpn (k : Len) (v : lpn Len) : lpn Len :=
  match v with LPNLen l => LPNLen (k * l) | LPNPct p => LPNPct p | LPNNum n => LPNNum n end.
Definition zoom_va (k : Len) (v : vertical_align Len) : vertical_align Len :=
  match v with VALen l => VALen (k * l) | other => other end.
Definition zoom_value (k : Len) (l : longhand) : vty l -> vty l :=
  match l return vty l -> vty l with
  | Lfont_size => fun v => k * v
  | Lline_height => zoom_lpn k
  | Lvertical_align => zoom_va k
  | Ltop | Lleft | Lbottom | Lright | Lwidth | Lheight
  | Lmargin_top | Lmargin_right | Lmargin_bottom | Lmargin_left => zoom_lpa k
  | Lpadding_top | Lpadding_right | Lpadding_bottom | Lpadding_left => zoom_lp k
  | Lborder_top_width | Lborder_right_width | Lborder_bottom_width | Lborder_left_width => zoom_lp k
  | _ => fun v => v
  end.
(** [s'] is [s] enlarged *)
Definition zoomed_style (k : Len) (s s' : style) : Prop :=
  (forall l, sv s' l = zoom_value k l (sv s l)) /\ s_specified_display s' = s_specified_display s.

(** A font of the same family, style and weight, enlarged *)
Definition zoomed_font (k : Len) (f f' : font) : Prop :=
  f_name f' = f_name f /\ f_style f' = f_style f /\ f_weight f' = f_weight f /\
  f_size f' = k * f_size f /\ f_ascent f' = k * f_ascent f /\ f_descent f' = k * f_descent f.
(** Fonts and measured text, enlarged *)
Definition zoomed_fonts (k : Len) (font_of font_of' : style -> font) : Prop :=
  forall s s', zoomed_style k s s' -> zoomed_font k (font_of s) (font_of' s').
Definition zoomed_widths (k : Len) (width width' : style -> text -> Len) : Prop :=
  forall s s', zoomed_style k s s' -> forall t, width' s' t = k * width s t.
(** The styles of a document, enlarged; the style of an element is computed from that of its parent *)
Definition zoomed_styles {I} (k : Len) (style_of style_of' : I -> option style -> style) : Prop :=
  forall i, zoomed_style k (style_of i None) (style_of' i None) /\
    forall p p', zoomed_style k p p' -> zoomed_style k (style_of i (Some p)) (style_of' i (Some p')).

(** A drawing call, enlarged: all coordinates, sizes and line widths are multiplied, texts and colors stay. *)
Inductive zoomed_call (k : Len) : dcall -> dcall -> Prop :=
| ZText l x y f f' c : zoomed_font k f f' -> zoomed_call k (DText l x y f c) (DText l (k * x) (k * y) f' c)
| ZRect x y w h c : zoomed_call k (DRect x y w h c) (DRect (k * x) (k * y) (k * w) (k * h) c)
| ZLine ps c w s :
    zoomed_call k (DLine ps c w s) (DLine (map (fun p => (k * fst p, k * snd p)) ps) c (k * w) s)
| ZBBox x y w h : zoomed_call k (DBBox x y w h) (DBBox (k * x) (k * y) (k * w) (k * h)).

(** A declaration, enlarged: absolute lengths are multiplied, lengths in em stay. *)
Definition zoom_slength (k : Len) (v : slength) : slength := match v with SAbs l => SAbs (k * l) | SEm e => SEm e end.
Definition zoom_specified (k : Len) (l : longhand) : sty l -> sty l :=
  match l return sty l -> sty l with
  | Lfont_size => zoom_slength k
  | Lline_height => lpn_map (zoom_slength k)
  | Lvertical_align => va_map (zoom_slength k)
  | Ltop | Lleft | Lbottom | Lright | Lwidth | Lheight
  | Lmargin_top | Lmargin_right | Lmargin_bottom | Lmargin_left => lpa_map (zoom_slength k)
  | Lpadding_top | Lpadding_right | Lpadding_bottom | Lpadding_left => lp_map (zoom_slength k)
  | Lborder_top_width | Lborder_right_width | Lborder_bottom_width | Lborder_left_width => lp_map (zoom_slength k)
  | _ => fun v => v
  end.
Definition zoom_decl (k : Len) (d : decl) : decl :=
  match d with DVal l v => DVal l (zoom_specified k l v) | DWide l w => DWide l w end.
(** The declarations that win for two elements are the same, enlarged. *)
Definition zoomed_winners (k : Len) (cs cs' : list cand) : Prop :=
  forall l, (undeclared cs l /\ undeclared cs' l) \/
    exists c c', wins cs c /\ wins cs' c' /\ c_decl c' = zoom_decl k (c_decl c) /\ decl_longhand (c_decl c) = l.
(** The parents' styles *)
Definition zoomed_parent (k : Len) (p p' : option style) : Prop :=
  match p, p' with Some s, Some s' => zoomed_style k s s' | None, None => True | _, _ => False end.
(** Two lengths are built in: the initial font size is 16px and the initial border width is 3px.  They are not used by
    an element of style [s] with these declarations: its font size does not go back to them, and its visible borders
    have declared widths. *)
Definition no_default_length (cs : list cand) (parent : option style) (s : style) : Prop :=
  ((exists c v, wins cs c /\ c_decl c = DVal Lfont_size (SAbs v)) \/
   (parent <> None /\ forall c, wins cs c -> c_decl c <> DWide Lfont_size KInitial)) /\
  (forall l st, governing_style s l = Some st -> st <> LSNone -> exists c v, wins cs c /\ c_decl c = DVal l v).
