(** Specification of painting, independent of the painting functions. *)
From Verif Require Import Base StyleModel GeomModel GfxModel GfxSpec InlineModel CStrModel PaintModel.
Local Open Scope len_scope.

(** A point of the page: x to the right, y downwards. *)
Definition point {ar : Arith} : Type := (Len * Len)%type.
Definition moved {ar : Arith} (d p : point) : point := (fst p + fst d, snd p + snd d).

(** All fragments of a page in tree order (a parent before its children), each with the origin of its coordinates:
    the sum of the start corners of the content rectangles of its ancestors. *)
Fixpoint placed {ar : Arith} (o : point) (f : fragment) : list (point * fragment) :=
  (o, f) :: match f with
            | FBox _ ch r _ _ _ _ | FAnon r ch => flat_map (placed (moved (v_inline (r_start r), v_block (r_start r)) o)) ch
            | FText _ _ _ _ => []
            end.
Definition placed_page {ar : Arith} (fs : list fragment) : list (point * fragment) := flat_map (placed (l0, l0)) fs.

(** The boxes of a fragment on the page: left, top, right and bottom edge. *)
Definition box_of (o : point) (r : rect Len) : box :=
  Box (fst o + v_inline (r_start r)) (snd o + v_block (r_start r))
      (fst o + v_inline (r_start r) + v_inline (r_size r)) (snd o + v_block (r_start r) + v_block (r_size r)).
Definition outset (s : sides Len) (b : box) : box :=
  Box (b_xmin b - s_inline_start s) (b_ymin b - s_block_start s) (b_xmax b + s_inline_end s) (b_ymax b + s_block_end s).
Definition content_box (o : point) (f : fragment) : box :=
  match f with FBox _ _ r _ _ _ _ | FAnon r _ | FText _ r _ _ => box_of o r end.
Definition padding_box (o : point) (f : fragment) : box :=
  match f with FBox _ _ _ p _ _ _ => outset p (content_box o f) | _ => content_box o f end.
Definition border_box (o : point) (f : fragment) : box :=
  match f with FBox _ _ _ _ b _ _ => outset b (padding_box o f) | _ => content_box o f end.
Definition margin_box (o : point) (f : fragment) : box :=
  match f with FBox _ _ _ _ _ m _ => outset m (border_box o f) | _ => content_box o f end.
(** The box a rectangle call is about. *)
Definition call_box (x y w h : Len) : box := Box x y (x + w) (y + h).

(** The lines of the borders, in drawing order: top, right, bottom, left.  Each is in the middle between the edges
    of the border box and the padding box and as wide as their distance. *)
Inductive side := Top | Right | Bottom | Left.
Definition side_width (s : side) (border padding : box) : Len :=
  match s with
  | Top => b_ymin padding - b_ymin border
  | Right => b_xmax border - b_xmax padding
  | Bottom => b_ymax border - b_ymax padding
  | Left => b_xmin padding - b_xmin border
  end.
Definition middle (a b : Len) : Len := lhalf (a + b).
Definition centre_line (s : side) (border padding : box) : list point :=
  match s with
  | Top => let y := middle (b_ymin border) (b_ymin padding) in [(b_xmin border, y); (b_xmax border, y)]
  | Right => let x := middle (b_xmax border) (b_xmax padding) in [(x, b_ymin border); (x, b_ymax border)]
  | Bottom => let y := middle (b_ymax border) (b_ymax padding) in [(b_xmax border, y); (b_xmin border, y)]
  | Left => let x := middle (b_xmin border) (b_xmin padding) in [(x, b_ymax border); (x, b_ymin border)]
  end.
Definition side_style (s : side) (st : style) : line_style :=
  match s with
  | Top => sv st Lborder_top_style | Right => sv st Lborder_right_style
  | Bottom => sv st Lborder_bottom_style | Left => sv st Lborder_left_style
  end.
(** The colour of a value, currentcolor being the text colour. *)
Definition used_color (st : style) (c : color) : rgba := match c with CRGBA x => x | CCurrent => sv st Lcolor end.
Definition side_color (s : side) (st : style) : rgba :=
  used_color st match s with
                | Top => sv st Lborder_top_color | Right => sv st Lborder_right_color
                | Bottom => sv st Lborder_bottom_color | Left => sv st Lborder_left_color
                end.
(** A border that can be seen: wider than nothing and not none. *)
Definition side_visible (s : side) (st : style) (border padding : box) : Prop :=
  l0 < side_width s border padding /\ side_style s st <> LSNone.
Definition side_drawn (s : side) (st : style) (border padding : box) (cs : list dcall) : Prop :=
  (side_visible s st border padding /\
   cs = [DLine (centre_line s border padding) (side_color s st) (side_width s border padding) (side_style s st)]) \/
  (~ side_visible s st border padding /\ cs = []).
Definition transparent_color (c : rgba) : Prop := N_of_ascii (c_alpha c) = 0%N.
Definition background (st : style) : rgba := used_color st (sv st Lbackground_color).
Definition background_drawn (st : style) (border : box) (cs : list dcall) : Prop :=
  (~ transparent_color (background st) /\
   exists x y w h, cs = [DRect x y w h (background st)] /\ call_box x y w h = border) \/
  (transparent_color (background st) /\ cs = []).
Definition records (b : box) (c : dcall) : Prop :=
  match c with DBBox x y w h => call_box x y w h = b | _ => False end.

(** The calls for one fragment by itself: its bounding box is recorded; for a box follow the background and the
    four borders; for a text its glyphs, with the baseline below the top of the fragment by the ascent of the font. *)
Definition own_calls (font_of : style -> font) (o : point) (f : fragment) (cs : list dcall) : Prop :=
  match f with
  | FBox st _ _ _ _ _ _ =>
      exists r bg t ri bo l, cs = r :: bg ++ t ++ ri ++ bo ++ l /\ records (margin_box o f) r /\
        background_drawn st (border_box o f) bg /\
        side_drawn Top st (border_box o f) (padding_box o f) t /\
        side_drawn Right st (border_box o f) (padding_box o f) ri /\
        side_drawn Bottom st (border_box o f) (padding_box o f) bo /\
        side_drawn Left st (border_box o f) (padding_box o f) l
  | FAnon _ _ => exists r, cs = [r] /\ records (content_box o f) r
  | FText st _ fo seg =>
      exists r, cs = [r; GfxModel.DText (label_of (seg_glyphs seg)) (b_xmin (content_box o f))
                           (b_ymin (content_box o f) + f_ascent (font_of fo)) (font_of fo) (sv st Lcolor)] /\
        records (content_box o f) r
  end.

(** A call with everything moved. *)
Definition move_call (d : point) (c : dcall) : dcall :=
  match c with
  | GfxModel.DText t x y f col => GfxModel.DText t (x + fst d) (y + snd d) f col
  | DRect x y w h col => DRect (x + fst d) (y + snd d) w h col
  | DLine ps col w s => DLine (map (moved d) ps) col w s
  | DBBox x y w h => DBBox (x + fst d) (y + snd d) w h
  end.

(** The points covered by a line from [p] to [q] (horizontal or vertical) drawn with butt ends and width [w]. *)
Definition between (a b x : Len) : Prop := (a <= x /\ x <= b) \/ (b <= x /\ x <= a).
Definition stroke (ps : list point) (w : Len) (x : point) : Prop :=
  match ps with
  | [p; q] =>
      (snd p = snd q /\ between (fst p) (fst q) (fst x) /\ snd p - lhalf w <= snd x /\ snd x <= snd p + lhalf w) \/
      (fst p = fst q /\ between (snd p) (snd q) (snd x) /\ fst p - lhalf w <= fst x /\ fst x <= fst p + lhalf w)
  | _ => False
  end.
(** The strip of a border: the part of the border box beyond the edge of the padding box. *)
Definition strip (s : side) (border padding : box) (x : point) : Prop :=
  in_box border x /\
  match s with
  | Top => snd x <= b_ymin padding | Bottom => b_ymax padding <= snd x
  | Left => fst x <= b_xmin padding | Right => b_xmax padding <= fst x
  end.

(** What is drawn, by kind. *)
Definition rect_of (c : dcall) : list (box * rgba) :=
  match c with DRect x y w h col => [(call_box x y w h, col)] | _ => [] end.
Definition line_of (c : dcall) : list (list point * rgba * Len * line_style) :=
  match c with DLine ps col w s => [(ps, col, w, s)] | _ => [] end.
Definition text_of {ar : Arith} (c : dcall) : list string := match c with GfxModel.DText t _ _ _ _ => [t] | _ => [] end.

(** What can be seen of a page, by kind. *)
Definition visible_background (p : point * fragment) : list (box * rgba) :=
  match snd p with
  | FBox st _ _ _ _ _ _ =>
      if N.eq_dec (N_of_ascii (c_alpha (background st))) 0 then [] else [(border_box (fst p) (snd p), background st)]
  | _ => []
  end.
Definition visible_side (p : point * fragment) (s : side) : list (list point * rgba * Len * line_style) :=
  match snd p with
  | FBox st _ _ _ _ _ _ =>
      let b := border_box (fst p) (snd p) in
      let q := padding_box (fst p) (snd p) in
      if lltb l0 (side_width s b q) && not_none (side_style s st)
      then [(centre_line s b q, side_color s st, side_width s b q, side_style s st)] else []
  | _ => []
  end.
Definition visible_borders (p : point * fragment) : list (list point * rgba * Len * line_style) :=
  flat_map (visible_side p) [Top; Right; Bottom; Left].
Definition visible_text {ar : Arith} (p : point * fragment) : list string :=
  match snd p with FText _ _ _ seg => [label_of (seg_glyphs seg)] | _ => [] end.
(** The corners of a box. *)
Definition box_corners (b : box) : list point :=
  [(b_xmin b, b_ymin b); (b_xmax b, b_ymin b); (b_xmin b, b_ymax b); (b_xmax b, b_ymax b)].
(** The texts of a page can be drawn: valid characters, none of them NUL, and the font exists. *)
Definition drawable (font_of : style -> font) (vs : vstore) (p : point * fragment) : Prop :=
  match snd p with
  | FText _ _ fo seg =>
      forallb is_scalar (seg_glyphs seg) = true /\ ~ In 0%N (seg_glyphs seg) /\ value_of vs (f_gc (font_of fo)) <> None
  | _ => True
  end.
