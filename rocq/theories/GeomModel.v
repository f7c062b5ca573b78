(** Model of /repo/src/sinab/src/geom.rs, /repo/src/sinab/src/style/values/writing_modes.rs and of the
    rectangles and collapsed margins of /repo/src/sinab/src/layout/fragments.rs. Definitions only. *)
From Verif Require Export Len.
Local Open Scope len_scope.

(** style/values/writing_modes.rs:1-14 *)
Inductive direction := Ltr | Rtl.
Inductive writing_mode := HorizontalTb | VerticalRl | VerticalLr | SidewaysRl | SidewaysLr.
Definition wmode : Type := writing_mode * direction.

(** physical::{Vec2,Rect,Sides}, geom.rs:6-26 *)
Record pvec (T : Type) := PVec { px_ : T; py_ : T }.
Record prect (T : Type) := PRect { p_top_left : pvec T; p_size : pvec T }.
Record psides (T : Type) := PSides { p_top : T; p_left : T; p_bottom : T; p_right : T }.
Arguments PVec {T}. Arguments px_ {T}. Arguments py_ {T}.
Arguments PRect {T}. Arguments p_top_left {T}. Arguments p_size {T}.
Arguments PSides {T}. Arguments p_top {T}. Arguments p_left {T}. Arguments p_bottom {T}. Arguments p_right {T}.

(** flow_relative::{Vec2,Rect,Sides}, geom.rs:28-52 *)
Record vec2 (T : Type) := Vec2 { v_inline : T; v_block : T }.
Record rect (T : Type) := Rect { r_start : vec2 T; r_size : vec2 T }.
Record sides (T : Type) := Sides { s_inline_start : T; s_inline_end : T; s_block_start : T; s_block_end : T }.
Arguments Vec2 {T}. Arguments v_inline {T}. Arguments v_block {T}.
Arguments Rect {T}. Arguments r_start {T}. Arguments r_size {T}.
Arguments Sides {T}. Arguments s_inline_start {T}. Arguments s_inline_end {T}.
Arguments s_block_start {T}. Arguments s_block_end {T}.

Section Any.
Context {ar : Arith}.

(** impl Add for physical::Vec2, geom.rs:55-67 *)
Definition pvec_add (a b : pvec Len) : pvec Len := PVec (px_ a + px_ b) (py_ a + py_ b).
(** impl Add / AddAssign for flow_relative::Vec2, geom.rs:84-106 *)
Definition vec2_add (a b : vec2 Len) : vec2 Len := Vec2 (v_inline a + v_inline b) (v_block a + v_block b).
(** zero, geom.rs:108-135 *)
Definition vec2_zero : vec2 Len := Vec2 l0 l0.
Definition sides_zero : sides Len := Sides l0 l0 l0 l0.
Definition rect_zero : rect Len := Rect vec2_zero vec2_zero.

(** physical::Vec2::size_to_flow_relative, geom.rs:69-82 *)
Definition size_to_flow_relative {T} (m : wmode) (v : pvec T) : vec2 T :=
  match fst m with
  | HorizontalTb => Vec2 (px_ v) (py_ v)
  | _ => Vec2 (py_ v) (px_ v)
  end.
(** flow_relative::Vec2::size_to_physical, geom.rs:137-150 *)
Definition size_to_physical {T} (m : wmode) (v : vec2 T) : pvec T :=
  match fst m with
  | HorizontalTb => PVec (v_inline v) (v_block v)
  | _ => PVec (v_block v) (v_inline v)
  end.
(** physical::Sides::to_flow_relative, geom.rs:158-186 *)
Definition sides_to_flow_relative {T} (m : wmode) (s : psides T) : sides T :=
  let '(bs, be) := match fst m with
    | HorizontalTb => (p_top s, p_bottom s)
    | VerticalRl | SidewaysRl => (p_right s, p_left s)
    | VerticalLr | SidewaysLr => (p_left s, p_right s)
    end in
  let '(is, ie) := match m with
    | (HorizontalTb, Ltr) => (p_left s, p_right s)
    | (HorizontalTb, Rtl) => (p_right s, p_left s)
    | (VerticalRl, Ltr) | (SidewaysRl, Ltr) | (VerticalLr, Ltr) | (SidewaysLr, Rtl) => (p_top s, p_bottom s)
    | (VerticalRl, Rtl) | (SidewaysRl, Rtl) | (VerticalLr, Rtl) | (SidewaysLr, Ltr) => (p_bottom s, p_top s)
    end in
  Sides is ie bs be.

(** flow_relative::Sides::{map,map_inline_and_block_axes}, geom.rs:188-209 *)
Definition sides_map {T U} (f : T -> U) (s : sides T) : sides U :=
  Sides (f (s_inline_start s)) (f (s_inline_end s)) (f (s_block_start s)) (f (s_block_end s)).
Definition sides_map_axes {T U} (fi fb : T -> U) (s : sides T) : sides U :=
  Sides (fi (s_inline_start s)) (fi (s_inline_end s)) (fb (s_block_start s)) (fb (s_block_end s)).
(** inline_sum, block_sum, start_corner, geom.rs:211-233 *)
Definition inline_sum (s : sides Len) : Len := s_inline_start s + s_inline_end s.
Definition block_sum (s : sides Len) : Len := s_block_start s + s_block_end s.
Definition sides_start_corner {T} (s : sides T) : vec2 T := Vec2 (s_inline_start s) (s_block_start s).
(** impl Add for flow_relative::Sides, geom.rs:254-268 *)
Definition sides_add (a b : sides Len) : sides Len :=
  Sides (s_inline_start a + s_inline_start b) (s_inline_end a + s_inline_end b)
        (s_block_start a + s_block_start b) (s_block_end a + s_block_end b).

(** flow_relative::Rect::inflate, geom.rs:271-286 *)
Definition inflate (r : rect Len) (s : sides Len) : rect Len :=
  Rect (Vec2 (v_inline (r_start r) - s_inline_start s) (v_block (r_start r) - s_block_start s))
       (Vec2 (v_inline (r_size r) + inline_sum s) (v_block (r_size r) + block_sum s)).
(** flow_relative::Rect::to_physical, geom.rs:288-312 (the containing block argument is unused there) *)
Definition rect_to_physical {T} (m : wmode) (r : rect T) : result (prect T) :=
  match m with
  | (HorizontalTb, Ltr) => Ok (PRect (PVec (v_inline (r_start r)) (v_block (r_start r))) (size_to_physical m (r_size r)))
  | _ => Panic
  end.
(** physical::Rect::translate, geom.rs:316-324 *)
Definition prect_translate (r : prect Len) (by_ : pvec Len) : prect Len :=
  PRect (pvec_add (p_top_left r) by_) (p_size r).

(** ComputedValues::writing_mode, style/properties/mod.rs:32-35 *)
Definition the_writing_mode : wmode := (HorizontalTb, Ltr).

(** CollapsedMargin, fragments.rs:35-39, 134-163 *)
Record cmargin := CMargin { max_positive : Len; min_negative : Len }.
Definition cm_zero : cmargin := CMargin l0 l0.
Definition cm_new (m : Len) : cmargin := CMargin (lmax m l0) (lmin m l0).
Definition cm_adjoin (a b : cmargin) : cmargin :=
  CMargin (lmax (max_positive a) (max_positive b)) (lmin (min_negative a) (min_negative b)).
Definition cm_solve (a : cmargin) : Len := max_positive a + min_negative a.

(** CollapsedBlockMargins, fragments.rs:28-33, 116-132 *)
Record cbmargins := CBMargins { cb_through : bool; cb_start : cmargin; cb_end : cmargin }.
Definition cb_from_margin (m : sides Len) : cbmargins :=
  CBMargins false (cm_new (s_block_start m)) (cm_new (s_block_end m)).
Definition cb_zero : cbmargins := CBMargins false cm_zero cm_zero.

(** BoxFragment::{padding_rect,border_rect,margin_rect}, fragments.rs:66-84, as functions of the
    fields they read (the full fragment type is in FragModel.v). *)
Definition padding_rect_of (content : rect Len) (padding : sides Len) : rect Len := inflate content padding.
Definition border_rect_of (content : rect Len) (padding border : sides Len) : rect Len :=
  inflate (inflate content padding) border.
Definition margin_rect_of (content : rect Len) (padding border margin : sides Len) : rect Len :=
  inflate (inflate (inflate content padding) border) margin.
End Any.
