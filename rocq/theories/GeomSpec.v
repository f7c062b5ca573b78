(** Specification for GeomModel: what the CSS Writing Modes table, the box model and the margin
    collapsing rule say. *)
From Coq Require Import Permutation.
From Verif Require Import GeomModel.
Local Open Scope len_scope.

(** The four physical sides by name. *)
Inductive side := Top | Right | Bottom | Left.
Definition opposite (s : side) : side :=
  match s with Top => Bottom | Bottom => Top | Left => Right | Right => Left end.
Definition named : psides side := PSides Top Left Bottom Right.
Definition pick {T} (s : psides T) (n : side) : T :=
  match n with Top => p_top s | Right => p_right s | Bottom => p_bottom s | Left => p_left s end.

(** css-writing-modes: block flow direction and line-left side. *)
Definition css_block_start (w : writing_mode) : side :=
  match w with
  | HorizontalTb => Top
  | VerticalRl | SidewaysRl => Right
  | VerticalLr | SidewaysLr => Left
  end.
(** The side lines start from for left-to-right content ("line-left"). *)
Definition css_line_left (w : writing_mode) : side :=
  match w with
  | HorizontalTb => Left
  | VerticalRl | SidewaysRl | VerticalLr => Top
  | SidewaysLr => Bottom
  end.
Definition css_inline_start (w : writing_mode) (d : direction) : side :=
  match d with Ltr => css_line_left w | Rtl => opposite (css_line_left w) end.

(** Edges of a rectangle. *)
Definition edge_is (r : rect Len) : Len := v_inline (r_start r).
Definition edge_ie (r : rect Len) : Len := v_inline (r_start r) + v_inline (r_size r).
Definition edge_bs (r : rect Len) : Len := v_block (r_start r).
Definition edge_be (r : rect Len) : Len := v_block (r_start r) + v_block (r_size r).
Definition rect_inside (a b : rect Len) : Prop :=
  edge_is b <= edge_is a /\ edge_ie a <= edge_ie b /\ edge_bs b <= edge_bs a /\ edge_be a <= edge_be b.
Definition nonneg_sides (s : sides Len) : Prop :=
  0 <= s_inline_start s /\ 0 <= s_inline_end s /\ 0 <= s_block_start s /\ 0 <= s_block_end s.
(** [b] is [a] grown by exactly [s] on each side. *)
Definition grown (a : rect Len) (s : sides Len) (b : rect Len) : Prop :=
  edge_is a - edge_is b = s_inline_start s /\ edge_ie b - edge_ie a = s_inline_end s /\
  edge_bs a - edge_bs b = s_block_start s /\ edge_be b - edge_be a = s_block_end s.

(** Margin collapsing (CSS 2.2, 8.3.1): the largest of the positive margins (0 if none) plus the
    smallest of the negative ones (0 if none). *)
Definition greatest (l : list Len) (m : Len) : Prop := In m l /\ forall x, In x l -> x <= m.
Definition least (l : list Len) (m : Len) : Prop := In m l /\ forall x, In x l -> m <= x.
Definition css_collapsed (l : list Len) (v : Len) : Prop :=
  exists p n, greatest (l0 :: l) p /\ least (l0 :: l) n /\ v = p + n.

(** Any grouping of adjoining margins. *)
Inductive grouping := GNone | GOne (m : Len) | GBoth (a b : grouping).
Fixpoint margins_of (g : grouping) : list Len :=
  match g with GNone => [] | GOne m => [m] | GBoth a b => margins_of a ++ margins_of b end.
Fixpoint collapse (g : grouping) : cmargin :=
  match g with GNone => cm_zero | GOne m => cm_new m | GBoth a b => cm_adjoin (collapse a) (collapse b) end.
