(** Model of painting, /repo/src/sinab/src/paint.rs, and of the entry point, /repo/src/sinab/src/test.rs and
    /repo/src/render_markdown.c.  Definitions only. *)
From Verif Require Import Base StyleModel GeomModel GfxModel InlineModel BlockModel TreeModel CStrModel DomModel DomSpec UnsetModel.
Local Open Scope len_scope.
Local Open Scope result_scope.

Section Any.
Context {ar : Arith}.

(* ------------------------------------------------------------------ *)
(** * Painting fragments *)

(** rect.to_physical(mode, containing_block).translate(&containing_block.top_left), paint.rs:42-45, 54-57, 81-103.
    ComputedValues::writing_mode is constant (properties/mod.rs:32-35). *)
Definition physical (r : rect Len) (containing_block : prect Len) : result (prect Len) :=
  do p <- rect_to_physical the_writing_mode r;
  Ok (prect_translate p (p_top_left containing_block)).
(** rdev.record_bbox(&rect) *)
(** Calls at paint.rs:46, 60, 105 *)
Definition bbox_call (r : prect Len) : dcall :=
  DBBox (px_ (p_top_left r)) (py_ (p_top_left r)) (px_ (p_size r)) (py_ (p_size r)).
(** The background, paint.rs:108-118 *)
Definition paint_background (st : style) (border_rect : prect Len) : list dcall :=
  let c := to_rgba st (sv st Lbackground_color) in
  if (0 <? N_of_ascii (c_alpha c))%N
  then [DRect (px_ (p_top_left border_rect)) (py_ (p_top_left border_rect))
              (px_ (p_size border_rect)) (py_ (p_size border_rect)) c]
  else [].
Definition not_none (s : line_style) : bool := match s with LSNone => false | _ => true end.
(** The top border, paint.rs:130-146 *)
Definition paint_top (st : style) (border_rect padding_rect : prect Len) : list dcall :=
  let width := py_ (p_top_left padding_rect) - py_ (p_top_left border_rect) in
  if lltb l0 width && not_none (sv st Lborder_top_style) then
    let x1 := px_ (p_top_left border_rect) in
    let y1 := py_ (p_top_left border_rect) + lhalf width in
    [DLine [(x1, y1); (x1 + px_ (p_size border_rect), y1)] (to_rgba st (sv st Lborder_top_color)) width (sv st Lborder_top_style)]
  else [].
(** The right border, paint.rs:123-124, 148-164 *)
Definition paint_right (st : style) (border_rect padding_rect : prect Len) : list dcall :=
  let width := px_ (p_top_left border_rect) + px_ (p_size border_rect)
               - px_ (p_top_left padding_rect) - px_ (p_size padding_rect) in
  if lltb l0 width && not_none (sv st Lborder_right_style) then
    let x1 := px_ (p_top_left border_rect) + (px_ (p_size border_rect) - lhalf width) in
    let y1 := py_ (p_top_left border_rect) in
    [DLine [(x1, y1); (x1, y1 + py_ (p_size border_rect))] (to_rgba st (sv st Lborder_right_color)) width (sv st Lborder_right_style)]
  else [].
(** The bottom border, paint.rs:125-126, 166-182 *)
Definition paint_bottom (st : style) (border_rect padding_rect : prect Len) : list dcall :=
  let width := py_ (p_top_left border_rect) + py_ (p_size border_rect)
               - py_ (p_top_left padding_rect) - py_ (p_size padding_rect) in
  if lltb l0 width && not_none (sv st Lborder_bottom_style) then
    let x1 := px_ (p_top_left border_rect) in
    let y1 := py_ (p_top_left border_rect) + (py_ (p_size border_rect) - lhalf width) in
    [DLine [(x1 + px_ (p_size border_rect), y1); (x1, y1)] (to_rgba st (sv st Lborder_bottom_color)) width (sv st Lborder_bottom_style)]
  else [].
(** The left border, paint.rs:127, 184-200 *)
Definition paint_left (st : style) (border_rect padding_rect : prect Len) : list dcall :=
  let width := px_ (p_top_left padding_rect) - px_ (p_top_left border_rect) in
  if lltb l0 width && not_none (sv st Lborder_left_style) then
    let x1 := px_ (p_top_left border_rect) + lhalf width in
    let y1 := py_ (p_top_left border_rect) in
    [DLine [(x1, y1 + py_ (p_size border_rect)); (x1, y1)] (to_rgba st (sv st Lborder_left_color)) width (sv st Lborder_left_style)]
  else [].

(** The calls of a loop over children, in order. *)
(** The loops at paint.rs:48-50, 194-196 *)
Definition each {A} (f : A -> result (list dcall)) : list A -> result (list dcall) :=
  fix go (l : list A) : result (list dcall) :=
    match l with
    | [] => Ok []
    | x :: l => do c <- f x; do cs <- go l; Ok (c ++ cs)
    end.

Section Painting.
(** The font of a style (Font::new_from_computed_values, font.rs:118-136). *)
Context (font_of : style -> font).
(** Fragment::paint_onto, paint.rs:35-75, and BoxFragment::paint_onto, paint.rs:79-205: the calls made on the
    render device.  A panic of to_physical loses the calls made before it here; it does not happen
    (PropPaint.C49_painting_never_fails). *)
Fixpoint paint (containing_block : prect Len) (f : fragment) : result (list dcall) :=
  match f with
  | FBox st children content padding border margin _ =>
      do margin_rect <- physical (margin_rect_of content padding border margin) containing_block;
      do border_rect <- physical (border_rect_of content padding border) containing_block;
      do padding_rect <- physical (padding_rect_of content padding) containing_block;
      do content_rect <- physical content containing_block;
      do cs <- each (paint content_rect) children;
      Ok (bbox_call margin_rect :: paint_background st border_rect ++
          paint_top st border_rect padding_rect ++ paint_right st border_rect padding_rect ++
          paint_bottom st border_rect padding_rect ++ paint_left st border_rect padding_rect ++ cs)
  | FAnon r children =>
      do rect <- physical r containing_block;
      do cs <- each (paint rect) children;
      Ok (bbox_call rect :: cs)
  | FText st content fo seg =>
      do rect <- physical content containing_block;
      Ok [bbox_call rect;
          GfxModel.DText (label_of (seg_glyphs seg)) (px_ (p_top_left rect)) (py_ (p_top_left rect) + f_ascent (font_of fo))
                (font_of fo) (sv st Lcolor)]
  end.
(** Document::paint_onto after the layout, paint.rs:13-30 *)
Definition paint_page (fragments : list fragment) (page_size : vec2 Len) : result (list dcall) :=
  let containing_block := PRect (PVec l0 l0) (PVec (v_inline page_size) (v_block page_size)) in
  each (paint containing_block) fragments.

(* ------------------------------------------------------------------ *)
(** * The entry point *)

(** How a rendering ends: returning, with a panic that catch_unwind stops (test.rs:30-36), or taking the process
    with it (abort, undefined behaviour, or an endless loop). *)
Inductive ending := Finished | Caught | Killed.

Context (width_of : style -> text -> Len).
Context (style_of : node_id -> option style -> style).
(** Document::paint_onto, paint.rs:11-31 up to the drawing, with Document::layout, root.rs:4-10: all the drawing
    calls, or how it fails before the first one.  SIMPLIFICATION: parsing (HTML and style sheets) and
    computing styles are not included; [style_of] is StyleModel.style_for_element. *)
Definition drawing_calls (d : doc) (root : dtree) (page_size : vec2 Len) : list dcall * ending :=
  match construct_document style_of d root with
  | Fatal => ([], Killed)
  | Panics => ([], Caught)
  | TreeModel.Done boxes =>
      match layout_root (fun st => f_ascent (font_of st)) (fun st => f_descent (font_of st)) width_of boxes page_size with
      | Ok fragments =>
          match paint_page fragments page_size with
          | Ok cs => (cs, Finished)
          | Panic => ([], Caught)
          | OutOfFuel => ([], Killed)
          end
      | Panic => ([], Caught)
      | OutOfFuel => ([], Killed)
      end
  end.
(** The calls carried out one after the other.  A panic leaves the device as it is: the one that can happen is in
    CString::new, the first thing draw_text does (renderer.rs:273). *)
Fixpoint carry_out (w : dworld) (cs : list dcall) : dworld * ending :=
  match cs with
  | [] => (w, Finished)
  | c :: cs =>
      match dstep w c with
      | GfxModel.Done w' => carry_out w' cs
      | RustPanic => (w, Caught)
      | _ => (w, Killed)
      end
  end.
(** sinab_test_renderer, test.rs:12-37, and C_render_markdown, render_markdown.c:9-29: the device starts empty with
    y0 = 0 and is released at the end if the process is still there.  [gw] holds the graphics contexts of the
    fonts. *)
Definition render_markdown (gw : gworld) (d : doc) (root : dtree) (page_size : vec2 Len)
  : option (GfxModel.outcome (list (option grob) * option (Len * Len * Len * Len))) :=
  let '(cs, e) := drawing_calls d root page_size in
  let '(w, e') := carry_out (DWorld (rdev_new l0) gw) cs in
  match e, e' with
  | Killed, _ | _, Killed => None
  | _, _ => Some (rdev_release (dw_dev w))
  end.
End Painting.
End Any.
