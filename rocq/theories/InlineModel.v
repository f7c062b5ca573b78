(** Model of inline layout: /repo/src/sinab/src/layout/flow/inline.rs, and the parts of
    /repo/src/sinab/src/layout/{fragments,positioned,mod}.rs it uses.  Definitions only. *)
From Verif Require Export Base Len GeomModel StyleModel.
From Verif Require Export GfxModel.
Local Open Scope len_scope.
Local Open Scope result_scope.

Section Any.
Context {ar : Arith}.

(* ------------------------------------------------------------------ *)
(** * Fragments *)

(** Fragment, BoxFragment, AnonymousFragment, TextFragment, layout/fragments.rs:4-54.
    SIMPLIFICATION: the [mode] fields are erased (ComputedValues::writing_mode is constant, properties/mod.rs:32-35).
    A font is identified with the style it was built from (Font::new_from_computed_values). *)
Inductive fragment :=
| FBox (st : style) (children : list fragment) (content : rect Len)
       (padding border margin : sides Len) (collapsed : cbmargins)
| FAnon (r : rect Len) (children : list fragment)
| FText (st : style) (content : rect Len) (font : style) (seg : segment).

(** start_corner.block += block *)
(** fragments.rs:171-177, flow/mod.rs:137, 154, inline.rs:361 *)
Definition shift_block (r : rect Len) (d : Len) : rect Len :=
  Rect (Vec2 (v_inline (r_start r)) (v_block (r_start r) + d)) (r_size r).
(** Fragment::translate_block, layout/fragments.rs:166-181 *)
Definition translate_block (d : Len) (f : fragment) : fragment :=
  match f with
  | FBox st c r p b m cm => FBox st c (shift_block r d) p b m cm
  | FAnon r c => FAnon (shift_block r d) c
  | FText st r fo sg => FText st (shift_block r d) fo sg
  end.
(** AnonymousFragment::no_op, layout/fragments.rs:56-64 *)
Definition anon_no_op : fragment := FAnon rect_zero [].

(** ContainingBlock, layout/mod.rs:94-98 (mode erased) *)
Record cblock := CBlock { cb_inline : Len; cb_block : la }.

(** FlowChildren, flow/mod.rs:40-44 *)
Record flow := Flow { fl_fragments : list fragment; fl_block_size : Len; fl_margins : cbmargins }.

(** AbsoluteBoxOffsets, layout/positioned.rs:26-32 *)
Inductive offsets :=
| OStatic (start : Len)
| OStart (start : lp Len)
| OEnd (end_ : lp Len)
| OBoth (start end_ : lp Len).

(** AbsolutelyPositionedFragment, layout/positioned.rs:9-24.  SIMPLIFICATION: the reference to the box is
    replaced by what is done with it: [af_layout] is AbsolutelyPositionedFragment::layout of that box
    (BlockModel.abs_layout), waiting for the two offsets, which change on the way up, and the size of the
    containing block.  The sizes inline_size, block_size are those of the box's style and live in [af_layout]. *)
Record abs_frag := AbsFrag {
  af_style : style;
  af_rank : nat;
  af_inline : offsets;
  af_block : offsets;
  af_layout : offsets -> offsets -> vec2 Len -> result fragment
}.

(** absolute_box_offsets, layout/positioned.rs:46-59 *)
Definition absolute_box_offsets (initial_static_start : Len) (start end_ : lpa Len) : offsets :=
  match lpa_non_auto start, lpa_non_auto end_ with
  | None, None => OStatic initial_static_start
  | Some s, Some e => OBoth s e
  | None, Some e => OEnd e
  | Some s, None => OStart s
  end.
(** AbsolutelyPositionedBox::layout, layout/positioned.rs:34-81 *)
Definition abs_box_layout (st : style) (lay : offsets -> offsets -> vec2 Len -> result fragment)
    (corner : vec2 Len) (rank : nat) : abs_frag :=
  let o := box_offsets st in
  AbsFrag st rank
    (absolute_box_offsets (v_inline corner) (s_inline_start o) (s_inline_end o))
    (absolute_box_offsets (v_block corner) (s_block_start o) (s_block_end o))
    lay.

(** relative_adjustement, layout/mod.rs:105-130 *)
Definition rel_adjust (start end_ : la) : Len :=
  match start, end_ with
  | LAAuto, LAAuto => l0
  | LAAuto, LALen e => - e
  | LALen s, _ => s
  end.
Definition relative_adjustement (st : style) (inline_size : Len) (block_size : la) : vec2 Len :=
  if is_relatively_positioned (sv st Lposition) then
    let bs := auto_is block_size l0 in
    let o := sides_map_axes (fun v => lpa_rel v inline_size) (fun v => lpa_rel v bs) (box_offsets st) in
    Vec2 (rel_adjust (s_inline_start o) (s_inline_end o)) (rel_adjust (s_block_start o) (s_block_end o))
  else vec2_zero.

(** Sides::percentages_relative_to, auto_is, geom.rs:236-252 *)
Definition sides_lp_rel (s : sides (lp Len)) (basis : Len) : sides Len := sides_map (fun v => lp_rel v basis) s.
Definition sides_lpa_rel (s : sides (lpa Len)) (basis : Len) : sides la := sides_map (fun v => lpa_rel v basis) s.
Definition sides_auto_is (s : sides la) (d : Len) : sides Len := sides_map (fun v => auto_is v d) s.

(* ------------------------------------------------------------------ *)
(** * Inline boxes *)

(** InlineLevelBox, InlineBox, TextRun, inline.rs:11-38.  [C] is the type of the contents of out-of-flow
    boxes.  Atomic cannot be constructed (ReplacedContent is empty, replaced.rs) and is left out. *)
Inductive ilb (C : Type) :=
| InlineBox (st : style) (first_fragment last_fragment : bool) (children : list (ilb C))
| TextRun (st : style) (t : text) (font : style)
| IAbspos (st : style) (contents : C)
| IFloat (st : style) (contents : C).
Arguments InlineBox {C}. Arguments TextRun {C}. Arguments IAbspos {C}. Arguments IFloat {C}.

(** Change the contents of the out-of-flow boxes; not in the code, used by BlockModel to tie the knot. *)
(** No function of the code, see above *)
Definition ilb_map {A B} (f : style -> A -> B) : ilb A -> ilb B :=
  fix go (b : ilb A) : ilb B :=
    match b with
    | InlineBox st fi la_ ch => InlineBox st fi la_ (map go ch)
    | TextRun st t fo => TextRun st t fo
    | IAbspos st c => IAbspos st (f st c)
    | IFloat st c => IFloat st (f st c)
    end.

(** InlineNestingLevelState, inline.rs:40-64.  SIMPLIFICATION: remaining_boxes is kept in a separate stack,
    parallel to the stack of partial boxes (see [ifc_loop]). *)
Record level := Level {
  lv_fragments : list fragment;
  lv_inline_start : Len;
  lv_ascent : Len;
  lv_descent : Len;
  lv_ex : Len;
  lv_baseline : Len;
  lv_max_ascent : Len;
  lv_max_descent : Len
}.
(** PartialInlineBoxFragment, inline.rs:66-76 *)
Record partial := Partial {
  pt_style : style;
  pt_start : vec2 Len;
  pt_padding : sides Len;
  pt_border : sides Len;
  pt_margin : sides Len;
  pt_ascent : Len;
  pt_descent : Len;
  pt_last : bool;
  pt_parent : level
}.
(** LinesBoxes, inline.rs:89-92 *)
Record lines := Lines { ln_boxes : list fragment; ln_next : Len }.
(** InlineFormattingContextState, inline.rs:78-87; the containing block and text_align do not change and are
    passed separately; [is_stack] has the innermost partial box first; [is_abs] is the vector
    absolutely_positioned_fragments, passed by mutable reference. *)
Record ifc := Ifc {
  is_lines : lines;
  is_pos : Len;
  is_stack : list partial;
  is_cur : level;
  is_abs : list abs_frag
}.

Definition set_pos (s : ifc) (p : Len) : ifc := Ifc (is_lines s) p (is_stack s) (is_cur s) (is_abs s).
Definition set_cur (s : ifc) (l : level) : ifc := Ifc (is_lines s) (is_pos s) (is_stack s) l (is_abs s).
Definition push_fragment (l : level) (f : fragment) : level :=
  Level (lv_fragments l ++ [f]) (lv_inline_start l) (lv_ascent l) (lv_descent l) (lv_ex l) (lv_baseline l)
        (lv_max_ascent l) (lv_max_descent l).
(** max_block_{ascent,descent}_of_fragments_so_far.max_assign(..) *)
(** inline.rs:391-396, 466-479, 535-548 *)
Definition max_assign (l : level) (asc desc : Len) : level :=
  Level (lv_fragments l) (lv_inline_start l) (lv_ascent l) (lv_descent l) (lv_ex l) (lv_baseline l)
        (lmax (lv_max_ascent l) asc) (lmax (lv_max_descent l) desc).
(** take(fragments_so_far), inline_start = 0, max ascent and descent = 0: what is left of a level at a line end *)
(** inline.rs:205-207, 214, 256-263, 279, 365 *)
Definition level_next_line (l : level) : level :=
  Level [] l0 (lv_ascent l) (lv_descent l) (lv_ex l) (lv_baseline l) l0 l0.
(** inline.rs:209-211, 311-313 *)
Definition zero_inline_start (s : sides Len) : sides Len := Sides l0 (s_inline_end s) (s_block_start s) (s_block_end s).
(** inline.rs:387-389 *)
Definition zero_inline_end (s : sides Len) : sides Len := Sides (s_inline_start s) l0 (s_block_start s) (s_block_end s).

Section Metrics.

(** What the R graphics device answers: font ascent and descent and advance widths (Font::get_ascent,
    get_descent, string_metrics; graphics_engine/font.rs:60-100), per style the font is built from. *)
Variable m_ascent : style -> Len.
Variable m_descent : style -> Len.
Variable m_width : style -> text -> Len.

(** Font::get_ex, graphics_engine/font.rs:97 *)
Definition font_ex (st : style) : Len := sv st Lfont_size * px (1#2).

(** calculate_line_ascent_descent, inline.rs:572-580 *)
Definition line_height (st : style) : Len := lpn_rel (sv st Lline_height) (sv st Lfont_size).
Definition line_ascent_descent (st font : style) : Len * Len :=
  let leading := line_height st - (m_ascent font + m_descent font) in
  (m_ascent font + lhalf leading, m_descent font + lhalf leading).
(** calculate_baseline_shift, inline.rs:582-622 *)
Definition baseline_shift (st : style) (asc desc : Len) (parent : level) : Len :=
  match sv st Lvertical_align with
  | VASub => lv_ascent parent * px (1#2)
  | VASuper => (- lv_ascent parent) * px (1#2)
  | VAMiddle => lv_ex parent * px (-1#2) + (asc + desc) - asc
  | VALen l => - l
  | VAPct p => (- line_height st) * p
  | _ => l0
  end.

(** PartialInlineBoxFragment::finish_layout, inline.rs:352-400: the partial with its parent level updated, and
    the new inline position.  The nested level's fragments are taken (see callers). *)
Definition finish_layout (p : partial) (lv : level) (pos : Len) (at_line_break : bool) : partial * Len :=
  let start := Vec2 (v_inline (pt_start p)) (v_block (pt_start p) + (lv_ascent (pt_parent p) - pt_ascent p)) in
  let content := Rect start (Vec2 (pos - lv_inline_start lv) (pt_ascent p + pt_descent p)) in
  let last := pt_last p && negb at_line_break in
  let pos' := if last then pos + (s_inline_end (pt_padding p) + s_inline_end (pt_border p) + s_inline_end (pt_margin p))
              else pos in
  let e := fun s : sides Len => if last then s else zero_inline_end s in
  let f := FBox (pt_style p) (lv_fragments lv) content
             (e (pt_padding p)) (e (pt_border p)) (e (pt_margin p)) cb_zero in
  let parent := push_fragment (max_assign (pt_parent p) (lv_max_ascent lv) (lv_max_descent lv)) f in
  (Partial (pt_style p) (pt_start p) (pt_padding p) (pt_border p) (pt_margin p) (pt_ascent p) (pt_descent p)
     (pt_last p) parent, pos').

(** LinesBoxes::finish_line, inline.rs:229-284 *)
Definition align_fraction (a : text_align) : Len :=
  match a with TALeft => px 0 | TARight => px 1 | TACenter => px (1#2) | TAJustify => px 0 | TAPct p => p end.
Definition lines_finish (ls : lines) (top : level) (cbis pos : Len) (ta : text_align) : lines :=
  let start := Vec2 ((cbis - pos) * align_fraction ta) (ln_next ls) in
  let size := Vec2 cbis (lv_max_ascent top + lv_max_descent top) in
  let adj := lv_max_ascent top - lv_ascent top in
  Lines (ln_boxes ls ++ [FAnon (Rect start size) (map (translate_block adj) (lv_fragments top))])
        (ln_next ls + v_block size).

(** Loop over the open boxes, innermost first, inline.rs:202-213: [lv] is the level inside the first of them.
    Result: the updated partials and the finished outermost level. *)
Definition partial_next_line (p : partial) : partial :=
  Partial (pt_style p) (Vec2 l0 (v_block (pt_start p))) (zero_inline_start (pt_padding p))
    (zero_inline_start (pt_border p)) (zero_inline_start (pt_margin p)) (pt_ascent p) (pt_descent p)
    (pt_last p) (pt_parent p).
Fixpoint finish_partials (stack : list partial) (lv : level) (pos : Len) : list partial * level * Len :=
  match stack with
  | [] => ([], lv, pos)
  | p :: rest =>
      let '(p1, pos1) := finish_layout p lv pos true in
      let '(rest', top, pos2) := finish_partials rest (pt_parent p1) pos1 in
      let p2 := partial_next_line p1 in
      (* the parent level is reset when the next partial, or the line, is finished *)
      (Partial (pt_style p2) (pt_start p2) (pt_padding p2) (pt_border p2) (pt_margin p2) (pt_ascent p2)
         (pt_descent p2) (pt_last p2) (level_next_line (pt_parent p1)) :: rest', top, pos2)
  end.
(** InlineFormattingContextState::finish_line, inline.rs:198-226.  All levels, the current one included, end up
    reset: the inner ones at 205-207 and by the take in finish_layout, the outermost at 214, 256-263 and 279. *)
Definition finish_line (cb : cblock) (ta : text_align) (s : ifc) : ifc :=
  let '(stack, top, pos) := finish_partials (is_stack s) (is_cur s) (is_pos s) in
  Ifc (lines_finish (is_lines s) top (cb_inline cb) pos ta) l0 stack (level_next_line (is_cur s)) (is_abs s).

(** InlineBox::start_layout, inline.rs:286-349, and the push of the partial box, inline.rs:138 *)
Definition start_layout (cb : cblock) (st : style) (first last : bool) (s : ifc) : ifc :=
  let asc := m_ascent st in
  let desc := m_descent st in
  let shift := baseline_shift st asc desc (is_cur s) in
  let cbis := cb_inline cb in
  let e := fun x : sides Len => if first then x else zero_inline_start x in
  let padding := e (sides_lp_rel (style_padding st) cbis) in
  let border := e (sides_lp_rel (style_border_width st) cbis) in
  let margin := e (sides_auto_is (sides_lpa_rel (style_margin st) cbis) l0) in
  let pos := if first then is_pos s + (s_inline_start padding + s_inline_start border + s_inline_start margin)
             else is_pos s in
  let start := vec2_add (Vec2 (pos - lv_inline_start (is_cur s)) shift)
                 (relative_adjustement st cbis (cb_block cb)) in
  Ifc (is_lines s) pos
    (Partial st start padding border margin asc desc last (is_cur s) :: is_stack s)
    (Level [] pos asc desc (font_ex st) (lv_baseline (is_cur s) + shift) l0 l0)
    (is_abs s).

(** A text fragment of [shaped] is added to the current line: the bookkeeping common to layout_wrap and
    layout_nowrap, inline.rs:451-490 and 520-556 *)
Definition add_text (st font : style) (shaped : segment) (newline : bool) (s : ifc) : ifc :=
  let '(w, shaped) := seg_advance (m_width font) shaped in
  let '(la_, ld) := line_ascent_descent st font in
  let r := Rect (Vec2 (is_pos s - lv_inline_start (is_cur s)) l0) (Vec2 w (la_ + ld)) in
  let cur := if negb (seg_empty shaped) || newline
             then max_assign (is_cur s) (la_ - lv_baseline (is_cur s)) (ld + lv_baseline (is_cur s))
             else is_cur s in
  if negb (seg_empty shaped)
  then Ifc (is_lines s) (is_pos s + w) (is_stack s) (push_fragment cur (FText st r font shaped)) (is_abs s)
  else set_cur s cur.

(** matches!(next, Some(' ') | Some('\n') | Some('-') | None), inline.rs:421 *)
Definition is_break_char (c : char) : bool := ((c =? sp) || (c =? nl) || (c =? hyphen))%N.

Definition of_outcome {A} (o : outcome A) : result A := match o with Done a => Ok a | _ => Panic end.

(** The loop over the text within a line, inline.rs:419-450: the shaped text, the remaining chars, whether a
    newline ended the line.  last_break_opportunity is not returned: the caller resets it or is done. *)
Definition break_here (shaped : segment) (rest : text) (last_break : option (seg_state * text))
    : result (segment * text * bool) :=
  match last_break with
  | Some (state, iter) => do sh <- of_outcome (seg_restore shaped state); Ok (sh, iter, false)
  | None => Ok (shaped, rest, false)
  end.
Fixpoint wrap_line (font : style) (available : Len) (chars : text) (shaped : segment)
    (last_break : option (seg_state * text)) : result (segment * text * bool) :=
  match chars with
  | [] =>
      let '(w, shaped) := seg_advance (m_width font) shaped in
      if lltb available w then break_here shaped [] last_break
      else Ok (shaped, [], false)
  | ch :: rest =>
      let '(over, shaped) :=
        if is_break_char ch
        then let '(w, sh) := seg_advance (m_width font) shaped in (lltb available w, sh)
        else (false, shaped) in
      if over then break_here shaped rest last_break
      else if (ch =? nl)%N then Ok (seg_strip_space shaped, rest, true)
      else
        let last_break := if (ch =? sp)%N then Some (seg_save shaped, rest) else last_break in
        let shaped := seg_append_char shaped ch in
        let last_break := if (ch =? hyphen)%N then Some (seg_save shaped, rest) else last_break in
        wrap_line font available rest shaped last_break
  end.
(** TextRun::layout_wrap, inline.rs:412-499; [shaped] survives an iteration only when it is empty *)
Fixpoint wrap_loop (fuel : nat) (cb : cblock) (ta : text_align) (st font : style) (chars : text)
    (shaped : segment) (last_break : option (seg_state * text)) (s : ifc) : result ifc :=
  match fuel with
  | O => OutOfFuel
  | S fuel' =>
      do (shaped, chars, newline) <- wrap_line font (cb_inline cb - is_pos s) chars shaped last_break;
      let s := add_text st font shaped newline s in
      if negb (match chars with [] => true | _ => false end) || newline
      then wrap_loop fuel' cb ta st font chars
             (if seg_empty shaped then snd (seg_advance (m_width font) shaped) else seg_new) None (finish_line cb ta s)
      else Ok s
  end.
Definition layout_wrap (cb : cblock) (ta : text_align) (st font : style) (t : text) (s : ifc) : result ifc :=
  wrap_loop (S (S (List.length t))) cb ta st font t seg_new (Some (seg_save seg_new, t)) s.

(** The loop over the chars of one line, inline.rs:507-519 *)
Fixpoint nowrap_line (chars : text) (shaped : segment) : segment * text * bool :=
  match chars with
  | [] => (shaped, [], false)
  | ch :: rest => if (ch =? nl)%N then (shaped, rest, true) else nowrap_line rest (seg_append_char shaped ch)
  end.
(** TextRun::layout_nowrap, inline.rs:502-564 *)
Fixpoint nowrap_loop (fuel : nat) (cb : cblock) (ta : text_align) (st font : style) (chars : text) (s : ifc) : result ifc :=
  match fuel with
  | O => OutOfFuel
  | S fuel' =>
      let '(shaped, chars, newline) := nowrap_line chars seg_new in
      let s := add_text st font shaped newline s in
      if negb (match chars with [] => true | _ => false end) || newline
      then nowrap_loop fuel' cb ta st font chars (finish_line cb ta s)
      else Ok s
  end.
(** TextRun::layout, inline.rs:404-409 *)
Definition text_run_layout (cb : cblock) (ta : text_align) (st font : style) (t : text) (s : ifc) : result ifc :=
  match sv st Lwhite_space with
  | WSNowrap | WSPre => nowrap_loop (S (List.length t)) cb ta st font t s
  | _ => layout_wrap cb ta st font t s
  end.

(** The static position of an absolutely positioned box met in inline content, inline.rs:145-161 *)
Definition inline_static_corner (st : style) (s : ifc) : result (vec2 Len) :=
  match s_specified_display st with
  | DispBox OInline _ => Ok (Vec2 (is_pos s) (ln_next (is_lines s)))
  | DispBox OBlock _ => Ok (Vec2 l0 (ln_next (is_lines s)))
  | DispContents | DispNone => Panic
  end.
Definition push_abs (s : ifc) (a : abs_frag) : ifc :=
  Ifc (is_lines s) (is_pos s) (is_stack s) (is_cur s) (is_abs s ++ [a]).

(** What an out-of-flow box inside inline content is given as contents here: its later layout. *)
(** The layout done later by AbsolutelyPositionedFragment::layout, positioned.rs:114-303 *)
Definition abs_lay : Type := offsets -> offsets -> vec2 Len -> result fragment.

(** The loop of InlineFormattingContext::layout, inline.rs:133-192.  [rems] are the remaining_boxes of the
    current level and of the parents of the partial boxes, innermost first. *)
Fixpoint ifc_loop (fuel : nat) (cb : cblock) (ta : text_align) (rank : nat) (rems : list (list (ilb abs_lay)))
    (s : ifc) : result ifc :=
  match fuel with
  | O => OutOfFuel
  | S fuel' =>
      match hd [] rems with
      | child :: rest =>
          match child with
          | InlineBox st first last children =>
              ifc_loop fuel' cb ta rank (children :: rest :: tl rems) (start_layout cb st first last s)
          | TextRun st t font =>
              do s1 <- text_run_layout cb ta st font t s;
              ifc_loop fuel' cb ta rank (rest :: tl rems) s1
          | IAbspos st lay =>
              do corner <- inline_static_corner st s;
              ifc_loop fuel' cb ta rank (rest :: tl rems) (push_abs s (abs_box_layout st lay corner rank))
          | IFloat _ _ => ifc_loop fuel' cb ta rank (rest :: tl rems) s
          end
      | [] =>
          match is_stack s with
          | p :: stack =>
              let '(p1, pos) := finish_layout p (is_cur s) (is_pos s) false in
              ifc_loop fuel' cb ta rank (tl rems) (Ifc (is_lines s) pos stack (pt_parent p1) (is_abs s))
          | [] => Ok (finish_line cb ta s)
          end
      end
  end.

(** Number of iterations of the loop: one per box, one more per inline box to close it. *)
(** No function of the code: the length of the loop at inline.rs:133-193 *)
Fixpoint ilb_steps {C} (b : ilb C) : nat :=
  match b with
  | InlineBox _ _ _ ch => S (S (list_sum (map ilb_steps ch)))
  | _ => 1
  end.
(** No function of the code: the length of the loop at inline.rs:133-193 *)
Definition boxes_steps {C} (l : list (ilb C)) : nat := list_sum (map ilb_steps l).

(** InlineFormattingContext::layout, inline.rs:102-193 *)
Definition ifc_start (parent : style) (abs : list abs_frag) : ifc :=
  Ifc (Lines [] l0) l0 []
    (Level [] l0 (m_ascent parent) (m_descent parent) (font_ex parent) l0 l0 l0) abs.
Definition ifc_layout (parent : style) (boxes : list (ilb abs_lay)) (cb : cblock) (rank : nat) (abs : list abs_frag)
    : result (flow * list abs_frag) :=
  do s <- ifc_loop (S (boxes_steps boxes)) cb (sv parent Ltext_align) rank [boxes] (ifc_start parent abs);
  Ok (Flow (ln_boxes (is_lines s)) (ln_next (is_lines s)) cb_zero, is_abs s).

End Metrics.
End Any.
Arguments InlineBox {ar C}. Arguments TextRun {ar C}. Arguments IAbspos {ar C}. Arguments IFloat {ar C}.
