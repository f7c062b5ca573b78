(** Model of block layout and of positioned layout: /repo/src/sinab/src/layout/flow/mod.rs,
    layout/positioned.rs and the layout half of layout/flow/root.rs.  Definitions only. *)
From Verif Require Export InlineModel.
Local Open Scope len_scope.
Local Open Scope result_scope.

Section Any.
Context {ar : Arith}.

(* ------------------------------------------------------------------ *)
(** * The box tree *)

(** BlockLevelBox, BlockContainer, BlockFormattingContext, flow/mod.rs:14-38; AbsolutelyPositionedBox,
    positioned.rs:3-7; FloatBox, float.rs:3-7; InlineFormattingContext, inline.rs:5-9.
    IndependentFormattingContext (layout/mod.rs:26-32) has one inhabited constructor, Flow, and is identified
    with its BlockFormattingContext: ReplacedContent is an empty type (replaced.rs). *)
Inductive blb :=
| SameFC (st : style) (contents : bcontainer)
| BAbspos (st : style) (contents : bfc)
| BFloat (st : style) (contents : bfc)
| Indep (st : style) (contents : bfc)
with bcontainer :=
| BlockLevelBoxes (boxes : list blb)
| InlineFC (parent_style : style) (boxes : list (ilb bfc))
with bfc :=
| BFC (contains_floats : bool) (contents : bcontainer).

(* ------------------------------------------------------------------ *)
(** * Placement of block-level fragments *)

(** PlacementState, flow/mod.rs:161-166 *)
Record placement := Placement {
  pl_collapses : bool;   (* next_in_flow_margin_collapses_with_parent_start_margin *)
  pl_start : cmargin;    (* start_margin *)
  pl_margin : cmargin;   (* current_margin *)
  pl_pos : Len           (* current_block_direction_position *)
}.
(** flow/mod.rs:169-175 *)
Definition placement_start (collapsible : bool) : placement := Placement collapsible cm_zero cm_zero l0.

(** place_block_level_fragment, flow/mod.rs:112-159 *)
Definition place (f : fragment) (s : placement) : result (fragment * placement) :=
  match f with
  | FBox st ch r p b m cm =>
      let size := block_sum p + block_sum b + v_block (r_size r) in
      (* lines 137-148 *)
      let rest := fun s : placement =>
        let f1 := FBox st ch (shift_block r (cm_solve (pl_margin s) + pl_pos s)) p b m cm in
        if cb_through cm
        then Ok (f1, Placement (pl_collapses s) (pl_start s) (cm_adjoin (pl_margin s) (cb_end cm)) (pl_pos s))
        else Ok (f1, Placement (pl_collapses s) (pl_start s) (cb_end cm)
                       (pl_pos s + (cm_solve (pl_margin s) + size))) in
      if pl_collapses s then
        if leqb (cm_solve (pl_margin s)) l0 then
          let start := cm_adjoin (pl_start s) (cb_start cm) in
          if cb_through cm
          then Ok (f, Placement true (cm_adjoin start (cb_end cm)) (pl_margin s) (pl_pos s))
          else rest (Placement false start (pl_margin s) (pl_pos s))
        else Panic
      else rest (Placement false (pl_start s) (cm_adjoin (pl_margin s) (cb_start cm)) (pl_pos s))
  | FAnon r ch =>
      match ch with
      | [] => if leqb (v_block (r_size r)) l0 then Ok (FAnon (shift_block r (pl_pos s)) [], s) else Panic
      | _ :: _ => Panic
      end
  | FText _ _ _ _ => Panic
  end.

(* ------------------------------------------------------------------ *)
(** * Absolutely positioned fragments on their way up *)

(** The update of a StaticStart offset, positioned.rs:319-325 *)
Definition shift_static (d : Len) (o : offsets) : offsets :=
  match o with OStatic s => OStatic (s + d) | _ => o end.
(** The rectangle read at positioned.rs:311-315 *)
Definition frag_rect (f : fragment) : result (rect Len) :=
  match f with FBox _ _ r _ _ _ _ => Ok r | FAnon r _ => Ok r | FText _ _ _ _ => Panic end.
(** One iteration of adjust_static_positions, positioned.rs:310-326; an index out of range panics *)
Definition adjust_one (fragments : list fragment) (rank : nat) (a : abs_frag) : result abs_frag :=
  match nth_error fragments (af_rank a) with
  | None => Panic
  | Some f =>
      do r <- frag_rect f;
      Ok (AbsFrag (af_style a) rank (shift_static (v_inline (r_start r)) (af_inline a))
            (shift_static (v_block (r_start r)) (af_block a)) (af_layout a))
  end.
(** adjust_static_positions, positioned.rs:305-327, on absolutely_positioned_fragments[abspos_so_far..] *)
Definition adjust_static_positions (so_far : nat) (abs : list abs_frag) (fragments : list fragment) (rank : nat)
    : result (list abs_frag) :=
  do late <- mapR (adjust_one fragments rank) (skipn so_far abs);
  Ok (firstn so_far abs ++ late).

(** AbsolutelyPositionedFragment::in_positioned_containing_block, positioned.rs:84-112: the fragments with, if
    there are absolutely positioned ones, one more that contains them *)
Definition in_positioned_containing_block (abs : list abs_frag) (fragments : list fragment)
    (size : vec2 Len) (padding : sides Len) : result (list fragment) :=
  match abs with
  | [] => Ok fragments
  | _ =>
      let padding_rect := inflate (Rect vec2_zero size) padding in
      do fs <- mapR (fun a => af_layout a (af_inline a) (af_block a) (r_size padding_rect)) abs;
      Ok (fragments ++ [FAnon padding_rect fs])
  end.

(* ------------------------------------------------------------------ *)
(** * In-flow blocks *)

(** The inline margins, flow/mod.rs:310-334 *)
Definition solve_inline_margins (cbis : Len) (inline_size : la) (pb : sides Len) (m : sides la) : sides la :=
  match inline_size with
  | LAAuto => m
  | LALen is =>
      let free := cbis - is - inline_sum pb in
      let '(s, e) :=
        match s_inline_start m, s_inline_end m with
        | LAAuto, LAAuto => (LALen (lhalf free), LALen (lhalf free))
        | LAAuto, e => (LALen free, e)
        | s, LAAuto => (s, LALen free)
        | s, _ => (s, LALen free)
        end in
      Sides s e (s_block_start m) (s_block_end m)
  end.

(** box_size.block, flow/mod.rs:337-341 *)
Definition used_block_size (h : lpa Len) (cb : cblock) : la :=
  match h with
  | LPALen l => LALen l
  | LPAPct p => match cb_block cb with LALen b => LALen (b * p) | LAAuto => LAAuto end
  | LPAAuto => LAAuto
  end.
Definition la_is_auto (v : la) : bool := match v with LAAuto => true | LALen _ => false end.

(** layout_in_flow_non_replaced_block_level, flow/mod.rs:292-431, in parts.  [same] is block_level_kind ==
    SameFormattingContextBlock.  The assertion on writing modes (348-351) holds: ComputedValues::writing_mode is
    constant. *)
Section InFlow.
Variable cb : cblock.
Variable st : style.
Variable same : bool.
(** lines 303-308 *)
Definition if_padding : sides Len := sides_lp_rel (style_padding st) (cb_inline cb).
Definition if_border : sides Len := sides_lp_rel (style_border_width st) (cb_inline cb).
Definition if_pb : sides Len := sides_add if_padding if_border.
(** lines 306, 309-334 *)
Definition if_computed_inline_size : la := lpa_rel (v_inline (box_size st)) (cb_inline cb).
Definition if_margin : sides Len :=
  sides_auto_is
    (solve_inline_margins (cb_inline cb) if_computed_inline_size if_pb (sides_lpa_rel (style_margin st) (cb_inline cb))) l0.
(** lines 336-346 *)
Definition if_inline_size : Len := auto_is if_computed_inline_size (cb_inline cb - inline_sum if_pb - inline_sum if_margin).
Definition if_block_size : la := used_block_size (v_block (box_size st)) cb.
Definition if_children_cb : cblock := CBlock if_inline_size if_block_size.
(** lines 352-361 *)
Definition if_start_collapse : bool := same && leqb (s_block_start if_pb) l0.
Definition if_end_collapse : bool := same && leqb (s_block_end if_pb) l0 && la_is_auto if_block_size.
(** line 382: the end margin of the children after std::mem::replace *)
Definition if_child_end (cm : cbmargins) : cmargin := if if_start_collapse && cb_through cm then cm_zero else cb_end cm.
(** lines 335, 372-400 *)
Definition if_margins (cm : cbmargins) : cbmargins :=
  let own := cb_from_margin if_margin in
  CBMargins
    (if_start_collapse && if_end_collapse && cb_through cm)
    (if if_start_collapse
     then let s := cm_adjoin (cb_start own) (cb_start cm) in
          if cb_through cm then cm_adjoin s (cb_end cm) else s
     else cb_start own)
    (if if_end_collapse then cm_adjoin (cb_end own) (if_child_end cm) else cb_end own).
(** lines 388-394, 402 *)
Definition if_height (fl : flow) : Len :=
  auto_is if_block_size
    (if if_end_collapse then fl_block_size fl else fl_block_size fl + cm_solve (if_child_end (fl_margins fl))).
(** lines 401-412 *)
Definition if_content (fl : flow) : rect Len :=
  let adj := relative_adjustement st if_inline_size if_block_size in
  Rect (Vec2 (s_inline_start if_pb + v_inline adj + s_inline_start if_margin) (s_block_start if_pb + v_block adj))
       (Vec2 if_inline_size (if_height fl)).
(** lines 362-371, 413-431; [lay] is layout_contents *)
Definition layout_in_flow (abs : list abs_frag)
    (lay : cblock -> list abs_frag -> bool -> result (flow * list abs_frag)) : result (fragment * list abs_frag) :=
  let relative := is_relatively_positioned (sv st Lposition) in
  do (fl, abs1) <- lay if_children_cb (if relative then [] else abs) if_start_collapse;
  do children <- (if relative then in_positioned_containing_block abs1 (fl_fragments fl) (r_size (if_content fl)) if_padding
                  else Ok (fl_fragments fl));
  Ok (FBox st children (if_content fl) if_padding if_border if_margin (if_margins (fl_margins fl)),
      if relative then abs else abs1).
End InFlow.

(* ------------------------------------------------------------------ *)
(** * Absolutely positioned boxes *)

(** Anchor, positioned.rs:124-127 *)
Inductive anchor := AStart (l : Len) | AEnd (l : Len).
(** solve_axis, positioned.rs:129-200 *)
Definition solve_axis (containing pb_sum : Len) (m_start m_end : la) (solve_margins : Len -> Len * Len)
    (o : offsets) (size : lpa Len) : anchor * la * Len * Len :=
  let size := lpa_rel size containing in
  match o with
  | OStatic s => (AStart s, size, auto_is m_start l0, auto_is m_end l0)
  | OStart s => (AStart (lp_rel s containing), size, auto_is m_start l0, auto_is m_end l0)
  | OEnd e => (AEnd (lp_rel e containing), size, auto_is m_start l0, auto_is m_end l0)
  | OBoth s e =>
      let s := lp_rel s containing in
      let e := lp_rel e containing in
      match size with
      | LALen size =>
          let margins := containing - s - e - pb_sum - size in
          let '(ms, me) :=
            match m_start, m_end with
            | LAAuto, LAAuto => solve_margins margins
            | LAAuto, LALen e => (margins - e, e)
            | LALen s, LAAuto => (s, margins - s)
            | LALen s, LALen e => (s, e)
            end in
          (AStart s, LALen size, ms, me)
      | LAAuto =>
          let ms := auto_is m_start l0 in
          let me := auto_is m_end l0 in
          (AStart s, LALen (containing - s - e - pb_sum - ms - me), ms, me)
      end
  end.

(** The closures at positioned.rs:207-213 and 223 *)
Definition solve_margins_inline (margins : Len) : Len * Len :=
  if lleb l0 margins then (lhalf margins, lhalf margins) else (l0, margins).
Definition solve_margins_block (margins : Len) : Len * Len := (lhalf margins, lhalf margins).

(** AbsolutelyPositionedFragment::layout, positioned.rs:114-302, of a box with style [st] whose contents are laid
    out by [lay] (with tree rank 0 and no absolutely positioned fragments yet).  The block axis is solved against
    the inline size (line 219), and an inline end anchor counts from the block size (line 265): as in the code. *)
Definition abs_layout (st : style) (lay : cblock -> result (flow * list abs_frag))
    (o_inline o_block : offsets) (size : vec2 Len) : result fragment :=
  let cbis := v_inline size in
  let cbbs := v_block size in
  let padding := sides_lp_rel (style_padding st) cbis in
  let border := sides_lp_rel (style_border_width st) cbis in
  let cm := sides_lpa_rel (style_margin st) cbis in
  let pb := sides_add padding border in
  let '(i_anchor, i_size, m_is, m_ie) :=
    solve_axis cbis (inline_sum pb) (s_inline_start cm) (s_inline_end cm) solve_margins_inline
      o_inline (v_inline (box_size st)) in
  let '(b_anchor, b_size, m_bs, m_be) :=
    solve_axis cbis (block_sum pb) (s_block_start cm) (s_block_end cm) solve_margins_block
      o_block (v_block (box_size st)) in
  let margin := Sides m_is m_ie m_bs m_be in
  let i_size := auto_is i_size
    match i_anchor with
    | AStart s => cbis - s - inline_sum pb - inline_sum margin
    | AEnd e => cbis - e - inline_sum pb - inline_sum margin
    end in
  do (fl, abs) <- lay (CBlock i_size b_size);
  let i_start := match i_anchor with
    | AStart s => s + s_inline_start pb + s_inline_start margin
    | AEnd e => cbbs - e - s_inline_end pb - s_inline_end margin - i_size
    end in
  let b_size := auto_is b_size (fl_block_size fl) in
  let b_start := match b_anchor with
    | AStart s => s + s_block_start pb + s_block_start margin
    | AEnd e => cbbs - e - s_block_end pb - s_block_end margin - b_size
    end in
  let content := Rect (Vec2 i_start b_start) (Vec2 i_size b_size) in
  do children <- in_positioned_containing_block abs (fl_fragments fl) (r_size content) padding;
  Ok (FBox st children content padding border margin cb_zero).

(* ------------------------------------------------------------------ *)
(** * Block containers *)

(** Layout of one block-level box, waiting for its containing block, tree rank, the absolutely positioned
    fragments so far and whether there is a float context.  FloatContext has no data (float.rs:9-18). *)
Definition blb_lay : Type := cblock -> nat -> list abs_frag -> bool -> result (fragment * list abs_frag).

(** The loop with floats, flow/mod.rs:181-194: lay out and place each box in turn *)
Fixpoint children_floats (boxes : list blb_lay) (cb : cblock) (rank : nat) (abs : list abs_frag) (s : placement)
    : result (list fragment * list abs_frag * placement) :=
  match boxes with
  | [] => Ok ([], abs, s)
  | b :: bs =>
      do (f, abs1) <- b cb rank abs true;
      do (f1, s1) <- place f s;
      do (fs, abs2, s2) <- children_floats bs cb (S rank) abs1 s1;
      Ok (f1 :: fs, abs2, s2)
  end.
(** The loops without, flow/mod.rs:196-207 and 208-210 *)
Fixpoint children_layout (boxes : list blb_lay) (cb : cblock) (rank : nat) (abs : list abs_frag)
    : result (list fragment * list abs_frag) :=
  match boxes with
  | [] => Ok ([], abs)
  | b :: bs =>
      do (f, abs1) <- b cb rank abs false;
      do (fs, abs2) <- children_layout bs cb (S rank) abs1;
      Ok (f :: fs, abs2)
  end.
Fixpoint place_all (fs : list fragment) (s : placement) : result (list fragment * placement) :=
  match fs with
  | [] => Ok ([], s)
  | f :: fs =>
      do (f1, s1) <- place f s;
      do (fs1, s2) <- place_all fs s1;
      Ok (f1 :: fs1, s2)
  end.
(** layout_block_level_children, flow/mod.rs:104-229 *)
Definition layout_block_level_children (boxes : list blb_lay) (cb : cblock) (rank : nat) (abs : list abs_frag)
    (floats collapsible : bool) : result (flow * list abs_frag) :=
  do (fs, abs1, s) <-
    (if floats then children_floats boxes cb 0 abs (placement_start collapsible)
     else do (fs, abs1) <- children_layout boxes cb 0 abs;
          do (fs1, s) <- place_all fs (placement_start collapsible);
          Ok (fs1, abs1, s));
  do abs2 <- adjust_static_positions (List.length abs) abs1 fs rank;
  Ok (Flow fs (pl_pos s) (CBMargins (pl_collapses s) (pl_start s) (pl_margin s)), abs2).

(** BlockFormattingContext::layout, flow/mod.rs:50-76: [lay] is contents.layout *)
Definition bfc_finish (r : result (flow * list abs_frag)) : result (flow * list abs_frag) :=
  do (fl, abs) <- r;
  Ok (Flow (fl_fragments fl) (fl_block_size fl + cm_solve (cb_end (fl_margins fl)))
        (CBMargins false (cb_start (fl_margins fl)) cm_zero), abs).

Section Metrics.
Variable m_ascent : style -> Len.
Variable m_descent : style -> Len.
Variable m_width : style -> text -> Len.

(** BlockLevelBox::layout, flow/mod.rs:232-281; BlockContainer::layout, 79-102; BlockFormattingContext::layout,
    50-76; AbsolutelyPositionedFragment::layout of the absolutely positioned boxes inside *)
Fixpoint layout_blb (b : blb) : blb_lay :=
  fun cb rank abs floats =>
  match b with
  | SameFC st c => layout_in_flow cb st true abs (fun cb' abs' collapsible => layout_container c cb' rank abs' floats collapsible)
  | Indep st c => layout_in_flow cb st false abs (fun cb' abs' _ => layout_bfc c cb' rank abs')
  | BAbspos st c =>
      Ok (anon_no_op, abs ++ [abs_box_layout st (abs_layout st (fun cb' => layout_bfc c cb' 0 [])) vec2_zero rank])
  | BFloat _ _ => Ok (anon_no_op, abs)
  end
with layout_container (c : bcontainer) : cblock -> nat -> list abs_frag -> bool -> bool -> result (flow * list abs_frag) :=
  fun cb rank abs floats collapsible =>
  match c with
  | BlockLevelBoxes l => layout_block_level_children (map layout_blb l) cb rank abs floats collapsible
  | InlineFC parent l =>
      ifc_layout m_ascent m_descent m_width parent
        (map (ilb_map (fun st c' => abs_layout st (fun cb' => layout_bfc c' cb' 0 []))) l) cb rank abs
  end
with layout_bfc (c : bfc) : cblock -> nat -> list abs_frag -> result (flow * list abs_frag) :=
  fun cb rank abs =>
  match c with BFC floats c' => bfc_finish (layout_container c' cb rank abs floats false) end.

(** BoxTreeRoot::layout, flow/root.rs:88-123 *)
Definition layout_root (root : bfc) (viewport : vec2 Len) : result (list fragment) :=
  do (fl, abs) <- layout_bfc root (CBlock (v_inline viewport) (LALen (v_block viewport))) 0 [];
  do fs <- mapR (fun a => af_layout a (af_inline a) (af_block a) viewport) abs;
  Ok (fl_fragments fl ++ fs).
End Metrics.
End Any.
