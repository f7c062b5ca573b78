(** Specification of static positions: where an absolutely positioned box would be in normal flow. *)
From Verif Require Import BlockModel InlineSpec GeomSpec BlockSpec PageSpec.
Local Open Scope len_scope.

(** An absolutely positioned box with its contents, and a position in the content box of some container. *)
Definition spot : Type := style * bfc * vec2 Len.
Definition moved_by (d : vec2 Len) (s : spot) : spot := (fst s, vec2_add (snd s) d).

(* ------------------------------------------------------------------ *)
(** * In lines *)

(** Inline content shown as a stream of marks and line breaks (InlineSpec.box_events), together with each
    absolutely positioned box met: the number of line breaks in front of it and the position in its line. *)
Definition breaks (es : list event) : nat := count_occ Bool.bool_dec (map (fun e => match e with EBreak => true | EMark _ => false end) es) true.
Section Lines.
Variable m_width : style -> text -> Len.
Variable cbw : Len.
Notation pos_after := (events_pos m_width).
Inductive box_spots {C} : nat -> Len -> ilb C -> list event -> list (style * C * (nat * Len)) -> Prop :=
| bp_box n pos st first last ch es sp :
    boxes_spots n (pos + mark_width m_width (start_mark cbw st first)) ch es sp ->
    box_spots n pos (InlineBox st first last ch) (EMark (start_mark cbw st first) :: es ++ [EMark (end_mark cbw st last)]) sp
| bp_text n pos st t fo ls : run_lines m_width (fun _ _ _ => True) cbw st fo pos t ls ->
    box_spots n pos (TextRun st t fo) (lines_events st fo ls) []
| bp_abs n pos st c : box_spots n pos (IAbspos st c) [] [(st, c, (n, pos))]
| bp_float n pos st c : box_spots n pos (IFloat st c) [] []
with boxes_spots {C} : nat -> Len -> list (ilb C) -> list event -> list (style * C * (nat * Len)) -> Prop :=
| bps_nil n pos : boxes_spots n pos [] [] []
| bps_cons n pos b bs e es sp sps : box_spots n pos b e sp ->
    boxes_spots (n + breaks e) (pos_after pos e) bs es sps ->
    boxes_spots n pos (b :: bs) (e ++ es) (sp ++ sps).
End Lines.

(* ------------------------------------------------------------------ *)
(** * In a page *)

(** Can the margins of the first child adjoin those of its parent? *)
Definition open_top (f : fragment) : bool :=
  match f with FBox _ _ _ p bd _ _ => no_edge (s_block_start p) (s_block_start bd) | _ => false end.
Definition padding_start (f : fragment) : vec2 Len :=
  match f with FBox _ _ _ p _ _ _ => Vec2 (s_inline_start p) (s_block_start p) | _ => vec2_zero end.

Section Page.
Variable m_width : style -> text -> Len.
(** [Spot h open pre y]: in a container of height [h], a box behind the boxes [pre] belongs at [y].
    [Ispot st line x p]: a box of style [st] behind content of width [x] in the line [line] belongs at [p].
    [A pad st p f]: the absolutely positioned box of style [st] which belongs at [p] in the content box of its
    containing block, whose start paddings are [pad], is [f]. *)
Variable Spot : la -> bool -> list (blb * fragment) -> Len -> Prop.
Variable Ispot : style -> fragment -> Len -> vec2 Len -> Prop.
Variable A : vec2 Len -> style -> vec2 Len -> fragment -> Prop.

Definition line_spot (lines : list fragment) (s : style * bfc * (nat * Len)) (p : spot) : Prop :=
  fst p = fst s /\ exists line, nth_error lines (fst (snd s)) = Some line /\ Ispot (fst (fst s)) line (snd (snd s)) (snd p).

(** The absolutely positioned boxes in a container, down to the next containing blocks, in tree order, with the
    positions where they belong relative to the content box of the container. *)
Inductive spots : cblock -> bool -> bcontainer -> list fragment -> list spot -> Prop :=
| sp_blocks cb open l fs ps : spots_from cb open [] l fs ps -> spots cb open (BlockLevelBoxes l) fs ps
| sp_lines cb open st l fs es sp ps :
    boxes_spots m_width (cb_inline cb) O l0 l es sp -> map line_marks fs = cut [] es ->
    Forall2 (line_spot fs) sp ps -> spots cb open (InlineFC st l) fs ps
with spots_from : cblock -> bool -> list (blb * fragment) -> list blb -> list fragment -> list spot -> Prop :=
| sf_nil cb open pre : spots_from cb open pre [] [] []
| sf_abs cb open pre st c l f fs y ps : Spot (cb_block cb) open pre y ->
    spots_from cb open (pre ++ [(BAbspos st c, f)]) l fs ps ->
    spots_from cb open pre (BAbspos st c :: l) (f :: fs) ((st, c, Vec2 l0 y) :: ps)
| sf_float cb open pre st c l f fs ps : spots_from cb open (pre ++ [(BFloat st c, f)]) l fs ps ->
    spots_from cb open pre (BFloat st c :: l) (f :: fs) ps
| sf_positioned cb open pre b l f fs ps : in_flow b = true -> positioned (box_style b) = true ->
    spots_from cb open (pre ++ [(b, f)]) l fs ps -> spots_from cb open pre (b :: l) (f :: fs) ps
| sf_in cb open pre b c same l f fs ps qs : contents_of b = Some (c, same) -> positioned (box_style b) = false ->
    spots (content_cb cb (box_style b) f) (same && open_top f) c (frag_children f) ps ->
    spots_from cb open (pre ++ [(b, f)]) l fs qs ->
    spots_from cb open pre (b :: l) (f :: fs) (map (moved_by (frag_start f)) ps ++ qs).

(** [A] for every absolutely positioned box below a box, in a container, in a list of boxes, and for a list of
    boxes with the places where they belong in their containing block. *)
Inductive kept_box : cblock -> blb -> fragment -> Prop :=
| kb_out cb b r : in_flow b = false -> kept_box cb b (FAnon r [])
| kb_in cb b c same f : contents_of b = Some (c, same) -> positioned (box_style b) = false ->
    kept (content_cb cb (box_style b) f) c (frag_children f) -> kept_box cb b f
| kb_positioned cb b c same f ch ps abs : contents_of b = Some (c, same) -> positioned (box_style b) = true ->
    frag_children f = ch ++ abs_group f abs ->
    kept (content_cb cb (box_style b) f) c ch ->
    spots (content_cb cb (box_style b) f) (same && open_top f) c ch ps ->
    kept_abs (padding_start f) ps abs -> kept_box cb b f
with kept : cblock -> bcontainer -> list fragment -> Prop :=
| kp_blocks cb l fs : kept_boxes cb l fs -> kept cb (BlockLevelBoxes l) fs
| kp_lines cb st l fs : kept cb (InlineFC st l) fs
with kept_boxes : cblock -> list blb -> list fragment -> Prop :=
| ks_nil cb : kept_boxes cb [] []
| ks_cons cb b l f fs : kept_box cb b f -> kept_boxes cb l fs -> kept_boxes cb (b :: l) (f :: fs)
with kept_abs : vec2 Len -> list spot -> list fragment -> Prop :=
| ka_nil pad : kept_abs pad [] []
| ka_cons pad st fl c p l f ch h ps abs fs :
    A pad st p f ->
    frag_children f = ch ++ abs_group f abs ->
    (h = LAAuto \/ exists x, h = LALen x /\ match f with FBox _ _ r _ _ _ _ => v_block (r_size r) = x | _ => False end) ->
    kept (CBlock (match f with FBox _ _ r _ _ _ _ => v_inline (r_size r) | _ => l0 end) h) c ch ->
    spots (CBlock (match f with FBox _ _ r _ _ _ _ => v_inline (r_size r) | _ => l0 end) h) false c ch ps ->
    kept_abs (padding_start f) ps abs ->
    kept_abs pad l fs -> kept_abs pad ((st, BFC fl c, p) :: l) (f :: fs).
(** A page; the viewport has no padding. *)
Definition page_kept (viewport : vec2 Len) (c : bcontainer) (fs : list fragment) : Prop :=
  exists ch ps abs, fs = ch ++ abs /\
    kept (CBlock (v_inline viewport) (LALen (v_block viewport))) c ch /\
    spots (CBlock (v_inline viewport) (LALen (v_block viewport))) false c ch ps /\
    kept_abs vec2_zero ps abs.
End Page.

(* ------------------------------------------------------------------ *)
(** * What CSS says (CSS 2.2, 10.3.7 and 10.6.4) *)

(** Behind the boxes [pre], below the collapsed value of the margins that end there (for a box without margin),
    or at the top of the container if these adjoin its own. *)
Definition in_flow_spot (h : la) (open : bool) (pre : list (blb * fragment)) (y : Len) : Prop :=
  if open && all_through (pair_sets h pre) then y = l0
  else exists v, css_collapsed (trailing (pair_sets h pre)) v /\ y = last_bottom h pre + v.
(** Behind the content in front of it, in its line; for boxes that were inline. *)
Definition in_line_spot (st : style) (line : fragment) (x : Len) (p : vec2 Len) : Prop :=
  match s_specified_display st with
  | DispBox OInline _ => p = Vec2 (v_inline (frag_start line) + x) (v_block (frag_start line))
  | _ => True
  end.
(** An axis in which both offsets are auto: the margin edge is where the box belongs.  Fragments of absolutely
    positioned boxes are relative to the padding box of the containing block. *)
Definition both_auto (start end_ : lpa Len) : Prop := start = LPAAuto /\ end_ = LPAAuto.
Definition stays (pad : vec2 Len) (st : style) (p : vec2 Len) (f : fragment) : Prop :=
  (both_auto (sv st Lleft) (sv st Lright) -> margin_left_edge f = v_inline pad + v_inline p) /\
  (both_auto (sv st Ltop) (sv st Lbottom) -> margin_top_edge f = v_block pad + v_block p).

(* ------------------------------------------------------------------ *)
(** * What the code does *)

(** The pending margins, the alignment of the line and the padding of the containing block are left out. *)
Definition code_spot (h : la) (open : bool) (pre : list (blb * fragment)) (y : Len) : Prop := y = last_bottom h pre.
Definition code_line_spot (st : style) (line : fragment) (x : Len) (p : vec2 Len) : Prop :=
  match s_specified_display st with
  | DispBox OInline _ => p = Vec2 x (v_block (frag_start line))
  | _ => p = Vec2 l0 (v_block (frag_start line))
  end.
Definition code_stays (pad : vec2 Len) (st : style) (p : vec2 Len) (f : fragment) : Prop :=
  (both_auto (sv st Lleft) (sv st Lright) -> margin_left_edge f = v_inline p) /\
  (both_auto (sv st Ltop) (sv st Lbottom) -> margin_top_edge f = v_block p).
