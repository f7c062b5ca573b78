(** Specification of whole pages: which box is laid out where, in-flow and absolutely positioned. *)
From Verif Require Import BlockModel InlineSpec GeomSpec BlockSpec.
Local Open Scope len_scope.
Section Any.
Context {ar : Arith}.

(** The absolutely positioned boxes of which a box, or the contents of a container, is not the containing block:
    those not inside a positioned box, in tree order. *)
Definition positioned (st : style) : bool := match sv st Lposition with PosRelative => true | _ => false end.
Definition escaping_ilb : ilb bfc -> list (style * bfc) :=
  fix go (b : ilb bfc) : list (style * bfc) :=
    match b with
    | InlineBox _ _ _ ch => flat_map go ch
    | IAbspos st c => [(st, c)]
    | TextRun _ _ _ | IFloat _ _ => []
    end.
Fixpoint escaping_blb (b : blb) : list (style * bfc) :=
  match b with
  | SameFC st c => if positioned st then [] else escaping c
  | Indep st (BFC _ c) => if positioned st then [] else escaping c
  | BAbspos st c => [(st, c)]
  | BFloat _ _ => []
  end
with escaping (c : bcontainer) : list (style * bfc) :=
  match c with
  | BlockLevelBoxes l => flat_map escaping_blb l
  | InlineFC _ l => flat_map escaping_ilb l
  end.

(** The padding box of a fragment, relative to its content box. *)
Definition padding_rect (f : fragment) : rect Len :=
  match f with
  | FBox _ _ r p _ _ _ =>
      Rect (Vec2 (l0 - s_inline_start p) (l0 - s_block_start p))
           (Vec2 (v_inline (r_size r) + (s_inline_start p + s_inline_end p))
                 (v_block (r_size r) + (s_block_start p + s_block_end p)))
  | _ => Rect vec2_zero vec2_zero
  end.
(** The absolutely positioned children of [f] come behind the others, positioned in its padding box. *)
Definition abs_group (f : fragment) (abs : list fragment) : list fragment :=
  match abs with [] => [] | _ => [FAnon (padding_rect f) abs] end.

(** Every box of a page and its fragment: [P] holds of in-flow boxes with the containing block and the fragment,
    [A] of absolutely positioned ones with the size of the padding box of the nearest positioned ancestor (the
    viewport if there is none), [L] of inline content with its containing block, the style of its container and
    its lines.  Floats and absolutely positioned boxes leave an empty placeholder where they occur; the contents of
    floats are not laid out. *)
Section Page.
Variable P : cblock -> blb -> fragment -> Prop.
Variable A : vec2 Len -> style -> fragment -> Prop.
Variable L : cblock -> style -> list (ilb bfc) -> list fragment -> Prop.
Inductive box_laid : cblock -> blb -> fragment -> Prop :=
| bl_out cb b r : in_flow b = false -> box_laid cb b (FAnon r [])
| bl_in cb b c same f ch abs :
    contents_of b = Some (c, same) -> P cb b f ->
    frag_children f = ch ++ abs_group f abs ->
    contents_laid (content_cb cb (box_style b) f) c ch ->
    abs_laid (r_size (padding_rect f)) (if positioned (box_style b) then escaping c else []) abs ->
    box_laid cb b f
with contents_laid : cblock -> bcontainer -> list fragment -> Prop :=
| cl_blocks cb l fs : boxes_laid cb l fs -> contents_laid cb (BlockLevelBoxes l) fs
| cl_lines cb st l fs : L cb st l fs -> contents_laid cb (InlineFC st l) fs
with boxes_laid : cblock -> list blb -> list fragment -> Prop :=
| bsl_nil cb : boxes_laid cb [] []
| bsl_cons cb b l f fs : box_laid cb b f -> boxes_laid cb l fs -> boxes_laid cb (b :: l) (f :: fs)
with abs_laid : vec2 Len -> list (style * bfc) -> list fragment -> Prop :=
| al_nil size : abs_laid size [] []
| al_cons size st fl c l f ch abs h fs :
    A size st f ->
    frag_children f = ch ++ abs_group f abs ->
    (h = LAAuto \/ exists x, h = LALen x /\ match f with FBox _ _ r _ _ _ _ => v_block (r_size r) = x | _ => False end) ->
    contents_laid (CBlock (match f with FBox _ _ r _ _ _ _ => v_inline (r_size r) | _ => l0 end) h) c ch ->
    abs_laid (r_size (padding_rect f)) (escaping c) abs ->
    abs_laid size l fs -> abs_laid size ((st, BFC fl c) :: l) (f :: fs).
(** A page: the in-flow content, then the absolutely positioned boxes whose containing block is the viewport. *)
Definition page_laid_with (viewport : vec2 Len) (c : bcontainer) (fs : list fragment) : Prop :=
  exists ch abs, fs = ch ++ abs /\
    contents_laid (CBlock (v_inline viewport) (LALen (v_block viewport))) c ch /\ abs_laid viewport (escaping c) abs.
End Page.
Definition page_laid P A := page_laid_with P A (fun _ _ _ _ => True).

(** The constraint equation of an absolutely positioned box in one axis (CSS 2.2, 10.3.7 and 10.6.4), for the
    distances of its margin box to the start and end of its containing block: offsets other than auto are
    honoured, the end offset unless the values are over-constrained. *)
Definition inset_ok (containing : Len) (start end_ size m_start m_end : lpa Len) (dist_start dist_end : Len) : Prop :=
  match resolve containing start, resolve containing end_ with
  | None, None => True
  | Some s, None => dist_start = s
  | None, Some e => dist_end = e
  | Some s, Some e =>
      dist_start = s /\ (size = LPAAuto \/ m_start = LPAAuto \/ m_end = LPAAuto -> dist_end = e)
  end.
Definition horizontal_inset_ok (size : vec2 Len) (st : style) (f : fragment) : Prop :=
  inset_ok (v_inline size) (sv st Lleft) (sv st Lright) (sv st Lwidth) (sv st Lmargin_left) (sv st Lmargin_right)
    (margin_left_edge f) (v_inline size - margin_left_edge f - horizontal_extent f).
Definition vertical_inset_ok (size : vec2 Len) (st : style) (f : fragment) : Prop :=
  inset_ok (v_block size) (sv st Ltop) (sv st Lbottom) (sv st Lheight) (sv st Lmargin_top) (sv st Lmargin_bottom)
    (margin_top_edge f) (v_block size - margin_top_edge f - vertical_extent f).
End Any.
