(** Specification of block layout, independent of the layout functions. *)
From Verif Require Import BlockModel InlineSpec GeomSpec.
Local Open Scope len_scope.
Section Any.
Context {ar : Arith}.

(* ------------------------------------------------------------------ *)
(** * Well-formed box trees *)

(** [P] holds of every absolutely positioned box in inline content. *)
Definition ilb_every {C} (P : style -> C -> Prop) : ilb C -> Prop :=
  fix go (b : ilb C) : Prop :=
    match b with
    | InlineBox _ _ _ ch => fold_right (fun x Q => go x /\ Q) True ch
    | TextRun _ _ _ => True
    | IAbspos st c => P st c
    | IFloat _ _ => True
    end.
(** A style whose element generates a box: what box construction gives to boxes. *)
Definition generates_box (st : style) : Prop :=
  match s_specified_display st with DispBox _ _ => True | _ => False end.
(** The styles of absolutely positioned boxes inside inline content generate boxes. *)
Fixpoint wf_blb (b : blb) : Prop :=
  match b with
  | SameFC _ c => wf_container c
  | BAbspos _ c => wf_bfc c
  | BFloat _ _ => True
  | Indep _ c => wf_bfc c
  end
with wf_container (c : bcontainer) : Prop :=
  match c with
  | BlockLevelBoxes l => fold_right (fun x Q => wf_blb x /\ Q) True l
  | InlineFC _ l => fold_right (fun x Q => ilb_every (fun st c' => generates_box st /\ wf_bfc c') x /\ Q) True l
  end
with wf_bfc (c : bfc) : Prop := match c with BFC _ c' => wf_container c' end.

(* ------------------------------------------------------------------ *)
(** * Adjoining margins (CSS 2.2, 8.3.1) *)

(** What a box contributes: the margins that adjoin at its top, whether the box collapses through, the margins
    that adjoin at its bottom. *)
Record msets := MSets { ms_start : list Len; ms_through : bool; ms_end : list Len }.
Definition ms_all (m : msets) : list Len := ms_start m ++ ms_end m.
Definition all_through (l : list msets) : bool := forallb ms_through l.
(** The margins of a sequence of boxes that adjoin at the top of the first: those of the boxes that collapse
    through, up to the first that does not. *)
Fixpoint leading (l : list msets) : list Len :=
  match l with
  | [] => []
  | m :: l' => if ms_through m then ms_all m ++ leading l' else ms_start m
  end.
(** The margins behind the last box that does not collapse through; all of them if there is none. *)
Fixpoint trailing (l : list msets) : list Len :=
  match l with
  | [] => []
  | m :: l' => if all_through l' then (if ms_through m then ms_all m else ms_end m) ++ flat_map ms_all l' else trailing l'
  end.

(** The height of the style is auto, or a percentage of an auto height. *)
Definition height_used (h : lpa Len) (containing : la) : la :=
  match h, containing with
  | LPALen l, _ => LALen l
  | LPAPct p, LALen b => LALen (b * p)
  | _, _ => LAAuto
  end.
Definition no_edge (p b : Len) : bool := leqb (p + b) l0.

(** The margin sets of an in-flow box laid out as a fragment, from the used margins, padding and borders.  The
    margins of children adjoin those of their parent where no padding or border separates them, at the end only if
    the height is auto; boxes that establish a formatting context and boxes with inline content keep theirs apart. *)
Fixpoint margin_sets (containing : la) (b : blb) (f : fragment) : option msets :=
  match b, f with
  | SameFC st c, FBox _ ch _ p bd m _ =>
      match c with
      | InlineFC _ _ => Some (MSets [s_block_start m] false [s_block_end m])
      | BlockLevelBoxes l =>
          let h := height_used (sv st Lheight) containing in
          let items :=
            (fix go (l : list blb) (fs : list fragment) : list msets :=
               match l, fs with
               | b' :: l', f' :: fs' =>
                   match margin_sets h b' f' with Some i => i :: go l' fs' | None => go l' fs' end
               | _, _ => []
               end) l ch in
          let open_start := no_edge (s_block_start p) (s_block_start bd) in
          let open_end := no_edge (s_block_end p) (s_block_end bd) && match h with LAAuto => true | _ => false end in
          Some (MSets
            (s_block_start m :: if open_start then leading items else [])
            (open_start && open_end && all_through items)
            (s_block_end m ::
              if open_end then if open_start && all_through items then [] else trailing items else []))
      end
  | Indep _ _, FBox _ _ _ _ _ m _ => Some (MSets [s_block_start m] false [s_block_end m])
  | _, _ => None
  end.
Fixpoint items_of (h : la) (bs : list blb) (fs : list fragment) : list msets :=
  match bs, fs with
  | b :: bs', f :: fs' => match margin_sets h b f with Some i => i :: items_of h bs' fs' | None => items_of h bs' fs' end
  | _, _ => []
  end.
(** The sets of a list of pairs of boxes and their fragments. *)
Definition pair_sets (h : la) (l : list (blb * fragment)) : list msets :=
  flat_map (fun bf => match margin_sets h (fst bf) (snd bf) with Some i => [i] | None => [] end) l.
(** An in-flow box that does not collapse through, with its margins. *)
Definition stands (h : la) (bf : blb * fragment) (i : msets) : Prop :=
  margin_sets h (fst bf) (snd bf) = Some i /\ ms_through i = false.
(** Out of flow, or collapsed through. *)
Definition vanishes (h : la) (bf : blb * fragment) : Prop :=
  match margin_sets h (fst bf) (snd bf) with Some i => ms_through i = true | None => True end.

(** The border box of a block fragment in its container, without the offset of relative positioning. *)
Definition relative_offset (f : fragment) (h : la) : Len :=
  match f with
  | FBox st _ r _ _ _ _ => v_block (relative_adjustement st (v_inline (r_size r)) (height_used (sv st Lheight) h))
  | _ => l0
  end.
Definition border_top (h : la) (f : fragment) : Len :=
  match f with
  | FBox _ _ r p b _ _ => v_block (r_start r) - s_block_start p - s_block_start b - relative_offset f h
  | _ => l0
  end.
Definition border_height (f : fragment) : Len :=
  match f with
  | FBox _ _ r p b _ _ => s_block_start p + s_block_start b + v_block (r_size r) + s_block_end p + s_block_end b
  | _ => l0
  end.
Definition border_bottom (h : la) (f : fragment) : Len := border_top h f + border_height f.

(** The bottom of the last box that does not collapse through, 0 if there is none. *)
Definition last_bottom (h : la) (l : list (blb * fragment)) : Len :=
  fold_left (fun y bf => match margin_sets h (fst bf) (snd bf) with
                         | Some i => if ms_through i then y else border_bottom h (snd bf)
                         | None => y
                         end) l l0.

(* ------------------------------------------------------------------ *)
(** * In-flow boxes and their containing blocks *)

Definition in_flow (b : blb) : bool := match b with SameFC _ _ | Indep _ _ => true | BAbspos _ _ | BFloat _ _ => false end.
Definition box_style (b : blb) : style := match b with SameFC st _ | BAbspos st _ | BFloat st _ | Indep st _ => st end.
(** The containing block of the children of a fragment: the content box, with its height if it is known. *)
Definition content_cb (cb : cblock) (st : style) (f : fragment) : cblock :=
  match f with
  | FBox _ _ r _ _ _ _ => CBlock (v_inline (r_size r)) (height_used (sv st Lheight) (cb_block cb))
  | _ => cb
  end.
Definition frag_children (f : fragment) : list fragment :=
  match f with FBox _ ch _ _ _ _ _ => ch | FAnon _ ch => ch | FText _ _ _ _ => [] end.
(** The seven horizontal extents of a box. *)
Definition horizontal_extent (f : fragment) : Len :=
  match f with
  | FBox _ _ r p bd m _ =>
      s_inline_start m + s_inline_start bd + s_inline_start p + v_inline (r_size r) +
      s_inline_end p + s_inline_end bd + s_inline_end m
  | _ => l0
  end.
(** A length or percentage of [basis]. *)
Definition resolve (basis : Len) (v : lpa Len) : option Len :=
  match v with LPALen l => Some l | LPAPct p => Some (basis * p) | LPAAuto => None end.
Definition resolve_lp (basis : Len) (v : lp Len) : Len := match v with LPLen l => l | LPPct p => basis * p end.

(* ------------------------------------------------------------------ *)
(** * Relative positioning *)

(** The style with other values of position, top, right, bottom and left. *)
Definition repositioned (st : style) (pos : position) (t r b l : lpa Len) : style :=
  set_sv (set_sv (set_sv (set_sv (set_sv st Lposition pos) Ltop t) Lright r) Lbottom b) Lleft l.
(** CSS 2.2, 9.4.3: left wins over right, top over bottom (left-to-right text). *)
Definition css_offset (start end_ : option Len) : Len :=
  match start, end_ with Some s, _ => s | None, Some e => - e | None, None => l0 end.
(** [f] moved by (dx, dy), with another style. *)
Definition moved (st : style) (dx dy : Len) (f : fragment) : fragment :=
  match f with
  | FBox _ ch r p b m cm =>
      FBox st ch (Rect (Vec2 (v_inline (r_start r) + dx) (v_block (r_start r) + dy)) (r_size r)) p b m cm
  | _ => f
  end.
(** The used offset of a relatively positioned box, with percentages of its own size (see C32). *)
Definition own_offset (st : style) (cb : cblock) (f : fragment) : vec2 Len :=
  match sv st Lposition, f with
  | PosRelative, FBox _ _ r _ _ _ _ =>
      let w := v_inline (r_size r) in
      let h := match height_used (sv st Lheight) (cb_block cb) with LALen h => h | LAAuto => l0 end in
      Vec2 (css_offset (resolve w (sv st Lleft)) (resolve w (sv st Lright)))
           (css_offset (resolve h (sv st Ltop)) (resolve h (sv st Lbottom)))
  | _, _ => vec2_zero
  end.

(* ------------------------------------------------------------------ *)
(** * Boxes out of flow *)

(** A tree without its absolutely positioned and floated boxes. *)
Definition strip_ilb {C} : ilb C -> list (ilb C) :=
  fix go (b : ilb C) : list (ilb C) :=
    match b with
    | InlineBox st fi la_ ch => [InlineBox st fi la_ (flat_map go ch)]
    | TextRun st t fo => [TextRun st t fo]
    | IAbspos _ _ | IFloat _ _ => []
    end.
Fixpoint strip (b : blb) : list blb :=
  match b with
  | SameFC st c => [SameFC st (strip_container c)]
  | Indep st (BFC fl c) => [Indep st (BFC fl (strip_container c))]
  | BAbspos _ _ | BFloat _ _ => []
  end
with strip_container (c : bcontainer) : bcontainer :=
  match c with
  | BlockLevelBoxes l => BlockLevelBoxes (flat_map strip l)
  | InlineFC st l => InlineFC st (flat_map strip_ilb l)
  end.
(** The fragments [f] of a box and [f'] of the same box after stripping agree: same place, size, edges and
    margins, and so for every in-flow box below; lines are the same. *)
Fixpoint same_flow (b : blb) (f f' : fragment) {struct b} : Prop :=
  match b with
  | SameFC st c | Indep st (BFC _ c) =>
      exists ch ch' r p bd m cm, f = FBox st ch r p bd m cm /\ f' = FBox st ch' r p bd m cm /\ same_children c ch ch'
  | _ => False
  end
with same_children (c : bcontainer) (fs fs' : list fragment) {struct c} : Prop :=
  match c with
  | BlockLevelBoxes l =>
      (fix go (l : list blb) (fs fs' : list fragment) : Prop :=
         match l, fs with
         | b :: l1, f :: fs1 =>
             if in_flow b
             then match fs' with f' :: fs1' => same_flow b f f' /\ go l1 fs1 fs1' | [] => False end
             else go l1 fs1 fs'
         | [], _ => fs' = []
         | _, _ => False
         end) l fs fs'
  | InlineFC _ _ => exists extra, fs = fs' ++ extra
  end.

(* ------------------------------------------------------------------ *)
(** * Absolute positioning (CSS 2.2, 10.3.7 and 10.6.4) *)

(** What the constraint equation says of the distances of the margin box to the start and end of the containing
    block: offsets other than auto are honoured, the end offset unless the values are over-constrained. *)
Definition axis_ok (containing : Len) (o : offsets) (size m_start m_end : lpa Len) (dist_start dist_end : Len) : Prop :=
  match o with
  | OStatic x => dist_start = x
  | OStart s => dist_start = resolve_lp containing s
  | OEnd e => dist_end = resolve_lp containing e
  | OBoth s e =>
      dist_start = resolve_lp containing s /\
      (size = LPAAuto \/ m_start = LPAAuto \/ m_end = LPAAuto -> dist_end = resolve_lp containing e)
  end.
Definition vertical_extent (f : fragment) : Len :=
  match f with
  | FBox _ _ r p bd m _ =>
      s_block_start m + s_block_start bd + s_block_start p + v_block (r_size r) +
      s_block_end p + s_block_end bd + s_block_end m
  | _ => l0
  end.
Definition margin_left_edge (f : fragment) : Len :=
  match f with
  | FBox _ _ r p bd m _ => v_inline (r_start r) - s_inline_start p - s_inline_start bd - s_inline_start m
  | _ => l0
  end.
Definition margin_top_edge (f : fragment) : Len :=
  match f with
  | FBox _ _ r p bd m _ => v_block (r_start r) - s_block_start p - s_block_start bd - s_block_start m
  | _ => l0
  end.
Definition horizontal_axis_ok (size : vec2 Len) (o : offsets) (st : style) (f : fragment) : Prop :=
  axis_ok (v_inline size) o (sv st Lwidth) (sv st Lmargin_left) (sv st Lmargin_right)
    (margin_left_edge f) (v_inline size - margin_left_edge f - horizontal_extent f).
Definition vertical_axis_ok (size : vec2 Len) (o : offsets) (st : style) (f : fragment) : Prop :=
  axis_ok (v_block size) o (sv st Lheight) (sv st Lmargin_top) (sv st Lmargin_bottom)
    (margin_top_edge f) (v_block size - margin_top_edge f - vertical_extent f).
(* ------------------------------------------------------------------ *)
(** * Used values *)

(** The extents of an in-flow box: padding and borders as specified, percentages of the containing block's width;
    the specified width; specified margins, auto ones 0 where the width is auto; the content box behind them. *)
Definition used_values (cb : cblock) (b : blb) (f : fragment) : Prop :=
  let st := box_style b in
  let w := cb_inline cb in
  match f with
  | FBox st' _ r p bd m _ =>
      st' = st /\
      p = sides_map (resolve_lp w) (style_padding st) /\
      bd = sides_map (resolve_lp w) (style_border_width st) /\
      (forall x, resolve w (sv st Lwidth) = Some x -> v_inline (r_size r) = x) /\
      (forall x, resolve w (sv st Lmargin_left) = Some x -> s_inline_start m = x) /\
      (resolve w (sv st Lwidth) = None ->
         s_inline_start m = match resolve w (sv st Lmargin_left) with Some x => x | None => l0 end /\
         s_inline_end m = match resolve w (sv st Lmargin_right) with Some x => x | None => l0 end) /\
      s_block_start m = match resolve w (sv st Lmargin_top) with Some x => x | None => l0 end /\
      s_block_end m = match resolve w (sv st Lmargin_bottom) with Some x => x | None => l0 end /\
      v_inline (r_start r) =
        s_inline_start p + s_inline_start bd + v_inline (own_offset st cb f) + s_inline_start m
  | _ => False
  end.
(** The same of an absolutely positioned box in a containing block of size [size]. *)
Definition abs_used_values (size : vec2 Len) (st : style) (f : fragment) : Prop :=
  match f with
  | FBox st' _ r p bd m _ =>
      st' = st /\
      p = sides_map (resolve_lp (v_inline size)) (style_padding st) /\
      bd = sides_map (resolve_lp (v_inline size)) (style_border_width st) /\
      (forall x, resolve (v_inline size) (sv st Lwidth) = Some x -> v_inline (r_size r) = x) /\
      (forall x, sv st Lheight = LPALen x -> v_block (r_size r) = x) /\
      (forall x, resolve (v_inline size) (sv st Lmargin_left) = Some x -> s_inline_start m = x) /\
      (forall x, resolve (v_inline size) (sv st Lmargin_right) = Some x -> s_inline_end m = x) /\
      (forall x, resolve (v_inline size) (sv st Lmargin_top) = Some x -> s_block_start m = x) /\
      (forall x, resolve (v_inline size) (sv st Lmargin_bottom) = Some x -> s_block_end m = x)
  | _ => False
  end.

(** What an in-flow box contains, and whether its contents are part of the same formatting context. *)
Definition contents_of (b : blb) : option (bcontainer * bool) :=
  match b with SameFC _ c => Some (c, true) | Indep _ (BFC _ c) => Some (c, false) | _ => None end.
End Any.

(* ------------------------------------------------------------------ *)
(** * Stacking *)

(** Successive boxes that do not collapse through: the distance of their border boxes is the collapsed value of
    all margins between them, those of boxes between them that collapse through included. *)
Definition stacked (h : la) (l : list blb) (fs : list fragment) : Prop :=
  forall pre bf1 mid bf2 post i1 i2, combine l fs = pre ++ bf1 :: mid ++ bf2 :: post ->
  stands h bf1 i1 -> stands h bf2 i2 -> Forall (vanishes h) mid ->
  exists v, css_collapsed (ms_end i1 ++ flat_map ms_all (pair_sets h mid) ++ ms_start i2) v /\
    border_top h (snd bf2) = border_bottom h (snd bf1) + v.
(** The first of them is at the top of the content box if its margin collapses with that of the container,
    below the collapsed value of the margins in front of it otherwise. *)
Definition first_child (h : la) (open_start : bool) (l : list blb) (fs : list fragment) : Prop :=
  forall pre bf post i, combine l fs = pre ++ bf :: post -> stands h bf i -> Forall (vanishes h) pre ->
  if open_start then border_top h (snd bf) = l0
  else exists v, css_collapsed (flat_map ms_all (pair_sets h pre) ++ ms_start i) v /\ border_top h (snd bf) = v.
(** Contents and height of an in-flow box. *)
Definition block_ok (cb : cblock) (b : blb) (f : fragment) : Prop :=
  match contents_of b, f with
  | Some (c, same), FBox st ch r p bd m cm =>
      let h := height_used (sv (box_style b) Lheight) (cb_block cb) in
      let open_start := same && no_edge (s_block_start p) (s_block_start bd) in
      let open_end := same && no_edge (s_block_end p) (s_block_end bd) in
      (forall x, h = LALen x -> v_block (r_size r) = x) /\
      match c with
      | BlockLevelBoxes l =>
          stacked h l ch /\ first_child h open_start l ch /\
          (h = LAAuto -> exists v,
             css_collapsed (if open_end || open_start && all_through (items_of h l ch) then [] else trailing (items_of h l ch)) v /\
             v_block (r_size r) = last_bottom h (combine l ch) + v)
      | InlineFC _ _ => True
      end
  | _, _ => False
  end.
(** The horizontal equation of CSS 2.2, 10.3.3. *)
Definition box_equation (cb : cblock) (b : blb) (f : fragment) : Prop := horizontal_extent f = cb_inline cb.
