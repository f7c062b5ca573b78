(** Specification of inline layout, independent of the layout loop: the text of a run and its lines, the
    stream of marks (opening edge, text, closing edge) a line shows, and where fragments sit in a line. *)
From Verif Require Import InlineModel.
Local Open Scope len_scope.

(* ------------------------------------------------------------------ *)
(** * Lines of one text run *)

Definition is_space_or_newline (c : char) : bool := ((c =? sp) || (c =? nl))%N.
Definition break_char (c : char) : Prop := c = sp \/ c = nl \/ c = hyphen.
Definition no_break_char (t : text) : Prop := Forall (fun c => ~ break_char c) t.
Definition no_newline (t : text) : Prop := ~ In nl t.

(** The text cut at its newlines. *)
Fixpoint split_nl (t : text) : list text :=
  match t with
  | [] => [[]]
  | c :: t' => match split_nl t' with
               | l :: ls => if (c =? nl)%N then [] :: l :: ls else (c :: l) :: ls
               | [] => [[c]]
               end
  end.

(** The first word of a text: everything before the first space, newline or hyphen. *)
Fixpoint first_word (t : text) : text :=
  match t with
  | [] => []
  | c :: t' => if ((c =? sp) || (c =? nl) || (c =? hyphen))%N then [] else c :: first_word t'
  end.

Section Any.
Context {ar : Arith}.
(** A width fits a room when the room is not smaller.  (In floating point a NaN fits everywhere.) *)
Definition fits (avail w : Len) : Prop := lltb avail w = false.
Definition too_wide (avail w : Len) : Prop := lltb avail w = true.

Section Wrap.
Variable width : text -> Len.

(** [p] fits, or it has no break opportunity, or all of it but its last char, a hyphen, fits. *)
Definition fits_or_unbreakable (avail : Len) (p : text) : Prop :=
  fits avail (width p) \/ no_break_char p \/ (exists q, p = q ++ [hyphen] /\ fits avail (width q)).

Definition overlong (avail : Len) (p : text) : Prop := too_wide avail (width p) /\ no_break_char p.

(** What may be dropped after the line [p] where the run ends. *)
Inductive dropped_last (avail : Len) (p : text) : text -> Prop :=
| dl_nothing : dropped_last avail p []
| dl_space : too_wide avail (width (p ++ [sp])) \/ overlong avail p -> dropped_last avail p [sp]
| dl_char c : c = nl \/ c = hyphen -> overlong avail p -> dropped_last avail p [c].
(** What may be dropped where a line is broken for want of room. *)
Inductive dropped_soft (first : bool) (avail : Len) (p : text) : text -> Prop :=
| ds_space : dropped_soft first avail p [sp]
| ds_hyphen q : p = q ++ [hyphen] -> dropped_soft first avail p []
| ds_start : first = true -> p = [] -> dropped_soft first avail p []
| ds_char c : c = nl \/ c = hyphen -> overlong avail p -> dropped_soft first avail p [c].
(** The next word [w] does not fit behind [p] and the dropped text, or [p] itself is too long. *)
Definition no_room (avail : Len) (p d rest : text) : Prop :=
  too_wide avail (width (p ++ d ++ first_word rest)) \/ overlong avail p.

(** [wrapped ok cbw first avail t ls]: [ls] are the lines of the text [t], the first of which has room [avail]
    and the others [cbw]; [first] says that the text is at its beginning.  Every line satisfies [ok]. *)
Inductive wrapped (ok : Len -> text -> Prop) (cbw : Len) : bool -> Len -> text -> list text -> Prop :=
| wr_last first avail p d :
    dropped_last avail p d -> no_newline p -> ok avail p ->
    wrapped ok cbw first avail (p ++ d) [p]
| wr_soft first avail p d t ls :
    dropped_soft first avail p d -> no_newline p -> ok avail p -> t <> [] -> no_room avail p d t ->
    wrapped ok cbw false cbw t ls ->
    wrapped ok cbw first avail (p ++ d ++ t) (p :: ls)
| wr_newline first avail p d t ls :
    d = [nl] \/ d = [sp; nl] -> no_newline p -> ok avail p ->
    wrapped ok cbw false cbw t ls ->
    wrapped ok cbw first avail (p ++ d ++ t) (p :: ls).
End Wrap.

(* ------------------------------------------------------------------ *)
(** * Marks *)

(** What a line shows, from start to end: an opening edge (the start padding, border and margin of an inline
    box), a piece of text, a closing edge. *)
Inductive mark :=
| MOpen (st : style) (padding border margin : Len)
| MText (st font : style) (t : text)
| MClose (st : style) (padding border margin : Len).

Fixpoint frag_marks (f : fragment) : list mark :=
  match f with
  | FBox st ch _ p b m _ =>
      MOpen st (s_inline_start p) (s_inline_start b) (s_inline_start m)
        :: flat_map frag_marks ch ++ [MClose st (s_inline_end p) (s_inline_end b) (s_inline_end m)]
  | FAnon _ ch => flat_map frag_marks ch
  | FText st _ fo sg => [MText st fo (seg_glyphs sg)]
  end.

Inductive event := EMark (m : mark) | EBreak.

(** The lines of a stream of marks and line breaks: at a line break every open box is closed with an end edge
    of size zero and opened again on the next line with a start edge of size zero. *)
Definition mark_opens (m : mark) (open : list style) : list style :=
  match m with MOpen st _ _ _ => st :: open | MText _ _ _ => open | MClose _ _ _ _ => tl open end.
Definition close0 (st : style) : mark := MClose st l0 l0 l0.
Definition open0 (st : style) : mark := MOpen st l0 l0 l0.
Definition app_hd {A} (p : list A) (ls : list (list A)) : list (list A) :=
  match ls with l :: ls' => (p ++ l) :: ls' | [] => [p] end.
Fixpoint cut (open : list style) (es : list event) : list (list mark) :=
  match es with
  | [] => [[]]
  | EMark m :: es' => app_hd [m] (cut (mark_opens m open) es')
  | EBreak :: es' => map close0 open :: app_hd (map open0 (rev open)) (cut open es')
  end.

Section Events.
Variable m_width : style -> text -> Len.
(** what every line of wrapped text satisfies, given the room it had *)
Variable ok : style -> Len -> text -> Prop.
Variable cbw : Len.

Definition mark_width (m : mark) : Len :=
  match m with
  | MOpen _ p b m => p + b + m
  | MText _ fo t => m_width fo t
  | MClose _ p b m => p + b + m
  end.
(** The position in the line after a stream that starts at [pos]. *)
Fixpoint events_pos (pos : Len) (es : list event) : Len :=
  match es with
  | [] => pos
  | EMark m :: es' => events_pos (pos + mark_width m) es'
  | EBreak :: es' => events_pos l0 es'
  end.

Definition piece_events (st fo : style) (p : text) : list event :=
  match p with [] => [] | _ => [EMark (MText st fo p)] end.
Fixpoint lines_events (st fo : style) (ls : list text) : list event :=
  match ls with
  | [] => []
  | [p] => piece_events st fo p
  | p :: ls' => piece_events st fo p ++ EBreak :: lines_events st fo ls'
  end.

(** The used inline edges of a box: percentages refer to the containing block, auto margins are zero. *)
Definition margin_value (v : lpa Len) : Len := auto_is (lpa_rel v cbw) l0.
Definition start_mark (st : style) (real : bool) : mark :=
  if real then MOpen st (lp_rel (sv st Lpadding_left) cbw) (lp_rel (sv st Lborder_left_width) cbw) (margin_value (sv st Lmargin_left))
  else open0 st.
Definition end_mark (st : style) (real : bool) : mark :=
  if real then MClose st (lp_rel (sv st Lpadding_right) cbw) (lp_rel (sv st Lborder_right_width) cbw) (margin_value (sv st Lmargin_right))
  else close0 st.

(** The lines of a run of text that starts at position [pos]; every further line starts at position 0. *)
Inductive run_lines (st fo : style) (pos : Len) (t : text) : list text -> Prop :=
| rl_nowrap : sv st Lwhite_space = WSNowrap \/ sv st Lwhite_space = WSPre -> run_lines st fo pos t (split_nl t)
| rl_wrap ls : sv st Lwhite_space <> WSNowrap -> sv st Lwhite_space <> WSPre ->
    wrapped (m_width fo) (ok fo) (cbw - l0) true (cbw - pos) t ls -> run_lines st fo pos t ls.
(** [box_events pos b es pos']: [es] is a stream of marks and breaks that shows the inline box [b], starting at
    position [pos] of a line and ending at position [pos'] of a line. *)
Definition past_edge (pos : Len) (real : bool) (m : mark) : Len := if real then pos + mark_width m else pos.
Inductive box_events {C} : Len -> ilb C -> list event -> Len -> Prop :=
| be_box pos st first last ch es pos' :
    boxes_events (past_edge pos first (start_mark st first)) ch es pos' ->
    box_events pos (InlineBox st first last ch) (EMark (start_mark st first) :: es ++ [EMark (end_mark st last)])
      (past_edge pos' last (end_mark st last))
| be_text pos st t fo ls : run_lines st fo pos t ls ->
    box_events pos (TextRun st t fo) (lines_events st fo ls) (events_pos pos (lines_events st fo ls))
| be_abs pos st c : box_events pos (IAbspos st c) [] pos
| be_float pos st c : box_events pos (IFloat st c) [] pos
with boxes_events {C} : Len -> list (ilb C) -> list event -> Len -> Prop :=
| bes_nil pos : boxes_events pos [] [] pos
| bes_cons pos b bs e es pos1 pos2 : box_events pos b e pos1 -> boxes_events pos1 bs es pos2 ->
    boxes_events pos (b :: bs) (e ++ es) pos2.
End Events.

(** The marks of a line box. *)
Definition line_marks (f : fragment) : list mark := frag_marks f.
(** The text shown by a list of marks, and the texts of a list of boxes, in document order. *)
Fixpoint marks_text (ms : list mark) : text :=
  match ms with
  | [] => []
  | MText _ _ t :: ms' => t ++ marks_text ms'
  | _ :: ms' => marks_text ms'
  end.
Fixpoint ilb_text {C} (b : ilb C) : text :=
  match b with
  | InlineBox _ _ _ ch => flat_map ilb_text ch
  | TextRun _ t _ => t
  | _ => []
  end.
Definition visible_text (t : text) : text := filter (fun c => negb (is_space_or_newline c)) t.

(** Out-of-flow boxes come from elements that generate a box. *)
Fixpoint abspos_ok {C} (b : ilb C) : Prop :=
  match b with
  | InlineBox _ _ _ ch => fold_right (fun x P => abspos_ok x /\ P) True ch
  | IAbspos st _ => match s_specified_display st with DispBox _ _ => True | _ => False end
  | _ => True
  end.
Definition abspos_oks {C} (l : list (ilb C)) : Prop := fold_right (fun x P => abspos_ok x /\ P) True l.

(* ------------------------------------------------------------------ *)
(** * Geometry of lines *)

Definition edge_sum (f : sides Len -> Len) (p b m : sides Len) : Len := f p + f b + f m.
(** The inline extent of a fragment's margin box. *)
Definition outer_width (f : fragment) : Len :=
  match f with
  | FBox _ _ r p b m _ => edge_sum s_inline_start p b m + v_inline (r_size r) + edge_sum s_inline_end p b m
  | FAnon r _ => v_inline (r_size r)
  | FText _ r _ _ => v_inline (r_size r)
  end.
Definition row_width (fs : list fragment) : Len := lsum (map outer_width fs).
Definition frag_start (f : fragment) : vec2 Len :=
  match f with FBox _ _ r _ _ _ _ => r_start r | FAnon r _ => r_start r | FText _ r _ _ => r_start r end.
Definition frag_children (f : fragment) : list fragment :=
  match f with FBox _ ch _ _ _ _ _ => ch | FAnon _ ch => ch | FText _ _ _ _ => [] end.

Section Rows.
Variable m_width : style -> text -> Len.
Variable cb : cblock.

(** [in_row x f]: [f] is the content of a line, its margin box begins at [x]; a relatively positioned box may
    be off by its offset. *)
Definition offset_ok (st : style) (d : Len) : Prop :=
  d = l0 \/ d = v_inline (relative_adjustement st (cb_inline cb) (cb_block cb)).
Inductive in_row : Len -> fragment -> Prop :=
| ir_text x st r fo sg : v_inline (r_start r) = x -> v_inline (r_size r) = m_width fo (seg_glyphs sg) ->
    in_row x (FText st r fo sg)
| ir_box x st ch r p b m cm d :
    v_inline (r_start r) = x + edge_sum s_inline_start p b m + d -> offset_ok st d ->
    v_inline (r_size r) = row_width ch -> row l0 ch ->
    in_row x (FBox st ch r p b m cm)
with row : Len -> list fragment -> Prop :=
| row_nil x : row x []
| row_cons x f fs : in_row x f -> row (x + outer_width f) fs -> row x (f :: fs).

(** Line boxes from block position [y] on: stacked, as wide as the containing block, moved by the alignment
    fraction of the free space. *)
Inductive stacked (frac : Len) : Len -> list fragment -> Len -> Prop :=
| sk_nil y : stacked frac y [] y
| sk_cons y r ch ls y' :
    r_start r = Vec2 ((cb_inline cb - row_width ch) * frac) y ->
    v_inline (r_size r) = cb_inline cb ->
    row l0 ch ->
    stacked frac (y + v_block (r_size r)) ls y' ->
    stacked frac y (FAnon r ch :: ls) y'.
End Rows.

(* ------------------------------------------------------------------ *)
(** * Readings used by the theorems *)

(** inline content whose text is never wrapped, and the marks and breaks it then shows: a break at each newline *)
Fixpoint nowrap_only {C} (b : ilb C) : Prop :=
  match b with
  | InlineBox _ _ _ ch => fold_right (fun x P => nowrap_only x /\ P) True ch
  | TextRun st _ _ => sv st Lwhite_space = WSNowrap \/ sv st Lwhite_space = WSPre
  | _ => True
  end.
Fixpoint nowrap_events {C} (cw : Len) (b : ilb C) : list event :=
  match b with
  | InlineBox st first last ch =>
      EMark (start_mark cw st first) :: flat_map (nowrap_events cw) ch ++ [EMark (end_mark cw st last)]
  | TextRun st t fo => lines_events st fo (split_nl t)
  | _ => []
  end.
(** the marks of a line that consists of one piece of text *)
Definition piece_marks (st fo : style) (p : text) : list mark := match p with [] => [] | _ => [MText st fo p] end.
(** sizes of the start and end edges of marks, summed over marks *)
Definition opening (m : mark) : Len := match m with MOpen _ p b m => p + b + m | _ => l0 end.
Definition closing (m : mark) : Len := match m with MClose _ p b m => p + b + m | _ => l0 end.
Definition total (f : mark -> Len) (ms : list mark) : Len := lsum (map f ms).
(** the edges of all inline boxes together *)
Fixpoint boxes_edges {C} (f : mark -> Len) (cw : Len) (b : ilb C) : Len :=
  match b with
  | InlineBox st first last ch => f (start_mark cw st first) + lsum (map (boxes_edges f cw) ch) + f (end_mark cw st last)
  | _ => l0
  end.
(** two line boxes that differ in nothing but the inline position *)
Inductive same_line : fragment -> fragment -> Prop :=
| sl_line x x' y size ch : same_line (FAnon (Rect (Vec2 x y) size) ch) (FAnon (Rect (Vec2 x' y) size) ch).

(** A line that is wider than its room although a break opportunity inside it (before a space, or behind a
    hyphen that is not its last char) would have left it short enough. *)
Definition overflows_needlessly (width : text -> Len) (avail : Len) (p : text) : Prop :=
  too_wide avail (width p) /\
  exists q r, fits avail (width q) /\
    (p = q ++ sp :: r \/ (p = q ++ r /\ r <> [] /\ exists q', q = q' ++ [hyphen])).

End Any.

(** [deletes P t s]: [s] is [t] with some chars deleted, all of them satisfying [P]. *)
Inductive deletes (P : char -> Prop) : text -> text -> Prop :=
| del_nil : deletes P [] []
| del_keep c t s : deletes P t s -> deletes P (c :: t) (c :: s)
| del_drop c t s : P c -> deletes P t s -> deletes P (c :: t) s.
