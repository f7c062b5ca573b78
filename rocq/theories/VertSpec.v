(** Specification of the vertical geometry of lines: baselines and heights. *)
From Verif Require Import InlineModel InlineSpec.
Local Open Scope len_scope.

Section Vert.
Variable m_ascent m_descent : style -> Len.
Variable cb : cblock.

(** The used line height (CSS 2.2, 10.8.1). *)
Definition used_line_height (st : style) : Len :=
  match sv st Lline_height with
  | LPNLen l => l
  | LPNPct p => p * sv st Lfont_size
  | LPNNum n => n * sv st Lfont_size
  end.
(** How far an inline box is lowered below the baseline of its parent (CSS 2.2, 10.8.1): lengths and percentages
    of its line height raise it; sub and super by half the ascent of the parent.  Other values than these and
    baseline are left open. *)
Definition lowered (parent st : style) (d : Len) : Prop :=
  match sv st Lvertical_align with
  | VABaseline => d = l0
  | VASub => d + d = m_ascent parent
  | VASuper => d + d = - m_ascent parent
  | VALen l => d = - l
  | VAPct p => d = - (p * used_line_height st)
  | VAMiddle | VATop | VATextTop | VABottom | VATextBottom => True
  end.
(** The vertical offset of a relatively positioned box: top, else bottom; percentages are of the height of the
    containing block, zero if that is auto. *)
Definition offset_of (v : lpa Len) : option Len :=
  match v with
  | LPALen l => Some l
  | LPAPct p => Some (match cb_block cb with LALen h => p * h | LAAuto => l0 end)
  | LPAAuto => None
  end.
Definition down_by (st : style) : Len :=
  match sv st Lposition with
  | PosRelative =>
      match offset_of (sv st Ltop), offset_of (sv st Lbottom) with
      | Some t, _ => t
      | None, Some b => - b
      | None, None => l0
      end
  | _ => l0
  end.
(** The extent of a text above and below its baseline is its line height: the leading is split in halves. *)
Definition text_extent (st font : style) (up down : Len) : Prop :=
  up + down = used_line_height st /\ up - m_ascent font = down - m_descent font.

(** [seated parent shift base f exts]: the fragment [f] of a line is where it has to be in a box with style
    [parent] whose baseline is at [base] (in the coordinates of [f]) and lower than that of the line by [shift];
    [exts] are the extents of its texts above and below the baseline of the line, relative positioning ignored. *)
Inductive seated : style -> Len -> Len -> fragment -> list (Len * Len) -> Prop :=
| se_text parent shift base st r font seg up down :
    v_block (r_start r) + m_ascent parent = base ->
    text_extent st font up down -> v_block (r_size r) = up + down ->
    seated parent shift base (FText st r font seg) [(up - shift, down + shift)]
| se_box parent shift base st ch r p b m cm d exts :
    lowered parent st d ->
    v_block (r_start r) + m_ascent st = base + d + down_by st ->
    v_block (r_size r) = m_ascent st + m_descent st ->
    all_seated st (shift + d) (m_ascent st) ch exts ->
    seated parent shift base (FBox st ch r p b m cm) exts
with all_seated : style -> Len -> Len -> list fragment -> list (Len * Len) -> Prop :=
| sea_nil parent shift base : all_seated parent shift base [] []
| sea_cons parent shift base f fs e es :
    seated parent shift base f e -> all_seated parent shift base fs es -> all_seated parent shift base (f :: fs) (e ++ es).

(** The extent of a newline: that of the text it is in. *)
Inductive newline_extent {C} : style -> Len -> list (ilb C) -> Len * Len -> Prop :=
| ne_text parent shift st t font up down l : In (TextRun st t font) l -> In nl t -> text_extent st font up down ->
    newline_extent parent shift l (up - shift, down + shift)
| ne_box parent shift st first last ch d l e : In (InlineBox st first last ch) l -> lowered parent st d ->
    newline_extent st (shift + d) ch e -> newline_extent parent shift l e.

Definition greatest (m : Len) (l : list Len) : Prop := In m l /\ forall x, In x l -> x <= m.
(** A line of inline content [l]: its baseline is as far down as its texts (and the newline that ends it, if it is
    ended by one) reach above it, and its bottom as far below that as they reach below it. *)
Definition line_seated {C} (parent : style) (l : list (ilb C)) (line : fragment) : Prop :=
  match line with
  | FAnon r ch => exists above below texts newlines,
      all_seated parent l0 above ch texts /\
      (List.length newlines <= 1)%nat /\ Forall (newline_extent parent l0 l) newlines /\
      greatest above (l0 :: map fst (texts ++ newlines)) /\ greatest below (l0 :: map snd (texts ++ newlines)) /\
      v_block (r_size r) = above + below
  | _ => False
  end.

(** Where the baseline of every text of a fragment is drawn, and where that should be. *)
Fixpoint drawn_baselines (y : Len) (f : fragment) : list Len :=
  match f with
  | FText _ r font _ => [y + v_block (r_start r) + m_ascent font]
  | FBox _ ch r _ _ _ _ | FAnon r ch => flat_map (drawn_baselines (y + v_block (r_start r))) ch
  end.
Definition lowering (parent st : style) : Len :=
  match sv st Lvertical_align with
  | VASub => lhalf (m_ascent parent)
  | VASuper => - lhalf (m_ascent parent)
  | VALen l => - l
  | VAPct p => - (p * used_line_height st)
  | _ => l0
  end.
Fixpoint due_baselines (parent : style) (base : Len) (f : fragment) : list Len :=
  match f with
  | FText _ _ _ _ => [base]
  | FBox st ch _ _ _ _ _ => flat_map (due_baselines st (base + lowering parent st + down_by st)) ch
  | FAnon _ ch => flat_map (due_baselines parent base) ch
  end.
(** Every text has the font of the box it is in, and no box has one of the values that are not implemented. *)
Definition implemented (st : style) : Prop :=
  match sv st Lvertical_align with VAMiddle | VATop | VATextTop | VABottom | VATextBottom => False | _ => True end.
Fixpoint plain_fonts (parent : style) (f : fragment) : Prop :=
  match f with
  | FText _ _ font _ => m_ascent font = m_ascent parent
  | FBox st ch _ _ _ _ _ => implemented st /\ fold_right (fun x P => plain_fonts st x /\ P) True ch
  | FAnon _ ch => fold_right (fun x P => plain_fonts parent x /\ P) True ch
  end.
End Vert.
