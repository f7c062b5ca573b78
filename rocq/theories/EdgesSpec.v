(** The edges of the outermost element (C99). *)
From Verif Require Import Base Len StyleModel StyleSpec GeomModel TreeModel GfxModel.
Local Open Scope len_scope.
Section Any.
Context {ar : Arith}.

(** A length, or so much of the width of the page *)
Definition length_on (w : Len) (v : lp Len) : Len := match v with LPLen l => l | LPPct p => w * p end.
(** A margin, where auto is nothing *)
Definition margin_on (w : Len) (v : lpa Len) : Len := match v with LPALen l => l | LPAPct p => w * p | LPAAuto => l0 end.
(** Margin, border and padding at the left, the top and the right, on a page of width [w] *)
Definition left_edges (w : Len) (st : style) : Len :=
  margin_on w (sv st Lmargin_left) + length_on w (sv st Lborder_left_width) + length_on w (sv st Lpadding_left).
Definition top_edges (w : Len) (st : style) : Len :=
  margin_on w (sv st Lmargin_top) + length_on w (sv st Lborder_top_width) + length_on w (sv st Lpadding_top).
Definition right_edges (w : Len) (st : style) : Len :=
  margin_on w (sv st Lmargin_right) + length_on w (sv st Lborder_right_width) + length_on w (sv st Lpadding_right).
(** The width and the height, if it is given, that are left for the contents *)
Definition inner_width (page : vec2 Len) (st : style) : Len :=
  match sv st Lwidth with
  | LPALen l => l
  | LPAPct p => v_inline page * p
  | LPAAuto => v_inline page - left_edges (v_inline page) st - right_edges (v_inline page) st
  end.
Definition inner_height (page : vec2 Len) (st : style) : option Len :=
  match sv st Lheight with LPALen l => Some l | LPAPct p => Some (v_block page * p) | LPAAuto => None end.

(** An outermost element that is a box in its normal place and is not centred or pushed to the right *)
Record in_place (st : style) : Prop := {
  ip_box : sv st Ldisplay <> DispNone;
  ip_static : sv st Lposition = PosStatic;
  ip_float : is_floating (sv st Lfloat) = false;
  ip_left : sv st Lwidth = LPAAuto \/ sv st Lmargin_left <> LPAAuto
}.

(** The same thing drawn [dx] further to the right and [dy] lower *)
Definition moved (dx dy : Len) (c : dcall) : dcall :=
  match c with
  | GfxModel.DText t x y f col => GfxModel.DText t (x + dx) (y + dy) f col
  | DRect x y w h col => DRect (x + dx) (y + dy) w h col
  | DLine ps col w s => DLine (map (fun p => (fst p + dx, snd p + dy)) ps) col w s
  | DBBox x y w h => DBBox (x + dx) (y + dy) w h
  end.
(** The background and the borders of one element *)
Definition at_most_a_frame (cs : list dcall) : Prop :=
  (List.length cs <= 5)%nat /\ Forall (fun c => match c with DRect _ _ _ _ _ => True | DLine _ _ _ _ => True | _ => False end) cs.
End Any.
