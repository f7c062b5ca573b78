(** What it means to take away a block that adds nothing (C97). *)
From Verif Require Import Base Len StyleModel StyleSpec BlockModel TreeModel TreeSpec GfxModel AppendSpec.
Local Open Scope len_scope.

(** A block of style [st] adds nothing of its own: it is in its place in normal flow, as wide and as high as it comes
    out, without margin, padding, border or background. *)
Record block_adds_nothing (st : style) : Prop := {
  bn_block : sv st Ldisplay = DispBox OBlock IFlow;
  bn_static : sv st Lposition = PosStatic;
  bn_float : is_floating (sv st Lfloat) = false;
  bn_size : sv st Lwidth = LPAAuto /\ sv st Lheight = LPAAuto;
  bn_margin : sv st Lmargin_top = LPALen l0 /\ sv st Lmargin_right = LPALen l0 /\
              sv st Lmargin_bottom = LPALen l0 /\ sv st Lmargin_left = LPALen l0;
  bn_padding : sv st Lpadding_top = LPLen l0 /\ sv st Lpadding_right = LPLen l0 /\
               sv st Lpadding_bottom = LPLen l0 /\ sv st Lpadding_left = LPLen l0;
  bn_border : sv st Lborder_top_width = LPLen l0 /\ sv st Lborder_right_width = LPLen l0 /\
              sv st Lborder_bottom_width = LPLen l0 /\ sv st Lborder_left_width = LPLen l0;
  bn_background : sv st Lbackground_color = CRGBA transparent
}.

(** Comments and the like, and white space that is not kept in an element of style [st] *)
Definition blank (st : style) (n : snode) : Prop :=
  match n with
  | SOther => True
  | SText t => Forall (fun c => In c [32; 9; 10; 12; 13]%N) t /\ (sv st Lwhite_space = WSNormal \/ sv st Lwhite_space = WSNowrap)
  | SElem _ _ _ => False
  end.
(** There is no inline content at the end of [before], in an element of style [st]. *)
Definition settled (st : style) (before : list snode) : Prop :=
  exists front blanks, before = front ++ blanks /\ Forall (blank st) blanks /\
    (front = [] \/ exists front' n, front = front' ++ [n] /\ block_element n).

(** [unboxed parent kids kids']: the contents of an element of style [parent] are [kids] before and [kids'] after taking
    away a block that adds nothing and leaving its contents, in that element, which has automatic height, or in a block
    in it, and so on.  There are blocks in it and, apart from those, at most comments and white space. *)
Inductive unboxed : style -> list snode -> list snode -> Prop :=
| Unbox_here parent before st inner after : sv parent Lheight = LPAAuto -> block_adds_nothing st ->
    Forall (fun n => block_element n \/ (blank parent n /\ blank st n)) inner -> Exists block_element inner ->
    settled parent before \/ (exists n rest, inner = n :: rest /\ block_element n) ->
    unboxed parent (before ++ SElem false st inner :: after) (before ++ inner ++ after)
| Unbox_inside parent before st kids kids' after : in_flow_block st -> unboxed st kids kids' ->
    unboxed parent (before ++ SElem false st kids :: after) (before ++ SElem false st kids' :: after).

(** What can be seen of a drawing: texts, rectangles that are not of height zero and lines that are not points *)
Definition has_extent (c : dcall) : bool :=
  match c with
  | DText _ _ _ _ _ => true
  | DRect _ _ _ h _ => negb (leqb h l0)
  | DLine [(x1, y1); (x2, y2)] _ _ _ => negb (leqb x1 x2 && leqb y1 y2)
  | DLine _ _ _ _ => true
  | DBBox _ _ _ _ => false
  end.
Definition with_extent (cs : list dcall) : list dcall := filter has_extent cs.
(** Above and below there is no negative padding and none in percent. *)
Definition plain_padding (st : style) : Prop :=
  (exists t, sv st Lpadding_top = LPLen t /\ (l0 <= t)%Qc) /\ exists b, sv st Lpadding_bottom = LPLen b /\ (l0 <= b)%Qc.
