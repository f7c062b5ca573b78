(** What it means to wrap inline content in an inline element that adds nothing (C95). *)
From Verif Require Import Base Len StyleModel StyleSpec TreeModel GfxModel.

(** The same values of the inherited properties: font, line height, colour, alignment, white space *)
Definition same_inherited (s s' : style) : Prop := forall l, In l css_inherited -> sv s' l = sv s l.

(** An inline element of style [st] in an element of style [parent] adds nothing: it inherits what is inherited, and it
    has no border, no background, no margin or padding on the left and right, and sits in its place on the baseline. *)
Record adds_nothing (parent st : style) : Prop := {
  an_text : same_inherited parent st;
  an_inline : sv st Ldisplay = DispBox OInline IFlow;
  an_static : sv st Lposition = PosStatic;
  an_baseline : sv st Lvertical_align = VABaseline;
  an_margin : sv st Lmargin_left = LPALen l0 /\ sv st Lmargin_right = LPALen l0;
  an_padding : sv st Lpadding_left = LPLen l0 /\ sv st Lpadding_right = LPLen l0;
  an_border : sv st Lborder_top_width = LPLen l0 /\ sv st Lborder_right_width = LPLen l0 /\
              sv st Lborder_bottom_width = LPLen l0 /\ sv st Lborder_left_width = LPLen l0;
  an_background : sv st Lbackground_color = CRGBA transparent
}.

(** Elements that are inline boxes *)
Definition inline_element (n : snode) : Prop :=
  match n with SElem br st _ => br = false /\ sv st Ldisplay = DispBox OInline IFlow | _ => False end.
(** Text, line breaks, comments, and inline elements with nothing else inside *)
Inductive inline_content : snode -> Prop :=
| IC_text t : inline_content (SText t)
| IC_other : inline_content SOther
| IC_br st kids : inline_content (SElem true st kids)
| IC_inline st kids : sv st Ldisplay = DispBox OInline IFlow -> Forall inline_content kids ->
    inline_content (SElem false st kids).
(** A character other than white space is in there. *)
Inductive shows_text : snode -> Prop :=
| ST_text t c : In c t -> ~ In c [32; 9; 10; 12; 13]%N -> shows_text (SText t)
| ST_inline st kids : Exists shows_text kids -> shows_text (SElem false st kids).
(** Elements that make a box of their own here: inline boxes, blocks, floats, absolutely positioned boxes *)
Definition makes_box (n : snode) : Prop :=
  match n with SElem br st _ => br = false /\ exists o i, sv st Ldisplay = DispBox o i | _ => False end.

(** The same nodes with the same styles *)
Inductive same_node : snode -> snode -> Prop :=
| SN_text t : same_node (SText t) (SText t)
| SN_other : same_node SOther SOther
| SN_elem br st st' kids kids' : same_style st st' -> Forall2 same_node kids kids' ->
    same_node (SElem br st kids) (SElem br st' kids').

(** The wrapped content does not lean on the text before it: there is nothing before it, or it starts with an inline
    element with text in it. *)
Definition starts_apart (first : bool) (inner : list snode) : Prop :=
  (first = true /\ Exists (fun n => inline_element n \/ shows_text n) inner) \/
  exists n rest, inner = n :: rest /\ inline_element n /\ shows_text n.
(** The text after it does not lean on the wrapped content: an inline element is last there, or nothing or a box of its
    own follows. *)
Definition ends_apart (inner rest : list snode) : Prop :=
  (exists front n, inner = front ++ [n] /\ inline_element n) \/ rest = [] \/
  exists n rest', rest = n :: rest' /\ makes_box n.

(** [unwrapped parent first kids kids']: some of the nodes in [kids], the contents of a box of style [parent] (or the
    rest of them, if not [first]), or deeper down, are inline elements that add nothing, and in [kids'] their contents
    stand in their place. *)
Inductive unwrapped : style -> bool -> list snode -> list snode -> Prop :=
| U_nil parent first : unwrapped parent first [] []
| U_node parent first n n' kids kids' : unwrapped_node n n' -> unwrapped parent false kids kids' ->
    unwrapped parent first (n :: kids) (n' :: kids')
| U_wrapper parent first st inner inner' kids kids' : adds_nothing parent st ->
    Forall inline_content inner -> Forall2 same_node inner inner' ->
    starts_apart first inner -> ends_apart inner kids -> unwrapped parent false kids kids' ->
    unwrapped parent first (SElem false st inner :: kids) (inner' ++ kids')
with unwrapped_node : snode -> snode -> Prop :=
| UN_same n n' : same_node n n' -> unwrapped_node n n'
| UN_box br st st' kids kids' : same_style st st' -> sv st Ldisplay <> DispContents -> unwrapped st true kids kids' ->
    unwrapped_node (SElem br st kids) (SElem br st' kids').

(** Fonts and text widths are looked up by font family, style, weight and size. *)
Definition looks_at_font {A} (f : style -> A) : Prop := forall s s',
  sv s' Lfont_family = sv s Lfont_family -> sv s' Lfont_style = sv s Lfont_style ->
  sv s' Lfont_weight = sv s Lfont_weight -> sv s' Lfont_size = sv s Lfont_size -> f s' = f s.
(** What can be seen of a drawing: all but the bounding boxes that are only recorded *)
Definition visible (cs : list dcall) : list dcall := filter (fun c => match c with DBBox _ _ _ _ => false | _ => true end) cs.
