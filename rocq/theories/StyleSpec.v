(** Specification of the CSS cascade and of the CSS value syntax, independent of the cascade code. *)
From Verif Require Import StyleModel.
From Verif Require Import GfxModel.
Local Open Scope len_scope.
Section Any.
Context {ar : Arith}.

(* ------------------------------------------------------------------ *)
(** * Computed values *)

(** A length with the font size its `em` refers to. *)
Definition px_of (em : Len) (s : slength) : Len := match s with SAbs l => l | SEm v => em * v end.
Definition lp_map {A B} (f : A -> B) (v : lp A) : lp B := match v with LPLen l => LPLen (f l) | LPPct p => LPPct p end.
Definition lpa_map {A B} (f : A -> B) (v : lpa A) : lpa B :=
  match v with LPALen l => LPALen (f l) | LPAPct p => LPAPct p | LPAAuto => LPAAuto end.
Definition lpn_map {A B} (f : A -> B) (v : lpn A) : lpn B :=
  match v with LPNLen l => LPNLen (f l) | LPNPct p => LPNPct p | LPNNum n => LPNNum n end.
Definition va_map {A B} (f : A -> B) (v : vertical_align A) : vertical_align B :=
  match v with
  | VABaseline => VABaseline | VASub => VASub | VASuper => VASuper | VATop => VATop | VATextTop => VATextTop
  | VAMiddle => VAMiddle | VABottom => VABottom | VATextBottom => VATextBottom
  | VALen l => VALen (f l) | VAPct p => VAPct p
  end.

(** Computed value of a specified value, given the parent's style and the element's own font size. *)
Definition computed (parent : style) (own : Len) (l : longhand) : sty l -> vty l :=
  match l return sty l -> vty l with
  | Lfont_size => px_of (sv parent Lfont_size)
  | Lcolor => fun c => match c with CRGBA r => r | CCurrent => sv parent Lcolor end
  | Lline_height => lpn_map (px_of own)
  | Lvertical_align => va_map (px_of own)
  | Ltop | Lleft | Lbottom | Lright | Lwidth | Lheight
  | Lmargin_top | Lmargin_right | Lmargin_bottom | Lmargin_left => lpa_map (px_of own)
  | Lpadding_top | Lpadding_right | Lpadding_bottom | Lpadding_left => lp_map (px_of own)
  | Lborder_top_width | Lborder_right_width | Lborder_bottom_width | Lborder_left_width => lp_map (px_of own)
  | Lfont_style | Lfont_weight | Lfont_family | Ltext_align | Lwhite_space | Lposition | Lfloat | Ldisplay
  | Lborder_top_color | Lborder_right_color | Lborder_bottom_color | Lborder_left_color
  | Lborder_top_style | Lborder_right_style | Lborder_bottom_style | Lborder_left_style
  | Lbackground_color => fun v => v
  end.

(** The longhands CSS calls inherited (CSS 2.2 property index, for the supported ones). *)
Definition css_inherited : list longhand :=
  [Lcolor; Lfont_family; Lfont_size; Lfont_style; Lfont_weight; Lline_height; Ltext_align; Lwhite_space].
(** Value without any declaration. *)
Definition default_value (parent : style) (l : longhand) : vty l :=
  if in_dec longhand_eq_dec l css_inherited then sv parent l else initial_value l.

Definition decl_longhand (d : decl) : longhand := match d with DVal l _ => l | DWide l _ => l end.
(** Value a declaration stands for. *)
Definition decl_value (parent : style) (own : Len) (d : decl) : vty (decl_longhand d) :=
  match d with
  | DVal l v => computed parent own l v
  | DWide l KInitial => initial_value l
  | DWide l KInherit => sv parent l
  | DWide l KUnset => default_value parent l
  end.

(** The two adjustments CSS makes after the cascade: borders of style none have width 0, and
    absolutely positioned or floated boxes are block-level. *)
Definition out_of_flow (s : style) : Prop := sv s Lposition = PosAbsolute \/ sv s Lfloat <> FloatNone.
Definition out_of_flow_dec (s : style) : {out_of_flow s} + {~ out_of_flow s}.
Proof.
  unfold out_of_flow. destruct (sv s Lposition); destruct (sv s Lfloat);
    try (left; left; reflexivity); try (left; right; discriminate); right; intros [H|H]; congruence.
Defined.
Definition width_if (st : line_style) (w : lp Len) : lp Len := match st with LSNone => LPLen l0 | _ => w end.
Definition block_level (d : display) : display :=
  match d with DispNone => DispNone | DispContents => DispContents | DispBox _ i => DispBox OBlock i end.
Definition adjusted (s : style) (l : longhand) : vty l -> vty l :=
  match l return vty l -> vty l with
  | Lborder_top_width => width_if (sv s Lborder_top_style)
  | Lborder_right_width => width_if (sv s Lborder_right_style)
  | Lborder_bottom_width => width_if (sv s Lborder_bottom_style)
  | Lborder_left_width => width_if (sv s Lborder_left_style)
  | Ldisplay => fun d => if out_of_flow_dec s then block_level d else d
  | _ => fun v => v
  end.

(** The parent's style; at the root the initial values. *)
Definition parent_or_initial (p : option style) : style := match p with Some s => s | None => initial_style end.

(* ------------------------------------------------------------------ *)
(** * Priority of declarations *)

(** An applicable declaration: origin, importance, specificity (None: style attribute), position of the
    rule in its origin's sheets, position in the block. *)
Record cand := Cand {
  c_ua : bool; c_important : bool; c_spec : option N; c_rule : nat; c_pos : nat; c_decl : decl }.
Definition c_level (c : cand) : nat :=
  match c_ua c, c_important c with
  | true, false => 0 | false, false => 1 | false, true => 2 | true, true => 3
  end.
Definition spec_lt (a b : option N) : Prop :=
  match a, b with
  | Some x, Some y => (x < y)%N
  | Some _, None => True
  | None, _ => False
  end.
(** [outranks a b]: a beats b. *)
Definition outranks (a b : cand) : Prop :=
  (c_level b < c_level a)%nat \/
  c_level b = c_level a /\
  (spec_lt (c_spec b) (c_spec a) \/
   c_spec b = c_spec a /\
   ((c_rule b < c_rule a)%nat \/ c_rule b = c_rule a /\ (c_pos b < c_pos a)%nat)).
(** c wins its property among the candidates. *)
Definition wins (cs : list cand) (c : cand) : Prop :=
  In c cs /\ forall c', In c' cs -> decl_longhand (c_decl c') = decl_longhand (c_decl c) -> c' = c \/ outranks c c'.
Definition undeclared (cs : list cand) (l : longhand) : Prop := forall c, In c cs -> decl_longhand (c_decl c) <> l.

(** The declarations of a block, each with its importance. *)
Definition entries (b : block) : list (decl * bool) := combine (b_decls b) (b_important b).
Fixpoint block_cands_from (ua : bool) (sp : option N) (rule pos : nat) (es : list (decl * bool)) : list cand :=
  match es with
  | [] => []
  | (d, i) :: r => Cand ua i sp rule pos d :: block_cands_from ua sp rule (S pos) r
  end.
Definition block_cands (ua : bool) (sp : option N) (rule : nat) (b : block) : list cand :=
  block_cands_from ua sp rule 0 (entries b).
(** Candidates of the rules of one origin, in source order. *)
Fixpoint sheet_cands {selector} (specificity : selector -> N) (matches : selector -> bool) (ua : bool) (i : nat)
    (rules : list (selector * block)) : list cand :=
  match rules with
  | [] => []
  | (s, b) :: r =>
      (if matches s then block_cands ua (Some (specificity s)) i b else []) ++ sheet_cands specificity matches ua (S i) r
  end.
(** All applicable declarations of an element. *)
Definition applicable {selector} (specificity : selector -> N) (matches : selector -> bool)
    (ua author : list (selector * block)) (attr : option block) : list cand :=
  sheet_cands specificity matches true 0 ua ++ sheet_cands specificity matches false 0 author ++
  match attr with Some b => block_cands false None 0 b | None => [] end.

(** A block that came out of the declaration parser. *)
Definition parsed (ct : token -> option color) (b : block) : Prop := exists items, parse_block ct items = Ok b.

(** Two styles with the same value of every property. *)
Definition same_style (a b : style) : Prop :=
  (forall l, sv a l = sv b l) /\ s_specified_display a = s_specified_display b.

(* ------------------------------------------------------------------ *)
(** * Declarations *)

(** CSS names of the longhands. *)
Definition css_name (l : longhand) : string :=
  match l with
  | Lfont_size => "font-size" | Lfont_style => "font-style" | Lfont_weight => "font-weight" | Lfont_family => "font-family"
  | Lline_height => "line-height" | Lvertical_align => "vertical-align" | Lcolor => "color"
  | Ltext_align => "text-align" | Lwhite_space => "white-space"
  | Lposition => "position" | Lfloat => "float" | Ldisplay => "display"
  | Ltop => "top" | Lleft => "left" | Lbottom => "bottom" | Lright => "right" | Lwidth => "width" | Lheight => "height"
  | Lmargin_top => "margin-top" | Lmargin_right => "margin-right"
  | Lmargin_bottom => "margin-bottom" | Lmargin_left => "margin-left"
  | Lpadding_top => "padding-top" | Lpadding_right => "padding-right"
  | Lpadding_bottom => "padding-bottom" | Lpadding_left => "padding-left"
  | Lborder_top_color => "border-top-color" | Lborder_right_color => "border-right-color"
  | Lborder_bottom_color => "border-bottom-color" | Lborder_left_color => "border-left-color"
  | Lborder_top_style => "border-top-style" | Lborder_right_style => "border-right-style"
  | Lborder_bottom_style => "border-bottom-style" | Lborder_left_style => "border-left-style"
  | Lborder_top_width => "border-top-width" | Lborder_right_width => "border-right-width"
  | Lborder_bottom_width => "border-bottom-width" | Lborder_left_width => "border-left-width"
  | Lbackground_color => "background-color"
  end%string.

(** Four-sided shorthands and their longhands: top, right, bottom, left. *)
Definition sides_of (s : shorthand) : option (longhand * longhand * longhand * longhand) :=
  match s with
  | Smargin => Some (Lmargin_top, Lmargin_right, Lmargin_bottom, Lmargin_left)
  | Spadding => Some (Lpadding_top, Lpadding_right, Lpadding_bottom, Lpadding_left)
  | Sborder_style => Some (Lborder_top_style, Lborder_right_style, Lborder_bottom_style, Lborder_left_style)
  | Sborder_color => Some (Lborder_top_color, Lborder_right_color, Lborder_bottom_color, Lborder_left_color)
  | Sborder_width => Some (Lborder_top_width, Lborder_right_width, Lborder_bottom_width, Lborder_left_width)
  | _ => None
  end.
(** The CSS rule: which of the 1-4 written values each side takes. *)
Inductive css_sides {A} : list A -> A -> A -> A -> A -> Prop :=
| css_sides1 a : css_sides [a] a a a a
| css_sides2 a b : css_sides [a; b] a b a b
| css_sides3 a b c : css_sides [a; b; c] a b c b
| css_sides4 a b c d : css_sides [a; b; c; d] a b c d.

(** [t] is a value of longhand [l] that declares [d]. *)
Definition long_value (ct : token -> option color) (l : longhand) (t : token) (d : decl) : Prop :=
  exists v, parse_longhand ct l [t] = Some (v, []) /\ d = DVal l v.

(** Border shorthands: the sides they set, each side as (style, colour, width). *)
Definition border_longhands (s : shorthand) : list (longhand * longhand * longhand) :=
  let top := (Lborder_top_style, Lborder_top_color, Lborder_top_width) in
  let rgt := (Lborder_right_style, Lborder_right_color, Lborder_right_width) in
  let bot := (Lborder_bottom_style, Lborder_bottom_color, Lborder_bottom_width) in
  let lft := (Lborder_left_style, Lborder_left_color, Lborder_left_width) in
  match s with
  | Sborder_top => [top] | Sborder_right => [rgt] | Sborder_bottom => [bot] | Sborder_left => [lft]
  | Sborder => [top; rgt; bot; lft]
  | _ => []
  end.
(** A colour is neither a border style nor a border width, and is one of identifier, hash, function:
    what CSS guarantees about cssparser's colours. *)
Record colour_contract (ct : token -> option color) : Prop := {
  cc_not_style : forall t c, ct t = Some c -> parse_line_style [t] = None;
  cc_not_width : forall t c, ct t = Some c -> parse_line_width [t] = None;
  cc_not_wide : forall t c, ct t = Some c -> parse_wide [t] = None;
  cc_not_delim : forall c, ct (TDelim c) = None }.

(** What a source declaration contributes: the declared longhands with their importance; nothing when it
    is invalid (unknown property, missing colon, value that does not parse, something after the value). *)
Definition split_value (ct : token -> option color) (p : property) (ts : list token) : option (list decl * list token) :=
  match parse_wide ts with
  | Some (k, r) => Some (map (fun l => DWide l k) (property_longhands p), r)
  | None => parse_property ct p ts
  end.
Definition is_important (ts : list token) : bool :=
  match ts with
  | [TDelim c; TIdent s] => Ascii.eqb c "!" && String.eqb (lower s) "important"
  | _ => false
  end.
Definition item_entries (ct : token -> option color) (i : item) : list (decl * bool) :=
  match i with
  | IDecl name (TColon :: ts) =>
      match property_by_name name with
      | Some p =>
          match split_value ct p ts with
          | Some (ds, []) => map (fun d => (d, false)) ds
          | Some (ds, r) => if is_important r then map (fun d => (d, true)) ds else []
          | None => []
          end
      | None => []
      end
  | _ => []
  end.
(** A declaration whose value is followed by something else than `!important`. *)
Definition leftover (ct : token -> option color) (i : item) : Prop :=
  exists name ts p ds r, i = IDecl name (TColon :: ts) /\ property_by_name name = Some p /\
    split_value ct p ts = Some (ds, r) /\ r <> [] /\ is_important r = false.

(** Border shorthand part: the written token's value, or reset to initial when not written. *)
Definition border_part (ct : token -> option color) (l : longhand) (o : option token) (d : decl) : Prop :=
  match o with None => d = DWide l KInitial | Some t => long_value ct l t d end.
Definition opt_list {A} (o : option A) : list A := match o with Some a => [a] | None => [] end.

(** Documented keywords and the values they stand for (CSS 2.2, vignettes/supported_CSS.Rmd). *)
Local Open Scope string_scope.
Definition keyword_values : list (longhand * string * decl) :=
  let k l s v := (l, s, DVal l v) in
  [ k Lfont_style "normal" FSNormal; k Lfont_style "italic" FSItalic; k Lfont_style "oblique" FSOblique;
    k Lfont_weight "normal" FWNormal; k Lfont_weight "bold" FWBold;
    k Lfont_family "serif" FamSerif; k Lfont_family "sans-serif" FamSans; k Lfont_family "monospace" FamMono;
    k Lfont_family "cursive" FamCursive; k Lfont_family "fantasy" FamFantasy;
    k Lvertical_align "baseline" VABaseline; k Lvertical_align "sub" VASub; k Lvertical_align "super" VASuper;
    k Lvertical_align "top" VATop; k Lvertical_align "text-top" VATextTop; k Lvertical_align "middle" VAMiddle;
    k Lvertical_align "bottom" VABottom; k Lvertical_align "text-bottom" VATextBottom;
    k Ltext_align "left" TALeft; k Ltext_align "right" TARight; k Ltext_align "center" TACenter;
    k Ltext_align "justify" TAJustify;
    k Lwhite_space "normal" WSNormal; k Lwhite_space "nowrap" WSNowrap; k Lwhite_space "pre" WSPre;
    k Lwhite_space "pre-wrap" WSPreWrap; k Lwhite_space "pre-line" WSPreLine; k Lwhite_space "break-spaces" WSBreakSpaces;
    k Lposition "static" PosStatic; k Lposition "relative" PosRelative; k Lposition "absolute" PosAbsolute;
    k Lfloat "none" FloatNone; k Lfloat "left" FloatLeft; k Lfloat "right" FloatRight;
    k Ldisplay "none" DispNone; k Ldisplay "contents" DispContents; k Ldisplay "block" (DispBox OBlock IFlow);
    k Ldisplay "flow-root" (DispBox OBlock IFlowRoot); k Ldisplay "inline" (DispBox OInline IFlow) ] ++
  [ k Ltop "auto" LPAAuto; k Lleft "auto" LPAAuto; k Lbottom "auto" LPAAuto; k Lright "auto" LPAAuto;
    k Lwidth "auto" LPAAuto; k Lheight "auto" LPAAuto;
    k Lmargin_top "auto" LPAAuto; k Lmargin_right "auto" LPAAuto; k Lmargin_bottom "auto" LPAAuto; k Lmargin_left "auto" LPAAuto;
    k Lborder_top_style "none" LSNone; k Lborder_top_style "solid" LSSolid; k Lborder_top_style "dotted" LSDotted; k Lborder_top_style "dashed" LSDashed;
    k Lborder_right_style "none" LSNone; k Lborder_right_style "solid" LSSolid; k Lborder_right_style "dotted" LSDotted; k Lborder_right_style "dashed" LSDashed;
    k Lborder_bottom_style "none" LSNone; k Lborder_bottom_style "solid" LSSolid; k Lborder_bottom_style "dotted" LSDotted; k Lborder_bottom_style "dashed" LSDashed;
    k Lborder_left_style "none" LSNone; k Lborder_left_style "solid" LSSolid; k Lborder_left_style "dotted" LSDotted; k Lborder_left_style "dashed" LSDashed;
    k Lborder_top_width "thin" (LPLen (SAbs (px 1))); k Lborder_top_width "medium" (LPLen (SAbs (px 3))); k Lborder_top_width "thick" (LPLen (SAbs (px 5)));
    k Lborder_right_width "thin" (LPLen (SAbs (px 1))); k Lborder_right_width "medium" (LPLen (SAbs (px 3))); k Lborder_right_width "thick" (LPLen (SAbs (px 5)));
    k Lborder_bottom_width "thin" (LPLen (SAbs (px 1))); k Lborder_bottom_width "medium" (LPLen (SAbs (px 3))); k Lborder_bottom_width "thick" (LPLen (SAbs (px 5)));
    k Lborder_left_width "thin" (LPLen (SAbs (px 1))); k Lborder_left_width "medium" (LPLen (SAbs (px 3))); k Lborder_left_width "thick" (LPLen (SAbs (px 5))) ].
(** CSS-wide keywords. *)
Definition wide_keywords : list (string * wide) := [("inherit", KInherit); ("initial", KInitial); ("unset", KUnset)].

(** Absolute units: px per unit. *)
Definition unit_px : list (string * Q) :=
  [("px", 1#1); ("in", 96#1); ("cm", 9600#254); ("mm", 960#254); ("pt", 96#72); ("pc", 96#6)]%Q.
Definition known_unit (u : string) : Prop := u = "em" \/ exists f, In (u, f) unit_px.

(* ------------------------------------------------------------------ *)
(** * Style of an element, from the style sheets and its style attribute *)
Local Close Scope string_scope.

(** The rules of some sheets in source order, one per selector. *)
Definition rules_of {selector} (sheets : list (list (rule selector))) : list (selector * list item) :=
  flat_map (flat_map (fun r => match r with RStyle sels items => map (fun s => (s, items)) sels | RErr => [] end)) sheets.
(** The valid declarations of a block. *)
Definition declared (ct : token -> option color) (items : list item) : list (decl * bool) := flat_map (item_entries ct) items.
Fixpoint rule_cands {selector} (ct : token -> option color) (specificity : selector -> N) (matches : selector -> bool)
    (ua : bool) (i : nat) (rules : list (selector * list item)) : list cand :=
  match rules with
  | [] => []
  | (s, items) :: r =>
      (if matches s then block_cands_from ua (Some (specificity s)) i 0 (declared ct items) else []) ++
      rule_cands ct specificity matches ua (S i) r
  end.
(** All declarations that apply to an element. *)
Definition candidates {selector} (ct : token -> option color) (specificity : selector -> N) (matches : selector -> bool)
    (ua author : list (list (rule selector))) (attr : option (list item)) : list cand :=
  rule_cands ct specificity matches true 0 (rules_of ua) ++
  rule_cands ct specificity matches false 0 (rules_of author) ++
  match attr with Some items => block_cands_from false None 0 0 (declared ct items) | None => [] end.

(** [s] is the style the program computes for an element: both sets of sheets are added and sorted, and
    the cascade runs without failing. *)
Definition element_style {selector} (ct : token -> option color) (specificity : selector -> N) (matches : selector -> bool)
    (ua author : list (list (rule selector))) (attr : option (list item)) (parent : option style) (s : style) : Prop :=
  exists ua_rules author_rules,
    add_stylesheets ct selector [] ua = Ok ua_rules /\
    add_stylesheets ct selector [] author = Ok author_rules /\
    style_for_element ct selector (finish selector specificity ua_rules) (finish selector specificity author_rules)
      matches attr parent = Ok s.

(** The display a declaration of `display` asks for. *)
Definition declared_display (parent : style) (d : decl) : option display :=
  match d with
  | DVal l v => match l return sty l -> option display with Ldisplay => fun v => Some v | _ => fun _ => None end v
  | DWide Ldisplay KInherit => Some (sv parent Ldisplay)
  | DWide Ldisplay _ => Some (DispBox OInline IFlow)
  | DWide _ _ => None
  end.
(** The border style that governs a border width. *)
Definition governing_style (s : style) (l : longhand) : option line_style :=
  match l with
  | Lborder_top_width => Some (sv s Lborder_top_style)
  | Lborder_right_width => Some (sv s Lborder_right_style)
  | Lborder_bottom_width => Some (sv s Lborder_bottom_style)
  | Lborder_left_width => Some (sv s Lborder_left_style)
  | _ => None
  end.
(** The same block with every flag raised, so that it is never skipped. *)
Definition never_skipped (b : block) : block :=
  Block (b_decls b) (b_important b) (Phases true true) (Phases true true).

(** CSS 2.2 four-sided shorthands by name: top, right, bottom, left. *)
Definition four_sided : list (string * (longhand * longhand * longhand * longhand)) :=
  [("margin", (Lmargin_top, Lmargin_right, Lmargin_bottom, Lmargin_left));
   ("padding", (Lpadding_top, Lpadding_right, Lpadding_bottom, Lpadding_left));
   ("border-style", (Lborder_top_style, Lborder_right_style, Lborder_bottom_style, Lborder_left_style));
   ("border-color", (Lborder_top_color, Lborder_right_color, Lborder_bottom_color, Lborder_left_color));
   ("border-width", (Lborder_top_width, Lborder_right_width, Lborder_bottom_width, Lborder_left_width))]%string.
(** CSS 2.2 border shorthands by name: for each side its style, colour and width. *)
Definition border_sided : list (string * list (longhand * longhand * longhand)) :=
  let top := (Lborder_top_style, Lborder_top_color, Lborder_top_width) in
  let rgt := (Lborder_right_style, Lborder_right_color, Lborder_right_width) in
  let bot := (Lborder_bottom_style, Lborder_bottom_color, Lborder_bottom_width) in
  let lft := (Lborder_left_style, Lborder_left_color, Lborder_left_width) in
  [("border-top", [top]); ("border-right", [rgt]); ("border-bottom", [bot]); ("border-left", [lft]);
   ("border", [top; rgt; bot; lft])]%string.
(** Every CSS property with the longhands it sets. *)
Definition css_properties : list (string * list longhand) :=
  map (fun l => (css_name l, [l])) all_longhands ++
  map (fun x => (fst x, let '(a, b, c, d) := snd x in [a; b; c; d])) four_sided ++
  map (fun x => (fst x, flat_map (fun t => [fst (fst t); snd (fst t); snd t]) (snd x))) border_sided ++
  [("background", [Lbackground_color])]%string.

(** The colour a declaration of a border or background colour writes, and the one a style holds. *)
Definition colour_of_decl (d : decl) : option color :=
  match d with
  | DVal l v => match l return sty l -> option color with
      | Lborder_top_color | Lborder_right_color | Lborder_bottom_color | Lborder_left_color | Lbackground_color => fun v => Some v
      | _ => fun _ => None
      end v
  | DWide _ _ => None
  end.
Definition colour_of_style (s : style) (l : longhand) : option color :=
  match l with
  | Lborder_top_color => Some (sv s Lborder_top_color)
  | Lborder_right_color => Some (sv s Lborder_right_color)
  | Lborder_bottom_color => Some (sv s Lborder_bottom_color)
  | Lborder_left_color => Some (sv s Lborder_left_color)
  | Lbackground_color => Some (sv s Lbackground_color)
  | _ => None
  end.
End Any.
