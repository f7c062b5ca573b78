(** Model of the CSS value parsers, declaration blocks and the two-phase cascade:
    /repo/src/sinab/src/style/{values/*.rs,properties/*.rs,declaration_block.rs,cascade.rs} and the
    parsing code generated by /repo/src/sinab/sinab-derive/src/style.rs.  Definitions only. *)
From Verif Require Export Base Len GeomModel.
From Verif Require Import GfxModel.
From Verif Require DomModel.
Export DomModel(lower_ascii, lower, eq_ignore_ascii_case).
Local Open Scope len_scope.

Section Any.
Context {ar : Arith}.

(* ------------------------------------------------------------------ *)
(** * Values *)

(** SpecifiedLength, values/length.rs:30-35 *)
Inductive slength := SAbs (l : Len) | SEm (v : Len).
(** SpecifiedLengthOrPercentage / LengthOrPercentage, values/length.rs:37-47.  SIMPLIFICATION: the specified
    and the computed enum are one type, polymorphic in the length type. *)
Inductive lp (L : Type) := LPLen (l : L) | LPPct (p : Len).
(** SpecifiedLengthOrPercentageOrAuto / LengthOrPercentageOrAuto, values/length.rs:49-61 *)
Inductive lpa (L : Type) := LPALen (l : L) | LPAPct (p : Len) | LPAAuto.
(** SpecifiedLengthOrPercentageOrNumber / LengthOrPercentageOrNumber, values/length.rs:63-75 *)
Inductive lpn (L : Type) := LPNLen (l : L) | LPNPct (p : Len) | LPNNum (v : Len).
Arguments LPLen {L}. Arguments LPPct {L}.
Arguments LPALen {L}. Arguments LPAPct {L}. Arguments LPAAuto {L}.
Arguments LPNLen {L}. Arguments LPNPct {L}. Arguments LPNNum {L}.
(** LengthOrAuto, values/length.rs:77-81 *)
Inductive la := LALen (l : Len) | LAAuto.

(** LengthOrPercentage::percentage_relative_to, values/length.rs:260-267 *)
Definition lp_rel (v : lp Len) (reference : Len) : Len :=
  match v with LPLen l => l | LPPct p => reference * p end.
(** LengthOrPercentageOrNumber::percentage_or_number_relative_to, values/length.rs:269-277 *)
Definition lpn_rel (v : lpn Len) (reference : Len) : Len :=
  match v with LPNLen l => l | LPNPct p => reference * p | LPNNum n => reference * n end.
(** LengthOrPercentageOrAuto::non_auto, values/length.rs:289-295 *)
Definition lpa_non_auto (v : lpa Len) : option (lp Len) :=
  match v with LPALen l => Some (LPLen l) | LPAPct p => Some (LPPct p) | LPAAuto => None end.
(** LengthOrPercentageOrAuto::percentage_relative_to, values/length.rs:297-303 *)
Definition lpa_rel (v : lpa Len) (reference : Len) : la :=
  match v with LPALen l => LALen l | LPAPct p => LALen (reference * p) | LPAAuto => LAAuto end.
(** LengthOrAuto::auto_is, values/length.rs:307-312 *)
Definition auto_is (v : la) (d : Len) : Len := match v with LALen l => l | LAAuto => d end.

(** Color (cssparser), values/color.rs:6-20 *)
Inductive color := CRGBA (c : rgba) | CCurrent.
(** BLACK, values/color.rs:39-44; RGBA::transparent (cssparser): all zero *)
Definition black : rgba := RGBA "000" "000" "000" "255".
Definition transparent : rgba := RGBA "000" "000" "000" "000".

(** SpecifiedVerticalAlign / VerticalAlign, values/line.rs:3-29 (one polymorphic type) *)
Inductive vertical_align (L : Type) :=
| VABaseline | VASub | VASuper | VATop | VATextTop | VAMiddle | VABottom | VATextBottom
| VALen (l : L) | VAPct (p : Len).
Arguments VABaseline {L}. Arguments VASub {L}. Arguments VASuper {L}. Arguments VATop {L}.
Arguments VATextTop {L}. Arguments VAMiddle {L}. Arguments VABottom {L}. Arguments VATextBottom {L}.
Arguments VALen {L}. Arguments VAPct {L}.

(** WhiteSpace, TextAlign, values/text.rs:3-31 *)
Inductive white_space := WSNormal | WSNowrap | WSPre | WSPreWrap | WSPreLine | WSBreakSpaces.
Inductive text_align := TALeft | TARight | TACenter | TAJustify | TAPct (p : Len).

(** Display, values/box_.rs:7-42; Float 110-116; Position 128-134 *)
Inductive outside := OInline | OBlock.
Inductive inside := IFlow | IFlowRoot.
Inductive display := DispNone | DispContents | DispBox (o : outside) (i : inside).
Inductive float_ := FloatNone | FloatLeft | FloatRight.
Inductive position := PosStatic | PosRelative | PosAbsolute.

(** Display::INITIAL, values/box_.rs:45-48 *)
Definition display_initial : display := DispBox OInline IFlow.
(** Display::blockify, values/box_.rs:51-64 *)
Definition blockify (d : display) : display :=
  match d with DispBox _ i => DispBox OBlock i | other => other end.
(** Float::is_floating 118-125, Position::is_relatively_positioned, is_absolutely_positioned 136-143 *)
(** box_.rs:119-124 *)
Definition is_floating (f : float_) : bool := match f with FloatNone => false | _ => true end.
(** box_.rs:136-138 *)
Definition is_relatively_positioned (p : position) : bool := match p with PosRelative => true | _ => false end.
(** box_.rs:140-142 *)
Definition is_absolutely_positioned (p : position) : bool := match p with PosAbsolute => true | _ => false end.

(** CssWideKeyword, values/mod.rs:57-62 *)
Inductive wide := KInherit | KInitial | KUnset.

(* ------------------------------------------------------------------ *)
(** * Longhands *)

(** LonghandId: the longhands of properties/definitions.rs:6-84, in order. *)
Inductive longhand :=
| Lfont_size | Lfont_style | Lfont_weight | Lfont_family
| Lline_height
| Lvertical_align
| Lcolor
| Ltext_align | Lwhite_space
| Lposition | Lfloat | Ldisplay | Ltop | Lleft | Lbottom | Lright | Lwidth | Lheight
| Lmargin_top | Lmargin_right | Lmargin_bottom | Lmargin_left
| Lpadding_top | Lpadding_right | Lpadding_bottom | Lpadding_left
| Lborder_top_color | Lborder_right_color | Lborder_bottom_color | Lborder_left_color
| Lborder_top_style | Lborder_right_style | Lborder_bottom_style | Lborder_left_style
| Lborder_top_width | Lborder_right_width | Lborder_bottom_width | Lborder_left_width
| Lbackground_color.

Definition longhand_eq_dec (a b : longhand) : {a = b} + {a <> b}.
Proof. decide equality. Defined.

(** Type of the computed value, properties/definitions.rs:6-84.  FontSize(Length) and LineWidth(LengthOrPercentage)
    are erased to their content. *)
Definition vty (l : longhand) : Type :=
  match l with
  | Lfont_size => Len
  | Lfont_style => font_style
  | Lfont_weight => font_weight
  | Lfont_family => font_family
  | Lline_height => lpn Len
  | Lvertical_align => vertical_align Len
  | Lcolor => rgba
  | Ltext_align => text_align
  | Lwhite_space => white_space
  | Lposition => position
  | Lfloat => float_
  | Ldisplay => display
  | Ltop | Lleft | Lbottom | Lright | Lwidth | Lheight
  | Lmargin_top | Lmargin_right | Lmargin_bottom | Lmargin_left => lpa Len
  | Lpadding_top | Lpadding_right | Lpadding_bottom | Lpadding_left => lp Len
  | Lborder_top_color | Lborder_right_color | Lborder_bottom_color | Lborder_left_color => color
  | Lborder_top_style | Lborder_right_style | Lborder_bottom_style | Lborder_left_style => line_style
  | Lborder_top_width | Lborder_right_width | Lborder_bottom_width | Lborder_left_width => lp Len
  | Lbackground_color => color
  end.

(** Type of the specified value (SpecifiedValue impls: length.rs:109-111, color.rs:12-25, fonts.rs:12-14,
    and the derives SpecifiedAsComputed / FromSpecified). *)
Definition sty (l : longhand) : Type :=
  match l with
  | Lfont_size => slength
  | Lfont_style => font_style
  | Lfont_weight => font_weight
  | Lfont_family => font_family
  | Lline_height => lpn slength
  | Lvertical_align => vertical_align slength
  | Lcolor => color
  | Ltext_align => text_align
  | Lwhite_space => white_space
  | Lposition => position
  | Lfloat => float_
  | Ldisplay => display
  | Ltop | Lleft | Lbottom | Lright | Lwidth | Lheight
  | Lmargin_top | Lmargin_right | Lmargin_bottom | Lmargin_left => lpa slength
  | Lpadding_top | Lpadding_right | Lpadding_bottom | Lpadding_left => lp slength
  | Lborder_top_color | Lborder_right_color | Lborder_bottom_color | Lborder_left_color => color
  | Lborder_top_style | Lborder_right_style | Lborder_bottom_style | Lborder_left_style => line_style
  | Lborder_top_width | Lborder_right_width | Lborder_bottom_width | Lborder_left_width => lp slength
  | Lbackground_color => color
  end.

(** `inherited struct` / `reset struct`, properties/definitions.rs:9,16,20,24,29,34,46,53,60,77 *)
Definition is_inherited (l : longhand) : bool :=
  match l with
  | Lfont_size | Lfont_style | Lfont_weight | Lfont_family | Lline_height | Lcolor | Ltext_align | Lwhite_space => true
  | _ => false
  end.

(** `@early`, properties/definitions.rs:10; LonghandId::is_early, properties/macros.rs:73-81 *)
Definition is_early (l : longhand) : bool := match l with Lfont_size => true | _ => false end.

(** `initial = ...`, properties/definitions.rs:9-80 *)
Definition initial_value (l : longhand) : vty l :=
  match l with
  | Lfont_size => px 16
  | Lfont_style => FSNormal
  | Lfont_weight => FWNormal
  | Lfont_family => FamSans
  | Lline_height => LPNNum (px (12#10))
  | Lvertical_align => VABaseline
  | Lcolor => black
  | Ltext_align => TALeft
  | Lwhite_space => WSNormal
  | Lposition => PosStatic
  | Lfloat => FloatNone
  | Ldisplay => display_initial
  | Ltop | Lleft | Lbottom | Lright | Lwidth | Lheight => LPAAuto
  | Lmargin_top | Lmargin_right | Lmargin_bottom | Lmargin_left => LPALen l0
  | Lpadding_top | Lpadding_right | Lpadding_bottom | Lpadding_left => LPLen l0
  | Lborder_top_color | Lborder_right_color | Lborder_bottom_color | Lborder_left_color => CCurrent
  | Lborder_top_style | Lborder_right_style | Lborder_bottom_style | Lborder_left_style => LSNone
  | Lborder_top_width | Lborder_right_width | Lborder_bottom_width | Lborder_left_width => LPLen (px 3)
  | Lbackground_color => CRGBA transparent
  end.

(** LonghandDeclaration, properties/macros.rs:83-91 *)
Inductive decl :=
| DVal (l : longhand) (v : sty l)
| DWide (l : longhand) (k : wide).

(** ComputedValues, properties/macros.rs:165-171: the style structs flattened to one map from longhands to
    values (Arc sharing of the structs erased), and specified_display. *)
Record style := Style { sv : forall l, vty l; s_specified_display : display }.

(** Arc::make_mut(&mut computed.struct).field = value *)
(** macros.rs:56, 113, 143, box_.rs:72 *)
Definition set_sv (s : style) (l : longhand) (v : vty l) : style :=
  Style (fun l' => match longhand_eq_dec l l' with
                   | left e => eq_rect l vty v l' e
                   | right _ => sv s l'
                   end) (s_specified_display s).

(* ------------------------------------------------------------------ *)
(** * Specified to computed *)

(** Length::from_specified, values/length.rs:113-120: em is relative to this element's font size *)
Definition length_from_specified (font_size : Len) (s : slength) : Len :=
  match s with SAbs l => l | SEm v => font_size * v end.
(** FontSize::early_from_specified, values/fonts.rs:16-23: em is relative to the inherited font size *)
Definition font_size_early (inherited : style) (s : slength) : Len :=
  match s with SAbs l => l | SEm v => sv inherited Lfont_size * v end.
(** derive(FromSpecified), sinab-derive/src/style.rs:29-111 *)
Definition lp_from (fs : Len) (v : lp slength) : lp Len :=
  match v with LPLen l => LPLen (length_from_specified fs l) | LPPct p => LPPct p end.
Definition lpa_from (fs : Len) (v : lpa slength) : lpa Len :=
  match v with LPALen l => LPALen (length_from_specified fs l) | LPAPct p => LPAPct p | LPAAuto => LPAAuto end.
Definition lpn_from (fs : Len) (v : lpn slength) : lpn Len :=
  match v with LPNLen l => LPNLen (length_from_specified fs l) | LPNPct p => LPNPct p | LPNNum n => LPNNum n end.
Definition va_from (fs : Len) (v : vertical_align slength) : vertical_align Len :=
  match v with
  | VABaseline => VABaseline | VASub => VASub | VASuper => VASuper | VATop => VATop | VATextTop => VATextTop
  | VAMiddle => VAMiddle | VABottom => VABottom | VATextBottom => VATextBottom
  | VALen l => VALen (length_from_specified fs l) | VAPct p => VAPct p
  end.
(** RGBA::from_specified, values/color.rs:27-37 *)
Definition rgba_from (inherited : style) (c : color) : rgba :=
  match c with CRGBA r => r | CCurrent => sv inherited Lcolor end.

(** EarlyFromSpecified for the early properties; None: the declaration is not early *)
(** values/mod.rs:50-56, fonts.rs:16-23 *)
Definition early_value (inherited : style) (l : longhand) : sty l -> option (vty l) :=
  match l return sty l -> option (vty l) with
  | Lfont_size => fun v => Some (font_size_early inherited v)
  | _ => fun _ => None
  end.
(** FromSpecified for the late properties; [fs] is context.this.font_size(), macros.rs:240-255.
    None: the declaration is early *)
Definition late_value (inherited : style) (fs : Len) (l : longhand) : sty l -> option (vty l) :=
  match l return sty l -> option (vty l) with
  | Lfont_size => fun _ => None
  | Lfont_style | Lfont_weight | Lfont_family => fun v => Some v
  | Lline_height => fun v => Some (lpn_from fs v)
  | Lvertical_align => fun v => Some (va_from fs v)
  | Lcolor => fun v => Some (rgba_from inherited v)
  | Ltext_align | Lwhite_space | Lposition | Lfloat | Ldisplay => fun v => Some v
  | Ltop | Lleft | Lbottom | Lright | Lwidth | Lheight
  | Lmargin_top | Lmargin_right | Lmargin_bottom | Lmargin_left => fun v => Some (lpa_from fs v)
  | Lpadding_top | Lpadding_right | Lpadding_bottom | Lpadding_left => fun v => Some (lp_from fs v)
  | Lborder_top_color | Lborder_right_color | Lborder_bottom_color | Lborder_left_color => fun v => Some v
  | Lborder_top_style | Lborder_right_style | Lborder_bottom_style | Lborder_left_style => fun v => Some v
  | Lborder_top_width | Lborder_right_width | Lborder_bottom_width | Lborder_left_width => fun v => Some (lp_from fs v)
  | Lbackground_color => fun v => Some v
  end.

(** LonghandId::cascade_css_wide_keyword_into, properties/macros.rs:37-65 *)
Definition cascade_wide (l : longhand) (k : wide) (computed inherited : style) : style :=
  let is_initial := match k with
    | KInitial => true
    | KInherit => false
    | KUnset => negb (is_inherited l)
    end in
  set_sv computed l (if is_initial then initial_value l else sv inherited l).

(** LonghandDeclaration::if_early_cascade_into, properties/macros.rs:104-132 *)
Definition early_cascade_into (inherited : style) (this : style) (d : decl) : style :=
  match d with
  | DVal l v => match early_value inherited l v with Some c => set_sv this l c | None => this end
  | DWide l k => if is_early l then cascade_wide l k this inherited else this
  end.
(** LonghandDeclaration::if_late_cascade_into, properties/macros.rs:134-162 *)
Definition late_cascade_into (inherited : style) (this : style) (d : decl) : style :=
  match d with
  | DVal l v => match late_value inherited (sv this Lfont_size) l v with Some c => set_sv this l c | None => this end
  | DWide l k => if negb (is_early l) then cascade_wide l k this inherited else this
  end.

(* ------------------------------------------------------------------ *)
(** * Declaration blocks and the cascade *)

(** PerPhase<bool>, properties/mod.rs:118-122 *)
Record phases := Phases { ph_early : bool; ph_late : bool }.
(** PerPhase::default() *)
(** declaration_block.rs:93 *)
Definition no_phase : phases := Phases false false.
(** any.early |= parsed.early; any.late |= parsed.late, declaration_block.rs:116-117 *)
Definition ph_or (a b : phases) : phases := Phases (ph_early a || ph_early b) (ph_late a || ph_late b).

(** DeclarationBlock, declaration_block.rs:8-14 *)
Record block := Block {
  b_decls : list decl;
  b_important : list bool;
  b_any_important : phases;
  b_any_normal : phases }.
(** DeclarationBlock::default() *)
(** declaration_block.rs:16-27 *)
Definition block_empty : block := Block [] [] no_phase no_phase.

(** Phase: EarlyCascadeContext / CascadeContext, properties/mod.rs:93-116 *)
Inductive phase := Early | Late.
Definition ph_select (p : phase) (a : phases) : bool := match p with Early => ph_early a | Late => ph_late a end.
Definition ph_cascade (p : phase) (inherited this : style) (d : decl) : style :=
  match p with
  | Early => early_cascade_into inherited this d
  | Late => late_cascade_into inherited this d
  end.

(** DeclarationBlock::cascade, declaration_block.rs:58-68 *)
Definition block_cascade (p : phase) (inherited : style) (important : bool) (any : phases) (b : block) (this : style) : style :=
  if ph_select p any
  then fold_left (fun s dx => if Bool.eqb (snd dx) important then ph_cascade p inherited s (fst dx) else s)
                 (combine (b_decls b) (b_important b)) this
  else this.
(** DeclarationBlock::cascade_normal / cascade_important, declaration_block.rs:50-56 *)
Definition cascade_normal (p : phase) (inherited : style) (this : style) (b : block) : style :=
  block_cascade p inherited false (b_any_normal b) b this.
Definition cascade_important (p : phase) (inherited : style) (this : style) (b : block) : style :=
  block_cascade p inherited true (b_any_important b) b this.

(** MatchingDeclarations, cascade.rs:72-75 *)
Record matching := Matching { m_ua : list block; m_author : list block }.
(** MatchingDeclarations::cascade, cascade.rs:77-85 *)
Definition matching_cascade (p : phase) (inherited : style) (m : matching) (this : style) : style :=
  let s1 := fold_left (cascade_normal p inherited) (m_ua m) this in
  let s2 := fold_left (cascade_normal p inherited) (m_author m) s1 in
  let s3 := fold_left (cascade_important p inherited) (m_author m) s2 in
  fold_left (cascade_important p inherited) (m_ua m) s3.

(** LineWidth::fixup, values/border.rs:32-36 *)
Definition line_width_fixup (w : lp Len) (s : line_style) : lp Len :=
  match s with LSNone => LPLen l0 | _ => w end.
(** Display::fixup, values/box_.rs:67-75.  SIMPLIFICATION: the `!=` test before the write is dropped
    (it only avoids an Arc copy). *)
Definition display_fixup (s : style) : style :=
  let s1 := Style (sv s) (sv s Ldisplay) in
  if is_absolutely_positioned (sv s Lposition) || is_floating (sv s Lfloat)
  then set_sv s1 Ldisplay (blockify (sv s Ldisplay))
  else s1.
(** ComputedValues::post_cascade_fixups, properties/mod.rs:22-30 *)
Definition post_cascade_fixups (s : style) : style :=
  let s := set_sv s Lborder_top_width (line_width_fixup (sv s Lborder_top_width) (sv s Lborder_top_style)) in
  let s := set_sv s Lborder_left_width (line_width_fixup (sv s Lborder_left_width) (sv s Lborder_left_style)) in
  let s := set_sv s Lborder_bottom_width (line_width_fixup (sv s Lborder_bottom_width) (sv s Lborder_bottom_style)) in
  let s := set_sv s Lborder_right_width (line_width_fixup (sv s Lborder_right_width) (sv s Lborder_right_style)) in
  display_fixup s.

(** INITIAL_VALUES, properties/macros.rs:197-211 *)
Definition initial_style : style := Style initial_value display_initial.
(** ComputedValues::new, properties/macros.rs:193-234 *)
Definition style_new (inherited : option style) (m : option matching) : style :=
  let inherited := match inherited with Some s => s | None => initial_style end in
  let computed := Style (fun l => if is_inherited l then sv inherited l else initial_value l) display_initial in
  let computed := match m with
    | Some m => matching_cascade Late inherited m (matching_cascade Early inherited m computed)
    | None => computed
    end in
  post_cascade_fixups computed.
(** ComputedValues::anonymous_inheriting_from, properties/mod.rs:18-20 *)
Definition anonymous_inheriting_from (parent : option style) : style := style_new parent None.

(** ComputedValues::writing_mode, properties/mod.rs:32-35 is GeomModel.the_writing_mode *)
(** ComputedValues::box_offsets, properties/mod.rs:37-45 *)
Definition box_offsets (s : style) : sides (lpa Len) :=
  sides_to_flow_relative the_writing_mode (PSides (sv s Ltop) (sv s Lleft) (sv s Lbottom) (sv s Lright)).
(** ComputedValues::box_size, properties/mod.rs:47-53 *)
Definition box_size (s : style) : vec2 (lpa Len) :=
  size_to_flow_relative the_writing_mode (PVec (sv s Lwidth) (sv s Lheight)).
(** ComputedValues::padding, properties/mod.rs:55-63 *)
Definition style_padding (s : style) : sides (lp Len) :=
  sides_to_flow_relative the_writing_mode
    (PSides (sv s Lpadding_top) (sv s Lpadding_left) (sv s Lpadding_bottom) (sv s Lpadding_right)).
(** ComputedValues::border_width, properties/mod.rs:65-73 *)
Definition style_border_width (s : style) : sides (lp Len) :=
  sides_to_flow_relative the_writing_mode
    (PSides (sv s Lborder_top_width) (sv s Lborder_left_width) (sv s Lborder_bottom_width) (sv s Lborder_right_width)).
(** ComputedValues::margin, properties/mod.rs:75-83 *)
Definition style_margin (s : style) : sides (lpa Len) :=
  sides_to_flow_relative the_writing_mode
    (PSides (sv s Lmargin_top) (sv s Lmargin_left) (sv s Lmargin_bottom) (sv s Lmargin_right)).
(** ComputedValues::to_rgba, properties/mod.rs:85-90 *)
Definition to_rgba (s : style) (c : color) : rgba :=
  match c with CRGBA r => r | CCurrent => sv s Lcolor end.

(* ------------------------------------------------------------------ *)
(** * Parsing values *)

(** cssparser::Token, without whitespace and comments (Parser::next skips them).  A function with its
    arguments, a hash and a block are one opaque token.  A percentage carries its unit value (50% = 1/2). *)
(** external: what the parsers of style/values/*.rs read *)
Inductive token :=
| TIdent (s : string) | TQuoted (s : string)
| TNumber (v : Len) | TPercent (v : Len) | TDim (v : Len) (unit : string)
| TDelim (c : ascii) | TColon | TOther (k : nat).

(** A value parser reads a prefix of the tokens up to the next `;`; None is Err.  cssparser's
    Parser::try restores the position on Err, which is what using the old token list means. *)
(** external: the type Parser that style/values/*.rs are given *)
Definition parser (A : Type) := list token -> option (A * list token).
(** if let Ok(value) = parser.try(p) { return Ok(f(value)) }; else continue with q *)
(** external: Parser::try, as used in values/length.rs and values/border.rs *)
Definition try_or {A B} (p : parser A) (f : A -> B) (q : parser B) : parser B :=
  fun ts => match p ts with Some (a, r) => Some (f a, r) | None => q ts end.
(** Result::map on what a parser returns *)
Definition pmap {A B} (f : A -> B) (p : parser A) : parser B :=
  fun ts => match p ts with Some (a, r) => Some (f a, r) | None => None end.
(** Err(..) of a parser *)
Definition fail {A} : parser A := fun _ => None.

(** camel_case_to_kebab_case, sinab-derive/src/style.rs:185-203 (the panic on other characters
    happens at compile time) *)
Definition is_upper (c : ascii) : bool := let n := N_of_ascii c in (65 <=? n)%N && (n <=? 90)%N.
Fixpoint kebab_from (first : bool) (s : string) : string :=
  match s with
  | EmptyString => EmptyString
  | String c s' =>
      if is_upper c
      then if first then String (lower_ascii c) (kebab_from false s')
           else String "-" (String (lower_ascii c) (kebab_from false s'))
      else String c (kebab_from false s')
  end.
Definition kebab (s : string) : string := kebab_from true s.

(** The generated `match &*ident { keyword => return Ok(variant), ... _ => Err }`, sinab-derive/src/style.rs:153-167 *)
Fixpoint lookup_variant {A} (s : string) (units : list (string * A)) : option A :=
  match units with
  | [] => None
  | (name, v) :: r => if String.eqb s (kebab name) then Some v else lookup_variant s r
  end.
Definition keyword {A} (units : list (string * A)) : parser A :=
  fun ts => match ts with
            | TIdent s :: r => match lookup_variant s units with Some v => Some (v, r) | None => None end
            | _ => None
            end.
(** derive(Parse), sinab-derive/src/style.rs:113-183: single-field variants in order, then the keywords *)
Definition derive_parse {A} (fields : list (parser A)) (units : list (string * A)) : parser A :=
  fold_right (fun p q => try_or p (fun a => a) q) (keyword units) fields.

(** SpecifiedLength::parse, values/length.rs:83-107 *)
Definition parse_length : parser slength :=
  fun ts => match ts with
  | TDim v unit :: r =>
      let u := lower unit in
      if String.eqb u "px" then Some (SAbs v, r)
      else if String.eqb u "pt" then Some (SAbs (ldiv v (px 72) * px 96), r)
      else if String.eqb u "in" then Some (SAbs (v * px 96), r)
      else if String.eqb u "cm" then Some (SAbs (ldiv (v * px 96) (px (254#100))), r)
      else if String.eqb u "mm" then Some (SAbs (ldiv (v * px 96) (px (254#10))), r)
      else if String.eqb u "pc" then Some (SAbs (v * px 16), r)
      else if String.eqb u "em" then Some (SEm v, r)
      else None
  | TNumber v :: r => if leqb v l0 then Some (SAbs l0, r) else None
  | _ => None
  end.
(** Percentage::parse, values/length.rs:122-128 (expect_percentage) *)
Definition parse_percentage : parser Len :=
  fun ts => match ts with TPercent v :: r => Some (v, r) | _ => None end.
(** Number::parse, values/length.rs:130-136 (expect_number) *)
Definition parse_number : parser Len :=
  fun ts => match ts with TNumber v :: r => Some (v, r) | _ => None end.
(** derive(Parse) for SpecifiedLengthOrPercentage, ...OrAuto, ...OrNumber, values/length.rs:37,49,63 *)
Definition parse_lp : parser (lp slength) := derive_parse [pmap LPLen parse_length; pmap LPPct parse_percentage] [].
Definition parse_lpa : parser (lpa slength) :=
  derive_parse [pmap LPALen parse_length; pmap LPAPct parse_percentage] [("Auto"%string, LPAAuto)].
Definition parse_lpn : parser (lpn slength) :=
  derive_parse [pmap LPNLen parse_length; pmap LPNPct parse_percentage; pmap LPNNum parse_number] [].

(** derive(Parse) for LineStyle, values/border.rs:6-12 *)
Definition parse_line_style : parser line_style :=
  derive_parse [] [("None", LSNone); ("Solid", LSSolid); ("Dotted", LSDotted); ("Dashed", LSDashed)]%string.
(** SpecifiedLineWidth::parse, values/border.rs:14-20,39-51 *)
Definition parse_line_width : parser (lp slength) :=
  derive_parse [parse_lp]
    [("Thin", LPLen (SAbs (px 1))); ("Medium", LPLen (SAbs (px 3))); ("Thick", LPLen (SAbs (px 5)))]%string.

(** derive(Parse) for FontStyle, FontWeight, values/fonts.rs:25-36 *)
Definition parse_font_style : parser font_style :=
  derive_parse [] [("Normal", FSNormal); ("Italic", FSItalic); ("Oblique", FSOblique)]%string.
Definition parse_font_weight : parser font_weight :=
  derive_parse [] [("Normal", FWNormal); ("Bold", FWBold)]%string.
(** FontFamily::parse, values/fontfamily.rs:17-43 *)
Definition family_of_ident (s : string) : font_family :=
  let u := lower s in
  if String.eqb u "sans-serif" then FamSans
  else if String.eqb u "serif" then FamSerif
  else if String.eqb u "cursive" then FamCursive
  else if String.eqb u "fantasy" then FamFantasy
  else if String.eqb u "monospace" then FamMono
  else FamName s.
Definition parse_font_family : parser font_family :=
  fun ts =>
    let result := match ts with
      | TIdent s :: r => Some (family_of_ident s, r)
      | TQuoted s :: r => Some (FamName s, r)
      | _ => None
      end in
    match result with
    | Some (f, []) => Some (f, [])
    | Some (f, _ :: _) => None   (* "there shouldn't be any further tokens; if there are, throw error", lines 37-41 *)
    | None => None
    end.
(** derive(Parse) for SpecifiedVerticalAlign, values/line.rs:3-15 *)
Definition parse_vertical_align : parser (vertical_align slength) :=
  derive_parse [pmap VALen parse_length; pmap VAPct parse_percentage]
    [("Baseline", VABaseline); ("Sub", VASub); ("Super", VASuper); ("Top", VATop); ("TextTop", VATextTop);
     ("Middle", VAMiddle); ("Bottom", VABottom); ("TextBottom", VATextBottom)]%string.
(** derive(Parse) for SpecifiedTextAlign, WhiteSpace, values/text.rs:3-20 *)
Definition parse_text_align : parser text_align :=
  derive_parse [pmap TAPct parse_percentage]
    [("Left", TALeft); ("Right", TARight); ("Center", TACenter); ("Justify", TAJustify)]%string.
Definition parse_white_space : parser white_space :=
  derive_parse [] [("Normal", WSNormal); ("Nowrap", WSNowrap); ("Pre", WSPre); ("PreWrap", WSPreWrap);
                   ("PreLine", WSPreLine); ("BreakSpaces", WSBreakSpaces)]%string.
(** Display::parse, values/box_.rs:78-108 *)
Definition parse_display : parser display :=
  fun ts => match ts with
  | TIdent s :: r =>
      if String.eqb s "none" then Some (DispNone, r)
      else if String.eqb s "contents" then Some (DispContents, r)
      else if String.eqb s "block" then Some (DispBox OBlock IFlow, r)
      else if String.eqb s "flow-root" then Some (DispBox OBlock IFlowRoot, r)
      else if String.eqb s "inline" then Some (DispBox OInline IFlow, r)
      else None
  | _ => None
  end.
(** derive(Parse) for Float, Position, values/box_.rs:111,129 *)
Definition parse_float : parser float_ :=
  derive_parse [] [("None", FloatNone); ("Left", FloatLeft); ("Right", FloatRight)]%string.
Definition parse_position : parser position :=
  derive_parse [] [("Static", PosStatic); ("Relative", PosRelative); ("Absolute", PosAbsolute)]%string.
(** derive(Parse) for CssWideKeyword, values/mod.rs:57-62 *)
Definition parse_wide : parser wide :=
  derive_parse [] [("Inherit", KInherit); ("Initial", KInitial); ("Unset", KUnset)]%string.
(** cssparser::parse_important: `!` then the identifier `important`, ASCII case-insensitively *)
(** external: called at declaration_block.rs:107 *)
Definition parse_important : parser unit :=
  fun ts => match ts with
  | TDelim c :: TIdent s :: r =>
      if Ascii.eqb c "!" && eq_ignore_ascii_case s "important" then Some (tt, r) else None
  | _ => None
  end.

(** FourSides<T>::parse, values/generic.rs:13-60 *)
Record four_sides (T : Type) := FourSides { fs_top : T; fs_right : T; fs_bottom : T; fs_left : T }.
Arguments FourSides {T}. Arguments fs_top {T}. Arguments fs_right {T}. Arguments fs_bottom {T}. Arguments fs_left {T}.
Definition parse_four_sides {T} (p : parser T) : parser (four_sides T) :=
  fun ts => match p ts with
  | None => None
  | Some (top, ts1) =>
    match p ts1 with
    | None => Some (FourSides top top top top, ts1)
    | Some (rgt, ts2) =>
      match p ts2 with
      | None => Some (FourSides top rgt top rgt, ts2)
      | Some (bot, ts3) =>
        match p ts3 with
        | None => Some (FourSides top rgt bot rgt, ts3)
        | Some (lft, ts4) => Some (FourSides top rgt bot lft, ts4)
        end
      end
    end
  end.

(** The shorthands of properties/definitions.rs:86-149 *)
Inductive shorthand :=
| Smargin | Spadding | Sborder_style | Sborder_color | Sborder_width
| Sborder_top | Sborder_right | Sborder_bottom | Sborder_left | Sborder | Sbackground.
Inductive property := PLong (l : longhand) | PShort (s : shorthand).

(** `$name` of each longhand, properties/definitions.rs:9-80.  Line 62 names border_right_color
    "border-color-right". *)
Definition longhand_name (l : longhand) : string :=
  match l with
  | Lfont_size => "font-size" | Lfont_style => "font-style" | Lfont_weight => "font-weight" | Lfont_family => "font-family"
  | Lline_height => "line-height" | Lvertical_align => "vertical-align" | Lcolor => "color"
  | Ltext_align => "text-align" | Lwhite_space => "white-space"
  | Lposition => "position" | Lfloat => "float" | Ldisplay => "display"
  | Ltop => "top" | Lleft => "left" | Lbottom => "bottom" | Lright => "right" | Lwidth => "width" | Lheight => "height"
  | Lmargin_top => "margin-top" | Lmargin_right => "margin-right"
  | Lmargin_bottom => "margin-bottom" | Lmargin_left => "margin-left"
  | Lpadding_top => "padding-top" | Lpadding_right => "padding-right"
  | Lpadding_bottom => "padding-bottom" | Lpadding_left => "padding-left"
  | Lborder_top_color => "border-top-color" | Lborder_right_color => "border-color-right"
  | Lborder_bottom_color => "border-bottom-color" | Lborder_left_color => "border-left-color"
  | Lborder_top_style => "border-top-style" | Lborder_right_style => "border-right-style"
  | Lborder_bottom_style => "border-bottom-style" | Lborder_left_style => "border-left-style"
  | Lborder_top_width => "border-top-width" | Lborder_right_width => "border-right-width"
  | Lborder_bottom_width => "border-bottom-width" | Lborder_left_width => "border-left-width"
  | Lbackground_color => "background-color"
  end%string.
(** names of the shorthands, properties/definitions.rs:86-149 *)
Definition shorthand_name (s : shorthand) : string :=
  match s with
  | Smargin => "margin" | Spadding => "padding" | Sborder_style => "border-style" | Sborder_color => "border-color"
  | Sborder_width => "border-width" | Sborder_top => "border-top" | Sborder_right => "border-right"
  | Sborder_bottom => "border-bottom" | Sborder_left => "border-left" | Sborder => "border" | Sbackground => "background"
  end%string.
Definition all_longhands : list longhand :=
  [Lfont_size; Lfont_style; Lfont_weight; Lfont_family; Lline_height; Lvertical_align; Lcolor; Ltext_align; Lwhite_space;
   Lposition; Lfloat; Ldisplay; Ltop; Lleft; Lbottom; Lright; Lwidth; Lheight;
   Lmargin_top; Lmargin_right; Lmargin_bottom; Lmargin_left; Lpadding_top; Lpadding_right; Lpadding_bottom; Lpadding_left;
   Lborder_top_color; Lborder_right_color; Lborder_bottom_color; Lborder_left_color;
   Lborder_top_style; Lborder_right_style; Lborder_bottom_style; Lborder_left_style;
   Lborder_top_width; Lborder_right_width; Lborder_bottom_width; Lborder_left_width; Lbackground_color].
Definition all_shorthands : list shorthand :=
  [Smargin; Spadding; Sborder_style; Sborder_color; Sborder_width; Sborder_top; Sborder_right; Sborder_bottom;
   Sborder_left; Sborder; Sbackground].
Definition property_name (p : property) : string :=
  match p with PLong l => longhand_name l | PShort s => shorthand_name s end.
(** property_data_by_name, properties/macros.rs:256-301: an ASCII case-insensitive perfect hash map *)
Definition property_by_name (name : string) : option property :=
  find (fun p => eq_ignore_ascii_case name (property_name p)) (map PLong all_longhands ++ map PShort all_shorthands).

(** PropertyData.longhands, properties/macros.rs:260,273-277 in the listed order *)
Definition shorthand_longhands (s : shorthand) : list longhand :=
  match s with
  | Smargin => [Lmargin_top; Lmargin_left; Lmargin_bottom; Lmargin_right]
  | Spadding => [Lpadding_top; Lpadding_left; Lpadding_bottom; Lpadding_right]
  | Sborder_style => [Lborder_top_style; Lborder_left_style; Lborder_bottom_style; Lborder_right_style]
  | Sborder_color => [Lborder_top_color; Lborder_left_color; Lborder_bottom_color; Lborder_right_color]
  | Sborder_width => [Lborder_top_width; Lborder_left_width; Lborder_bottom_width; Lborder_right_width]
  | Sborder_top => [Lborder_top_style; Lborder_top_color; Lborder_top_width]
  | Sborder_right => [Lborder_right_style; Lborder_right_color; Lborder_right_width]
  | Sborder_bottom => [Lborder_bottom_style; Lborder_bottom_color; Lborder_bottom_width]
  | Sborder_left => [Lborder_left_style; Lborder_left_color; Lborder_left_width]
  | Sborder => [Lborder_top_style; Lborder_right_style; Lborder_bottom_style; Lborder_left_style;
                Lborder_top_color; Lborder_right_color; Lborder_bottom_color; Lborder_left_color;
                Lborder_top_width; Lborder_right_width; Lborder_bottom_width; Lborder_left_width]
  | Sbackground => [Lbackground_color]
  end.
Definition property_longhands (p : property) : list longhand :=
  match p with PLong l => [l] | PShort s => shorthand_longhands s end.

(** BorderSide, values/border.rs:89-94 *)
Record border_side := BorderSide {
  bs_style : option line_style; bs_color : option color; bs_width : option (lp slength) }.

(** ValueOrInitial for Option<T>, properties/mod.rs:147-159 *)
Definition or_initial (l : longhand) (v : option (sty l)) : decl :=
  match v with Some x => DVal l x | None => DWide l KInitial end.

(** PerPhase returned by PropertyData.parse, properties/macros.rs:264-267, 288-291; also the flags computed
    for css-wide keywords, declaration_block.rs:93-103 *)
Definition phases_of (ls : list longhand) : phases :=
  Phases (existsb is_early ls) (existsb (fun l => negb (is_early l)) ls).

(** What DeclarationListParser hands over: `name : tokens` up to `;` (the tokens after the name,
    colon included), or something that is not a declaration (at-rule, stray token), which is an Err. *)
(** external: called at declaration_block.rs:18-34 *)
Inductive item := IDecl (name : string) (ts : list token) | IBad.

Section Colors.
(** cssparser's Color::parse looks at one token (identifier, hash, or function with its arguments).
    The colour syntax itself is external. *)
Variable color_token : token -> option color.

(** Color::parse, values/color.rs:6-10 *)
Definition parse_color : parser color :=
  fun ts => match ts with t :: r => match color_token t with Some c => Some (c, r) | None => None end | [] => None end.

(** parse_one_or_more!(BorderSide { style, color, width }), values/border.rs:53-87: the loop runs at most
    four times, since each round but the last fills one of three empty fields; [fuel] counts rounds. *)
Fixpoint border_side_loop (fuel : nat) (v : border_side) (any : bool) (ts : list token)
  : border_side * bool * list token :=
  match fuel with
  | O => (v, any, ts)
  | S f =>
    match (match bs_style v with None => parse_line_style ts | Some _ => None end) with
    | Some (s, r) => border_side_loop f (BorderSide (Some s) (bs_color v) (bs_width v)) true r
    | None =>
      match (match bs_color v with None => parse_color ts | Some _ => None end) with
      | Some (c, r) => border_side_loop f (BorderSide (bs_style v) (Some c) (bs_width v)) true r
      | None =>
        match (match bs_width v with None => parse_line_width ts | Some _ => None end) with
        | Some (w, r) => border_side_loop f (BorderSide (bs_style v) (bs_color v) (Some w)) true r
        | None => (v, any, ts)
        end
      end
    end
  end.
Definition parse_border_side : parser border_side :=
  fun ts => let '(v, any, r) := border_side_loop 4 (BorderSide None None None) false ts in
            if any then Some (v, r) else None.

(** <$ValueType as SpecifiedValue>::SpecifiedValue parser of each longhand *)
(** macros.rs:258-270 *)
Definition parse_longhand (l : longhand) : parser (sty l) :=
  match l return parser (sty l) with
  | Lfont_size => parse_length
  | Lfont_style => parse_font_style
  | Lfont_weight => parse_font_weight
  | Lfont_family => parse_font_family
  | Lline_height => parse_lpn
  | Lvertical_align => parse_vertical_align
  | Lcolor => parse_color
  | Ltext_align => parse_text_align
  | Lwhite_space => parse_white_space
  | Lposition => parse_position
  | Lfloat => parse_float
  | Ldisplay => parse_display
  | Ltop | Lleft | Lbottom | Lright | Lwidth | Lheight
  | Lmargin_top | Lmargin_right | Lmargin_bottom | Lmargin_left => parse_lpa
  | Lpadding_top | Lpadding_right | Lpadding_bottom | Lpadding_left => parse_lp
  | Lborder_top_color | Lborder_right_color | Lborder_bottom_color | Lborder_left_color => parse_color
  | Lborder_top_style | Lborder_right_style | Lborder_bottom_style | Lborder_left_style => parse_line_style
  | Lborder_top_width | Lborder_right_width | Lborder_bottom_width | Lborder_left_width => parse_line_width
  | Lbackground_color => parse_color
  end.

(** The shorthand parsers of properties/macros.rs:278-292 with the field lists of definitions.rs:86-149;
    BorderFourSides::parse, values/border.rs:113-131; Background::parse, values/background.rs:9-15 *)
Definition parse_shorthand (s : shorthand) : parser (list decl) :=
  match s with
  | Smargin => pmap (fun v => [DVal Lmargin_top (fs_top v); DVal Lmargin_left (fs_left v);
                               DVal Lmargin_bottom (fs_bottom v); DVal Lmargin_right (fs_right v)])
                    (parse_four_sides parse_lpa)
  | Spadding => pmap (fun v => [DVal Lpadding_top (fs_top v); DVal Lpadding_left (fs_left v);
                                DVal Lpadding_bottom (fs_bottom v); DVal Lpadding_right (fs_right v)])
                     (parse_four_sides parse_lp)
  | Sborder_style => pmap (fun v => [DVal Lborder_top_style (fs_top v); DVal Lborder_left_style (fs_left v);
                                     DVal Lborder_bottom_style (fs_bottom v); DVal Lborder_right_style (fs_right v)])
                          (parse_four_sides parse_line_style)
  | Sborder_color => pmap (fun v => [DVal Lborder_top_color (fs_top v); DVal Lborder_left_color (fs_left v);
                                     DVal Lborder_bottom_color (fs_bottom v); DVal Lborder_right_color (fs_right v)])
                          (parse_four_sides parse_color)
  | Sborder_width => pmap (fun v => [DVal Lborder_top_width (fs_top v); DVal Lborder_left_width (fs_left v);
                                     DVal Lborder_bottom_width (fs_bottom v); DVal Lborder_right_width (fs_right v)])
                          (parse_four_sides parse_line_width)
  | Sborder_top => pmap (fun v => [or_initial Lborder_top_style (bs_style v); or_initial Lborder_top_color (bs_color v);
                                   or_initial Lborder_top_width (bs_width v)]) parse_border_side
  | Sborder_right => pmap (fun v => [or_initial Lborder_right_style (bs_style v); or_initial Lborder_right_color (bs_color v);
                                     or_initial Lborder_right_width (bs_width v)]) parse_border_side
  | Sborder_bottom => pmap (fun v => [or_initial Lborder_bottom_style (bs_style v); or_initial Lborder_bottom_color (bs_color v);
                                      or_initial Lborder_bottom_width (bs_width v)]) parse_border_side
  | Sborder_left => pmap (fun v => [or_initial Lborder_left_style (bs_style v); or_initial Lborder_left_color (bs_color v);
                                    or_initial Lborder_left_width (bs_width v)]) parse_border_side
  | Sborder => pmap (fun v => [or_initial Lborder_top_style (bs_style v); or_initial Lborder_right_style (bs_style v);
                               or_initial Lborder_bottom_style (bs_style v); or_initial Lborder_left_style (bs_style v);
                               or_initial Lborder_top_color (bs_color v); or_initial Lborder_right_color (bs_color v);
                               or_initial Lborder_bottom_color (bs_color v); or_initial Lborder_left_color (bs_color v);
                               or_initial Lborder_top_width (bs_width v); or_initial Lborder_right_width (bs_width v);
                               or_initial Lborder_bottom_width (bs_width v); or_initial Lborder_left_width (bs_width v)])
                    parse_border_side
  | Sbackground => pmap (fun c => [or_initial Lbackground_color (Some c)]) parse_color
  end.
(** PropertyData.parse, properties/macros.rs:261-293 *)
Definition parse_property (p : property) : parser (list decl) :=
  match p with
  | PLong l => pmap (fun v => [DVal l v]) (parse_longhand l)
  | PShort s => parse_shorthand s
  end.

(** LonghandDeclarationParser::parse_value, declaration_block.rs:84-122.  None is Err; on Err the block is
    unchanged, because the property parsers push only after their last fallible step.  [Panic] is the
    assert at line 109. *)
Definition parse_value (b : block) (name : string) (ts : list token) : result (option (block * list token)) :=
  match property_by_name name with
  | None => Ok None
  | Some p =>
    let parsed := match parse_wide ts with
      | Some (k, r) => Some (map (fun l => DWide l k) (property_longhands p), r)
      | None => parse_property p ts
      end in
    match parsed with
    | None => Ok None
    | Some (ds, r) =>
      let '(important, r') := match parse_important r with Some (_, r') => (true, r') | None => (false, r) end in
      if Nat.eqb (length ds) 0 then Panic
      else
        let ph := phases_of (property_longhands p) in
        Ok (Some (Block (b_decls b ++ ds) (b_important b ++ repeat important (length ds))
                    (if important then ph_or (b_any_important b) ph else b_any_important b)
                    (if important then b_any_normal b else ph_or (b_any_normal b) ph), r'))
    end
  end.

(** One round of the loop of DeclarationBlock::parse, declaration_block.rs:24-38, with
    cssparser 0.27's DeclarationListParser::next (expect a colon, parse_value, then
    parse_until_after/parse_entirely report Err when tokens are left over). *)
Definition parse_item (b : block) (i : item) : result block :=
  let debug_lens (b : block) := if Nat.eqb (length (b_decls b)) (length (b_important b)) then Ok b else Panic in
  match i with
  | IBad => debug_lens b
  | IDecl name (TColon :: ts) =>
      match parse_value b name ts with
      | Ok None => debug_lens b
      | Ok (Some (b', [])) => debug_lens b'
      | Ok (Some (b', _ :: _)) =>
          (* Err after parse_value has pushed: the assert at line 30 compares the lengths *)
          if Nat.eqb (length (b_decls b')) (length (b_decls b)) then debug_lens b' else Panic
      | Panic => Panic
      | OutOfFuel => OutOfFuel
      end
  | IDecl name _ => debug_lens b
  end.
Fixpoint parse_items (b : block) (is : list item) : result block :=
  match is with
  | [] => Ok b
  | i :: r => bind (parse_item b i) (fun b' => parse_items b' r)
  end.
(** DeclarationBlock::parse, declaration_block.rs:17-48, with its debug assertions (the crate is built
    in debug mode, /repo/src/Makevars:2,10) *)
Definition parse_block (is : list item) : result block :=
  bind (parse_items block_empty is) (fun b =>
    let any p := ph_early p || ph_late p in
    if Bool.eqb (any (b_any_normal b)) (negb (forallb (fun x => x) (b_important b)))
       && Bool.eqb (any (b_any_important b)) (negb (forallb negb (b_important b)))
    then Ok b else Panic).
End Colors.

(* ------------------------------------------------------------------ *)
(** * Style sheets *)
Section Sheets.
Variable color_token : token -> option color.
(** Selectors of the `selectors` crate and their specificity (a u32) *)
Variable selector : Type.
Variable specificity : selector -> N.

(** What RuleListParser hands over: a qualified rule with its selector list and its block, or a rule
    whose prelude does not parse (or an at-rule), rules.rs:22-52 *)
Inductive rule := RStyle (sels : list selector) (items : list item) | RErr.

(** StyleSetBuilder::add_stylesheet, cascade.rs:31-46 *)
Fixpoint add_stylesheet (acc : list (selector * block)) (rules : list rule) : result (list (selector * block)) :=
  match rules with
  | [] => Ok acc
  | RErr :: r => add_stylesheet acc r
  | RStyle sels items :: r =>
      bind (parse_block color_token items) (fun b => add_stylesheet (acc ++ map (fun s => (s, b)) sels) r)
  end.
(** Several calls of add_stylesheet on one builder, in order *)
(** dom/mod.rs:48-66 *)
Fixpoint add_stylesheets (acc : list (selector * block)) (sheets : list (list rule)) : result (list (selector * block)) :=
  match sheets with
  | [] => Ok acc
  | s :: r => bind (add_stylesheet acc s) (fun acc' => add_stylesheets acc' r)
  end.
(** slice::sort_by_key (stable), here insertion sort; polymorphic in what is stored beside the selector *)
(** external: called at cascade.rs:51-52 *)
Fixpoint insert_rule {B} (x : selector * B) (l : list (selector * B)) : list (selector * B) :=
  match l with
  | [] => [x]
  | y :: r => if (specificity (fst x) <=? specificity (fst y))%N then x :: y :: r else y :: insert_rule x r
  end.
(** StyleSetBuilder::finish, cascade.rs:48-54 *)
Definition finish {B} (rules : list (selector * B)) : list (selector * B) := fold_right insert_rule [] rules.

(** StyleSet::push_matching, cascade.rs:58-69 *)
Definition push_matching (matches : selector -> bool) (rules : list (selector * block)) : list block :=
  map snd (filter (fun r => matches (fst r)) rules).

(** style_for_element, cascade.rs:87-114, for an element; [attr] is the content of its style attribute
    when the namespace is HTML, SVG or MathML and the attribute is present. *)
Definition style_for_element (ua author : list (selector * block)) (matches : selector -> bool)
    (attr : option (list item)) (parent : option style) : result style :=
  match attr with
  | None => Ok (style_new parent (Some (Matching (push_matching matches ua) (push_matching matches author))))
  | Some items =>
      bind (parse_block color_token items) (fun b =>
        Ok (style_new parent (Some (Matching (push_matching matches ua) (push_matching matches author ++ [b])))))
  end.
End Sheets.
Arguments RStyle {selector}. Arguments RErr {selector}.
End Any.
Arguments LPLen {ar L}. Arguments LPPct {ar L}. Arguments LPALen {ar L}. Arguments LPAPct {ar L}. Arguments LPAAuto {ar L}. Arguments LPNLen {ar L}. Arguments LPNPct {ar L}. Arguments LPNNum {ar L}. Arguments VABaseline {ar L}. Arguments VASub {ar L}. Arguments VASuper {ar L}. Arguments VATop {ar L}. Arguments VATextTop {ar L}. Arguments VAMiddle {ar L}. Arguments VABottom {ar L}. Arguments VATextBottom {ar L}. Arguments VALen {ar L}. Arguments VAPct {ar L}. Arguments FourSides {T}. Arguments fs_top {T}. Arguments fs_right {T}. Arguments fs_bottom {T}. Arguments fs_left {T}. Arguments RStyle {ar selector}. Arguments RErr {ar selector}.
