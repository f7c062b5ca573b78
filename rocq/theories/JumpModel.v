(** Model of the macro tagged_union_with_jump_tables (utils/tagged_union_with_jump_tables.rs) and of the two enums
    that the properties! macro (style/properties/macros.rs) declares with it. *)
From Verif Require Import StyleModel.

(* ------------------------------------------------------------------ *)
(** * The macro *)

(** What running a method of such an enum can do.  [Bad]: memory is read as a value of another type (undefined
    behaviour); [OutOfRange]: the index into a static array is out of range (panic). *)
(** No type of the code: the effects of lines 70-92 of tagged_union_with_jump_tables.rs *)
Inductive ran (R : Type) := Returns (r : R) | Bad | OutOfRange.
Arguments Returns {R}. Arguments Bad {R}. Arguments OutOfRange {R}.

Section Macro.
(** The types of fields and their values. *)
Variable ty : Type.
Variable den : ty -> Type.
Variable ty_dec : forall a b : ty, {a = b} + {a <> b}.
(** A field of `struct Variant`, lines 147-151 *)
Definition cell : Type := {t : ty & den t}.

(** `$Variant(types)`, lines 15-24 *)
Record variant := Variant { v_name : string; v_fields : list ty }.
(** The memory of a value of an enum with #[repr(Int)]: `struct Variant(tag, fields...)`, repr(C) (lines 31-37 and
    147-151; the layout is RFC 2195).  SIMPLIFICATION: a field is one cell that knows its type. *)
Record memory := Memory { m_tag : N; m_cells : list cell }.
(** The value that constructing the k-th variant stores; the tag has [bits] bits. *)
(** A value of the enum declared at lines 31-37 *)
Definition store (bits : N) (k : nat) (fields : list cell) : memory := Memory (N.of_nat k mod 2 ^ bits) fields.

(** An arm of the `match *self`, lines 59-64: enum and variant name, names bound to the fields, block *)
Record arm (R : Type) := Arm { a_enum : string; a_variant : string; a_binders : list string; a_block : list cell -> ran R }.
Arguments a_enum {R}. Arguments a_variant {R}. Arguments a_binders {R}. Arguments a_block {R}.
(** `&Variant(_, ref fields...)` of memory reinterpreted with the types of a variant, lines 146-153 *)
Fixpoint read_as (tys : list ty) (cells : list cell) : option (list cell) :=
  match tys, cells with
  | [], _ => Some []
  | t :: tys', c :: cells' =>
      if ty_dec t (projT1 c) then match read_as tys' cells' with Some r => Some (c :: r) | None => None end else None
  | _ :: _, [] => None
  end.
(** The closure of one variant, lines 140-155 *)
Definition closure {R} (v : variant) (a : arm R) : memory -> ran R :=
  fun m => match read_as (v_fields v) (m_cells m) with Some fs => a_block a fs | None => Bad end.
(** @closures_table, lines 108-168: variants and arms are consumed together.  None: compile error, because of
    @assert_idents_equal (lines 177-187), of a pattern with another number of fields than the struct, or
    because no rule applies when only one of the lists is empty. *)
Fixpoint closures_table {R} (enum : string) (variants : list variant) (arms : list (arm R)) (previous : list (memory -> ran R))
  : option (list (memory -> ran R)) :=
  match variants, arms with
  | v :: variants', a :: arms' =>
      if String.eqb enum (a_enum a) && String.eqb (v_name v) (a_variant a)
         && Nat.eqb (List.length (v_fields v)) (List.length (a_binders a))
      then closures_table enum variants' arms' (previous ++ [closure v a])
      else None
  | [], [] => Some previous
  | _, _ => None
  end.
(** The type of the discriminant must be one of lines 169-176; rustc rejects enums with more variants than
    discriminants, and two variants of the same name. *)
Definition int_bits (t : string) : option N :=
  if String.eqb t "u8" then Some 8%N else if String.eqb t "u16" then Some 16%N else if String.eqb t "u32" then Some 32%N
  else if String.eqb t "u64" then Some 64%N else if String.eqb t "i8" then Some 8%N else if String.eqb t "i16" then Some 16%N
  else if String.eqb t "i32" then Some 32%N else if String.eqb t "i64" then Some 64%N else None.
Definition variants_fit (repr : string) (n : nat) : option N :=
  match int_bits repr with
  | Some bits => if (N.of_nat n <=? 2 ^ (match repr with String "i" _ => bits - 1 | _ => bits end))%N then Some bits else None
  | None => None
  end.
Fixpoint distinct (l : list string) : bool :=
  match l with [] => true | x :: l' => negb (existsb (String.eqb x) l') && distinct l' end.
(** The whole method, lines 53-100: the bits of the tag and JUMP_TABLE.  SIMPLIFICATION: signed discriminants may have
    half as many variants here (rustc numbers them from 0, too). *)
Definition jump_table {R} (repr enum : string) (variants : list variant) (arms : list (arm R)) : option (N * list (memory -> ran R)) :=
  match variants_fit repr (List.length variants) with
  | Some bits => if distinct (map v_name variants)
                 then match closures_table enum variants arms [] with Some t => Some (bits, t) | None => None end
                 else None
  | None => None
  end.
(** `JUMP_TABLE[tag as usize](self, args)`, lines 78-81 *)
Definition call {R} (table : list (memory -> ran R)) (m : memory) : ran R :=
  match nth_error table (N.to_nat (m_tag m)) with Some c => c m | None => OutOfRange end.
End Macro.
Arguments variant {ty}. Arguments Variant {ty}. Arguments v_name {ty}. Arguments v_fields {ty}.
Arguments cell {ty}. Arguments memory {ty}. Arguments Memory {ty den}. Arguments m_tag {ty den}. Arguments m_cells {ty den}. Arguments store {ty den}.
Arguments arm {ty}. Arguments Arm {ty den R}. Arguments a_enum {ty den R}. Arguments a_variant {ty den R}. Arguments a_binders {ty den R}. Arguments a_block {ty den R}.
Arguments read_as {ty den}. Arguments closure {ty den} ty_dec {R}. Arguments closures_table {ty den} ty_dec {R}. Arguments jump_table {ty den} ty_dec {R}. Arguments call {ty den R}.

(* ------------------------------------------------------------------ *)
(** * LonghandId and LonghandDeclaration *)

(** The types of the fields: the specified value of a longhand, LonghandId (as its memory, a discriminant without
    fields), CssWideKeyword. *)
(** The fields declared at macros.rs:31-35 and 97-102 *)
Inductive field := FValue (l : longhand) | FId | FKeyword.
(** The fields declared at macros.rs:31-35 and 97-102 *)
Definition field_den (t : field) : Type := match t with FValue l => sty l | FId => N | FKeyword => wide end.
(** No function of the code: comparison of Rust types *)
Definition field_dec (a b : field) : {a = b} + {a <> b}.
Proof. decide equality. apply longhand_eq_dec. Defined.

(** `inherited|reset struct { @early ident { name, type, initial } }`, properties/definitions.rs:3-84: longhand,
    Rust identifier, @early, inherited *)
Record property_def := Def { d_long : longhand; d_ident : string; d_early : bool; d_inherited : bool }.
Definition definitions : list property_def :=
  [ Def Lfont_size "font_size" true true; Def Lfont_style "font_style" false true;
    Def Lfont_weight "font_weight" false true; Def Lfont_family "font_family" false true;
    Def Lline_height "line_height" false true; Def Lvertical_align "vertical_align" false false;
    Def Lcolor "color" false true; Def Ltext_align "text_align" false true; Def Lwhite_space "white_space" false true;
    Def Lposition "position" false false; Def Lfloat "float" false false; Def Ldisplay "display" false false;
    Def Ltop "top" false false; Def Lleft "left" false false; Def Lbottom "bottom" false false; Def Lright "right" false false;
    Def Lwidth "width" false false; Def Lheight "height" false false;
    Def Lmargin_top "margin_top" false false; Def Lmargin_right "margin_right" false false;
    Def Lmargin_bottom "margin_bottom" false false; Def Lmargin_left "margin_left" false false;
    Def Lpadding_top "padding_top" false false; Def Lpadding_right "padding_right" false false;
    Def Lpadding_bottom "padding_bottom" false false; Def Lpadding_left "padding_left" false false;
    Def Lborder_top_color "border_top_color" false false; Def Lborder_right_color "border_right_color" false false;
    Def Lborder_bottom_color "border_bottom_color" false false; Def Lborder_left_color "border_left_color" false false;
    Def Lborder_top_style "border_top_style" false false; Def Lborder_right_style "border_right_style" false false;
    Def Lborder_bottom_style "border_bottom_style" false false; Def Lborder_left_style "border_left_style" false false;
    Def Lborder_top_width "border_top_width" false false; Def Lborder_right_width "border_right_width" false false;
    Def Lborder_bottom_width "border_bottom_width" false false; Def Lborder_left_width "border_left_width" false false;
    Def Lbackground_color "background_color" false false ]%string.

Notation fcell := (@cell field field_den).
Notation fmemory := (@memory field field_den).
(** `type Discriminant = u8`, properties/definitions.rs:7 *)
Definition discriminant : string := "u8".
(** enum LonghandId, properties/macros.rs:31-35; a method without fields in its variants *)
Definition id_variants : list (@variant field) := map (fun d => Variant (d_ident d) []) definitions.
(** the `$inherited` of `unset_is_initial!` and the block of cascade_css_wide_keyword_into, macros.rs:43-64 *)
Definition wide_block (keyword : wide) (inherited computed : style) (d : property_def) : style :=
  let is_initial := match keyword with KInitial => true | KInherit => false | KUnset => negb (d_inherited d) end in
  set_sv computed (d_long d) (if is_initial then initial_value (d_long d) else sv inherited (d_long d)).
Definition wide_arms (keyword : wide) (inherited computed : style) : list (@arm field field_den style) :=
  map (fun d => Arm "LonghandId" (d_ident d) [] (fun _ => Returns (wide_block keyword inherited computed d))) definitions.
(** LonghandId::cascade_css_wide_keyword_into(&self, keyword, computed, inherited), macros.rs:37-65 *)
Definition id_cascade_wide (keyword : wide) (inherited computed : style) (id : N) : ran style :=
  match jump_table field_dec discriminant "LonghandId" id_variants (wide_arms keyword inherited computed) with
  | Some (_, table) => call table (Memory id [])
  | None => Bad
  end.
(** LonghandId::is_early, macros.rs:73-81: an array indexed by the discriminant *)
Definition id_is_early (id : N) : ran bool :=
  match nth_error (map d_early definitions) (N.to_nat id) with Some b => Returns b | None => OutOfRange end.

(** enum LonghandDeclaration, macros.rs:97-102 *)
Definition decl_variants : list (@variant field) :=
  map (fun d => Variant (d_ident d) [FValue (d_long d)]) definitions ++ [Variant "CssWide" [FId; FKeyword]].
(** The block of an arm with a value: what it does with a cell, as far as it is the value of [l]. *)
(** macros.rs:108-121, 138-151 *)
Definition with_value {R} (l : longhand) (f : sty l -> ran R) (cells : list fcell) : ran R :=
  match cells with
  | [existT _ (FValue l') v] => match longhand_eq_dec l' l with left e => f (eq_rect l' sty v l e) | right _ => Bad end
  | _ => Bad
  end.
(** macros.rs:122-131, 152-161 *)
Definition with_wide {R} (f : N -> wide -> ran R) (cells : list fcell) : ran R :=
  match cells with
  | [existT _ FId id; existT _ FKeyword k] => f id k
  | _ => Bad
  end.
(** No function of the code: sequencing within a block, macros.rs:122-131 *)
Definition ran_bind {A B} (r : ran A) (f : A -> ran B) : ran B :=
  match r with Returns a => f a | Bad => Bad | OutOfRange => OutOfRange end.
(** if_early_cascade_into, macros.rs:104-132.  FontSize is the only early type; the computed value is
    EarlyFromSpecified of StyleModel, which is None for the types that do not implement it (that would be a compile error). *)
Definition early_block (inherited this : style) (d : property_def) (v : sty (d_long d)) : ran style :=
  if d_early d then match early_value inherited (d_long d) v with Some c => Returns (set_sv this (d_long d) c) | None => Bad end
  else Returns this.
Definition early_arms (inherited this : style) : list (@arm field field_den style) :=
  map (fun d => Arm "LonghandDeclaration" (d_ident d) ["_value"%string] (with_value (d_long d) (early_block inherited this d))) definitions ++
  [Arm "LonghandDeclaration" "CssWide" ["longhand"; "keyword"]%string
    (with_wide (fun id k => ran_bind (id_is_early id) (fun e => if e then id_cascade_wide k inherited this id else Returns this)))].
Definition jump_early (inherited this : style) (m : fmemory) : ran style :=
  match jump_table field_dec discriminant "LonghandDeclaration" decl_variants (early_arms inherited this) with
  | Some (_, table) => call table m
  | None => Bad
  end.
(** if_late_cascade_into, macros.rs:134-162 *)
Definition late_block (inherited this : style) (d : property_def) (v : sty (d_long d)) : ran style :=
  if d_early d then Returns this
  else match late_value inherited (sv this Lfont_size) (d_long d) v with Some c => Returns (set_sv this (d_long d) c) | None => Bad end.
Definition late_arms (inherited this : style) : list (@arm field field_den style) :=
  map (fun d => Arm "LonghandDeclaration" (d_ident d) ["_value"%string] (with_value (d_long d) (late_block inherited this d))) definitions ++
  [Arm "LonghandDeclaration" "CssWide" ["longhand"; "keyword"]%string
    (with_wide (fun id k => ran_bind (id_is_early id) (fun e => if negb e then id_cascade_wide k inherited this id else Returns this)))].
Definition jump_late (inherited this : style) (m : fmemory) : ran style :=
  match jump_table field_dec discriminant "LonghandDeclaration" decl_variants (late_arms inherited this) with
  | Some (_, table) => call table m
  | None => Bad
  end.

(** The memory of a LonghandId and of a LonghandDeclaration: constructing `LonghandId::ident`,
    `LonghandDeclaration::ident(value)` and `LonghandDeclaration::CssWide(id, keyword)`. *)
(** The discriminant rustc gives to a variant of macros.rs:31-35, 97-102 *)
Fixpoint position_of (l : longhand) (ds : list property_def) : nat :=
  match ds with [] => O | d :: ds' => if longhand_eq_dec (d_long d) l then O else S (position_of l ds') end.
(** The discriminant rustc gives to a variant of macros.rs:31-35 *)
Definition id_memory (l : longhand) : N := m_tag (@store field field_den 8 (position_of l definitions) []).
(** A value of the enum at macros.rs:97-102 *)
Definition decl_memory (d : decl) : fmemory :=
  match d with
  | DVal l v => store 8 (position_of l definitions) [existT field_den (FValue l) v]
  | DWide l k => store 8 (List.length definitions) [existT field_den FId (id_memory l); existT field_den FKeyword k]
  end.
