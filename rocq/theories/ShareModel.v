(** Model of how styles are stored: the style structs of ComputedValues are shared between elements through
    reference-counted pointers and copied on the first write (properties/macros.rs:165-234, properties/mod.rs:22-30).
    Definitions only.  StyleModel.style erases the sharing; the theorems of PropShare justify that. *)
From Verif Require Import Base Len StyleModel.
Local Open Scope list_scope.
Local Open Scope result_scope.

(** The style structs, properties/definitions.rs:9,16,20,24,29,34,46,53,60,77 *)
Inductive group := Gfont | Gline_inherited | Gline_reset | Gcolor | Gtext_inherited | Gbox | Gmargin | Gpadding | Gborder | Gbackground.
Definition all_groups : list group :=
  [Gfont; Gline_inherited; Gline_reset; Gcolor; Gtext_inherited; Gbox; Gmargin; Gpadding; Gborder; Gbackground].
(** PartialEq for Display *)
(** external: derived, box_.rs *)
Definition display_eq_dec (a b : display) : {a = b} + {a <> b}.
Proof. repeat decide equality. Defined.
(** No function of the code: comparison of the structs of definitions.rs:9-84 *)
Definition group_eq_dec (a b : group) : {a = b} + {a <> b}.
Proof. decide equality. Defined.
(** `inherited struct` or `reset struct` *)
(** definitions.rs:9-84 *)
Definition group_inherited (g : group) : bool :=
  match g with Gfont | Gline_inherited | Gcolor | Gtext_inherited => true | _ => false end.
(** the struct a property is a field of, properties/definitions.rs:9-80 *)
Definition group_of (l : longhand) : group :=
  match l with
  | Lfont_size | Lfont_style | Lfont_weight | Lfont_family => Gfont
  | Lline_height => Gline_inherited
  | Lvertical_align => Gline_reset
  | Lcolor => Gcolor
  | Ltext_align | Lwhite_space => Gtext_inherited
  | Lposition | Lfloat | Ldisplay | Ltop | Lleft | Lbottom | Lright | Lwidth | Lheight => Gbox
  | Lmargin_top | Lmargin_right | Lmargin_bottom | Lmargin_left => Gmargin
  | Lpadding_top | Lpadding_right | Lpadding_bottom | Lpadding_left => Gpadding
  | Lborder_top_color | Lborder_right_color | Lborder_bottom_color | Lborder_left_color
  | Lborder_top_style | Lborder_right_style | Lborder_bottom_style | Lborder_left_style
  | Lborder_top_width | Lborder_right_width | Lborder_bottom_width | Lborder_left_width => Gborder
  | Lbackground_color => Gbackground
  end.

(* ------------------------------------------------------------------ *)
(** * Memory *)

(** The contents of a style struct.  SIMPLIFICATION: one type for all structs; only the fields of the struct's own
    group are ever read. *)
(** macros.rs:179-190 *)
Definition fields := forall l, vty l.
(** ArcInner: reference count and contents; a count of 0 means freed *)
(** external: std::sync::Arc, macros.rs:168 *)
Record cell := Cell { rc : nat; contents : fields }.
(** Addresses are positions; freed addresses are not reused *)
(** external: the allocator behind Arc::new, macros.rs:200 *)
Definition heap := list cell.
(** ComputedValues, properties/macros.rs:165-171: one pointer per style struct, and specified_display *)
Record cv := CV { ptr : group -> nat; cv_display : display }.

Fixpoint set_cell (h : heap) (a : nat) (c : cell) : heap :=
  match h, a with
  | [], _ => []
  | _ :: r, O => c :: r
  | x :: r, S a => x :: set_cell r a c
  end.
(** dereferencing; a freed or wild pointer is undefined behaviour: Panic *)
(** external: Deref for Arc, macros.rs:250 *)
Definition deref (h : heap) (a : nat) : result cell :=
  match nth_error h a with Some (Cell (S n) v) => Ok (Cell (S n) v) | _ => Panic end.
(** Arc::clone, Drop for Arc *)
(** external: called at macros.rs:218 *)
Definition arc_clone (h : heap) (a : nat) : result heap :=
  do c <- deref h a; Ok (set_cell h a (Cell (S (rc c)) (contents c))).
(** external: drop glue of the fields at macros.rs:168 *)
Definition arc_drop (h : heap) (a : nat) : result heap :=
  do c <- deref h a; Ok (set_cell h a (Cell (rc c - 1) (contents c))).
(** Arc::make_mut (external): in place if this is the only pointer (there are no weak ones), else a private copy *)
(** Called at macros.rs:56, 113, 143, box_.rs:72, properties/mod.rs:23 *)
Definition make_mut (h : heap) (c : cv) (g : group) : result (heap * cv) :=
  do x <- deref h (ptr c g);
  if Nat.eqb (rc x) 1 then Ok (h, c)
  else do h' <- arc_drop h (ptr c g);
       Ok (h' ++ [Cell 1 (contents x)],
           CV (fun g' => if group_eq_dec g g' then List.length h else ptr c g') (cv_display c)).
(** Assignment to a field, macros.rs:56, 113, 143, box_.rs:72, properties/mod.rs:23-27 *)
Definition set_field (f : fields) (l : longhand) (v : vty l) : fields :=
  fun l' => match longhand_eq_dec l l' with left e => eq_rect l vty v l' e | right _ => f l' end.
(** Arc::make_mut(&mut computed.struct).field = value *)
(** macros.rs:56, 113, 143, box_.rs:72 *)
Definition write (hc : heap * cv) (l : longhand) (v : vty l) : result (heap * cv) :=
  let '(h, c) := hc in
  do (h, c) <- make_mut h c (group_of l);
  do x <- deref h (ptr c (group_of l));
  Ok (set_cell h (ptr c (group_of l)) (Cell (rc x) (set_field (contents x) l v)), c).

(** What is read through the pointers of a style (of a freed or wild pointer: the initial value; the theorems show
    that it does not occur) *)
(** No function of the code: reading, macros.rs:250 *)
Definition look (h : heap) (c : cv) : fields :=
  fun l => match deref h (ptr c (group_of l)) with Ok x => contents x l | _ => initial_value l end.
(** No function of the code: reading, macros.rs:250 *)
Definition view (h : heap) (c : cv) : style := Style (look h c) (cv_display c).

(* ------------------------------------------------------------------ *)
(** * The cascade on shared structs *)

(** No function of the code: the loop at declaration_block.rs:60-66 *)
Fixpoint fold_res {A B} (f : A -> B -> result A) (l : list B) (a : A) : result A :=
  match l with [] => Ok a | x :: r => do a' <- f a x; fold_res f r a' end.

Section Cascade.
Variable inherited : cv.
(** LonghandId::cascade_css_wide_keyword_into, properties/macros.rs:37-65 *)
Definition share_wide (l : longhand) (k : wide) (hc : heap * cv) : result (heap * cv) :=
  let is_initial := match k with KInitial => true | KInherit => false | KUnset => negb (group_inherited (group_of l)) end in
  write hc l (if is_initial then initial_value l else look (fst hc) inherited l).
(** if_early_cascade_into, if_late_cascade_into, properties/macros.rs:104-162 *)
Definition share_decl (p : phase) (hc : heap * cv) (d : decl) : result (heap * cv) :=
  let inh := view (fst hc) inherited in
  match p, d with
  | Early, DVal l v => match early_value inh l v with Some x => write hc l x | None => Ok hc end
  | Late, DVal l v =>
      match late_value inh (look (fst hc) (snd hc) Lfont_size) l v with Some x => write hc l x | None => Ok hc end
  | Early, DWide l k => if is_early l then share_wide l k hc else Ok hc
  | Late, DWide l k => if negb (is_early l) then share_wide l k hc else Ok hc
  end.
(** DeclarationBlock::cascade, declaration_block.rs:58-68 *)
Definition share_block (p : phase) (important : bool) (hc : heap * cv) (b : block) : result (heap * cv) :=
  if ph_select p (if important then b_any_important b else b_any_normal b)
  then fold_res (fun hc dx => if Bool.eqb (snd dx) important then share_decl p hc (fst dx) else Ok hc)
                (combine (b_decls b) (b_important b)) hc
  else Ok hc.
(** MatchingDeclarations::cascade, cascade.rs:77-85 *)
Definition share_matching (p : phase) (m : matching) (hc : heap * cv) : result (heap * cv) :=
  do hc <- fold_res (share_block p false) (m_ua m) hc;
  do hc <- fold_res (share_block p false) (m_author m) hc;
  do hc <- fold_res (share_block p true) (m_author m) hc;
  fold_res (share_block p true) (m_ua m) hc.
End Cascade.

(** post_cascade_fixups, properties/mod.rs:22-30.  The code calls make_mut once and writes a width only where the
    style is none; here each width is written, possibly with the value it has (no copy is made after the first). *)
Definition share_fixups (hc : heap * cv) : result (heap * cv) :=
  let now (hc : heap * cv) := look (fst hc) (snd hc) in
  do hc <- write hc Lborder_top_width (line_width_fixup (now hc Lborder_top_width) (now hc Lborder_top_style));
  do hc <- write hc Lborder_left_width (line_width_fixup (now hc Lborder_left_width) (now hc Lborder_left_style));
  do hc <- write hc Lborder_bottom_width (line_width_fixup (now hc Lborder_bottom_width) (now hc Lborder_bottom_style));
  do hc <- write hc Lborder_right_width (line_width_fixup (now hc Lborder_right_width) (now hc Lborder_right_style));
  (* Display::fixup, values/box_.rs:67-75 *)
  let '(h, c) := hc in
  let shown := look h c Ldisplay in
  let c := CV (ptr c) shown in
  if is_absolutely_positioned (look h c Lposition) || is_floating (look h c Lfloat)
  then (if display_eq_dec (blockify shown) shown then Ok (h, c) else write (h, c) Ldisplay (blockify shown))
  else Ok (h, c).

(** ComputedValues::new, properties/macros.rs:193-234; [initial] is INITIAL_VALUES *)
Definition share_new (h : heap) (initial : cv) (inherited : option cv) (m : option matching) : result (heap * cv) :=
  let inherited := match inherited with Some c => c | None => initial end in
  let select g := if group_inherited g then ptr inherited g else ptr initial g in
  do h <- fold_res (fun h g => arc_clone h (select g)) all_groups h;
  do hc <- match m with
    | Some m => do hc <- share_matching inherited Early m (h, CV select display_initial);
                share_matching inherited Late m hc
    | None => Ok (h, CV select display_initial)
    end;
  share_fixups hc.
(** drop glue of ComputedValues *)
(** The fields at macros.rs:166-171 *)
Definition share_drop (h : heap) (c : cv) : result heap := fold_res (fun h g => arc_drop h (ptr c g)) all_groups h.

(* ------------------------------------------------------------------ *)
(** * A whole program: styles are made from live ones and dropped, in any order *)
(** No type of the code: calls of ComputedValues::new, macros.rs:193-235, and drops *)
Inductive op := New (parent : option nat) (m : option matching) | Drop (i : nat).
(** The live styles, by the order in which they were made; position 0 is INITIAL_VALUES (a lazy static: it is never
    dropped.  SIMPLIFICATION: it is made at the start) *)
(** No type of the code *)
Record world := World { w_heap : heap; w_styles : list (option cv) }.
(** No function of the code; INITIAL_VALUES is at macros.rs:197-210 *)
Definition world0 : world :=
  World (map (fun _ => Cell 1 initial_value) all_groups)
    [Some (CV (fun g => match g with
       | Gfont => 0 | Gline_inherited => 1 | Gline_reset => 2 | Gcolor => 3 | Gtext_inherited => 4 | Gbox => 5
       | Gmargin => 6 | Gpadding => 7 | Gborder => 8 | Gbackground => 9 end) display_initial)].
(** No function of the code *)
Fixpoint forget {A} (l : list (option A)) (i : nat) : list (option A) :=
  match l, i with [], _ => [] | _ :: r, O => None :: r | x :: r, S i => x :: forget r i end.
(** An operation on a style that is not alive cannot be written in Rust: it is skipped *)
(** No function of the code: one call or drop *)
Definition world_op (w : world) (o : op) : result world :=
  match o with
  | New parent m =>
      match nth_error (w_styles w) 0, match parent with None => Some None | Some i => option_map Some (nth_error (w_styles w) i) end with
      | Some (Some initial), Some None => do (h, c) <- share_new (w_heap w) initial None m; Ok (World h (w_styles w ++ [Some c]))
      | Some (Some initial), Some (Some (Some p)) =>
          do (h, c) <- share_new (w_heap w) initial (Some p) m; Ok (World h (w_styles w ++ [Some c]))
      | _, _ => Ok w
      end
  | Drop i =>
      match i, nth_error (w_styles w) i with
      | S _, Some (Some c) => do h <- share_drop (w_heap w) c; Ok (World h (forget (w_styles w) i))
      | _, _ => Ok w
      end
  end.
(** No function of the code: such a program *)
Definition world_run (w : world) (os : list op) : result world := fold_res world_op os w.
