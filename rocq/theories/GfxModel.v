(** Model of the graphics engine: /repo/src/sinab/src/graphics_engine/{renderer,font,shaped_segment}.rs,
    /repo/src/sinab/src/primitives.rs, /repo/src/sinab/src/utils/c_helper.rs and of the C side
    /repo/src/{gcontext,render_device,r_callbacks}.c.  Definitions only.

    C strings and Rust [String]s that cross the boundary are byte strings (Coq [string]: one [ascii] per byte). *)
From Verif Require Export Len.
Local Open Scope len_scope.

(** Outcome of code that calls C.  [RustPanic]: a Rust panic.  [Overrun]: a C write past the end of
    a fixed-size buffer.  [Dangling]: a C access through a freed (or never allocated) pointer, or a second
    free.  [OutOfRange]: an R vector access outside its length.  [IllScoped]: an operation names a
    variable that holds no value (cannot be written in Rust). *)
(** No type of the code: the ways Rust code calling gcontext.c and render_device.c can end *)
Inductive outcome (A : Type) : Type :=
| Done (a : A) | RustPanic | Overrun | Dangling | OutOfRange | IllScoped.
Arguments Done {A} a. Arguments RustPanic {A}. Arguments Overrun {A}. Arguments Dangling {A}.
Arguments OutOfRange {A}. Arguments IllScoped {A}.
(** No function of the code: sequencing of statements, as in renderer.rs:84-149 and 272-332 *)
Definition obind {A B} (r : outcome A) (f : A -> outcome B) : outcome B :=
  match r with
  | Done a => f a | RustPanic => RustPanic | Overrun => Overrun | Dangling => Dangling
  | OutOfRange => OutOfRange | IllScoped => IllScoped
  end.
Declare Scope outcome_scope.
Notation "'let*' x := r 'in' k" := (obind r (fun x => k))
  (at level 200, x pattern, r at level 100, k at level 200) : outcome_scope.
Local Open Scope outcome_scope.

(* ---------------------------------------------------------------- colours *)

(** u8: an [ascii] is exactly eight bits *)
Notation u8 := ascii (only parsing).
(** RGBA(u8, u8, u8, u8), primitives.rs:14-15 *)
Record rgba := RGBA { c_red : u8; c_green : u8; c_blue : u8; c_alpha : u8 }.

(** one lower-case hexadecimal digit of a number below 16, as produced by [{:x}] *)
(** external: part of the format of `impl Display for RGBA`, primitives.rs:23-31 *)
Definition hex_digit (n : N) : ascii := ascii_of_N (if (n <? 10)%N then 48 + n else 87 + n)%N.
(** [{:02x}] of a u8 (std::fmt) *)
Definition fmt_02x (b : u8) : string :=
  let n := N_of_ascii b in String (hex_digit (n / 16)) (String (hex_digit (n mod 16)) EmptyString).
(** Display for RGBA, primitives.rs:23-31 *)
Definition rgba_to_string (c : rgba) : string :=
  if (N_of_ascii (c_alpha c) =? 255)%N
  then ("#" ++ fmt_02x (c_red c) ++ fmt_02x (c_green c) ++ fmt_02x (c_blue c))%string
  else ("#" ++ fmt_02x (c_red c) ++ fmt_02x (c_green c) ++ fmt_02x (c_blue c) ++ fmt_02x (c_alpha c))%string.

Section Any.
Context {ar : Arith}.

(* ---------------------------------------------------------------- C graphics context *)

(** GContext, /repo/src/renderer.h:33-51 *)
Definition STRING_BUFFER_SIZE : nat := 201.
Record cgc := CGC {
  g_color : string; g_fill : string; g_fontsize : Len; g_lineheight : Len;
  g_fontface : Z; g_linetype : Z; g_linewidth : Len; g_fontfamily : string }.

(** [strcpy] into one of the 201-byte arrays: the bytes and the terminating NUL must fit. *)
(** external: strcpy, called at gcontext.c:16-18, 35-37, 57, 65, 73 *)
Definition c_strcpy (src : string) : outcome string :=
  if (String.length src + 1 <=? STRING_BUFFER_SIZE)%nat then Done src else Overrun.

(** native heap of C contexts: [None] is a freed block; addresses are never reused (SIMPLIFICATION) *)
(** external: Calloc and Free, called at gcontext.c:14, 33, 52 *)
Definition cheap := list (option cgc).
(** Reading through gc or source, gcontext.c:35-42, 60-117 *)
Definition heap_read (h : cheap) (p : nat) : outcome cgc :=
  match nth_error h p with Some (Some g) => Done g | _ => Dangling end.
(** Writing through gc, gcontext.c:56-114 *)
Definition heap_write (h : cheap) (p : nat) (g : cgc) : outcome cheap :=
  match nth_error h p with Some (Some _) => Done (upd p (fun _ => Some g) h) | _ => Dangling end.

(** gcontext_new, gcontext.c:9-25 *)
Definition cgc_default : cgc :=
  CGC "black" "black" (px 12) (px (12#10)) 1 1 (px 1) "".
Definition gcontext_new (h : cheap) : outcome (nat * cheap) :=
  let* col := c_strcpy "black" in
  let* fil := c_strcpy "black" in
  let* fam := c_strcpy "" in
  Done (length h, h ++ [Some (CGC col fil (px 12) (px (12#10)) 1 1 (px 1) fam)]).
(** gcontext_clone, gcontext.c:28-44 *)
Definition gcontext_clone (h : cheap) (source : nat) : outcome (nat * cheap) :=
  let* s := heap_read h source in
  let* col := c_strcpy (g_color s) in
  let* fil := c_strcpy (g_fill s) in
  let* fam := c_strcpy (g_fontfamily s) in
  Done (length h, h ++ [Some (CGC col fil (g_fontsize s) (g_lineheight s) (g_fontface s) (g_linetype s) (g_linewidth s) fam)]).
(** gcontext_delete, gcontext.c:47-53 *)
Definition gcontext_delete (h : cheap) (p : nat) : outcome cheap :=
  match nth_error h p with Some (Some _) => Done (upd p (fun _ => None) h) | _ => Dangling end.
(** setters, gcontext.c:56-114 *)
Definition gcontext_set_color (h : cheap) (p : nat) (color : string) : outcome cheap :=
  let* g := heap_read h p in let* s := c_strcpy color in
  heap_write h p (CGC s (g_fill g) (g_fontsize g) (g_lineheight g) (g_fontface g) (g_linetype g) (g_linewidth g) (g_fontfamily g)).
Definition gcontext_set_fill (h : cheap) (p : nat) (color : string) : outcome cheap :=
  let* g := heap_read h p in let* s := c_strcpy color in
  heap_write h p (CGC (g_color g) s (g_fontsize g) (g_lineheight g) (g_fontface g) (g_linetype g) (g_linewidth g) (g_fontfamily g)).
Definition gcontext_set_fontfamily (h : cheap) (p : nat) (family : string) : outcome cheap :=
  let* g := heap_read h p in let* s := c_strcpy family in
  heap_write h p (CGC (g_color g) (g_fill g) (g_fontsize g) (g_lineheight g) (g_fontface g) (g_linetype g) (g_linewidth g) s).
Definition gcontext_set_fontface (h : cheap) (p : nat) (face : Z) : outcome cheap :=
  let* g := heap_read h p in
  heap_write h p (CGC (g_color g) (g_fill g) (g_fontsize g) (g_lineheight g) face (g_linetype g) (g_linewidth g) (g_fontfamily g)).
Definition gcontext_set_fontsize (h : cheap) (p : nat) (size : Len) : outcome cheap :=
  let* g := heap_read h p in
  heap_write h p (CGC (g_color g) (g_fill g) size (g_lineheight g) (g_fontface g) (g_linetype g) (g_linewidth g) (g_fontfamily g)).
Definition gcontext_set_linetype (h : cheap) (p : nat) (lty : Z) : outcome cheap :=
  let* g := heap_read h p in
  heap_write h p (CGC (g_color g) (g_fill g) (g_fontsize g) (g_lineheight g) (g_fontface g) lty (g_linewidth g) (g_fontfamily g)).
Definition gcontext_set_linewidth (h : cheap) (p : nat) (lwd : Len) : outcome cheap :=
  let* g := heap_read h p in
  heap_write h p (CGC (g_color g) (g_fill g) (g_fontsize g) (g_lineheight g) (g_fontface g) (g_linetype g) lwd (g_fontfamily g)).

(* ---------------------------------------------------------------- Rust GContextImpl *)

(** Fontface, renderer.rs:48-55; FontStyle, FontWeight, LineStyle, style/values/{fonts,border}.rs *)
Inductive fontface := Plain | Bold | Italics | BoldItalics.
Inductive font_style := FSNormal | FSItalic | FSOblique.
Inductive font_weight := FWNormal | FWBold.
Inductive line_style := LSNone | LSSolid | LSDashed | LSDotted.

(** does the byte string contain a NUL byte? *)
(** external: part of CString::new, called at renderer.rs:85, 89, 93, 273 *)
Fixpoint has_nul (s : string) : bool :=
  match s with
  | EmptyString => false
  | String c s' => if Ascii.eqb c zero then true else has_nul s'
  end.
(** CString::new(s).unwrap() *)
(** Used at renderer.rs:85, 89, 93, 273 *)
Definition cstring_unwrap (s : string) : outcome string := if has_nul s then RustPanic else Done s.

(** set_fontface, renderer.rs:96-104 *)
Definition face_code (f : fontface) : Z :=
  match f with Plain => 1 | Bold => 2 | Italics => 3 | BoldItalics => 4 end.
Definition impl_set_fontface (h : cheap) (p : nat) (f : fontface) : outcome cheap := gcontext_set_fontface h p (face_code f).
(** get_fontface, renderer.rs:172-184 *)
Definition face_of_code (z : Z) : fontface :=
  match z with 1%Z => Plain | 2%Z => Bold | 3%Z => Italics | 4%Z => BoldItalics | _ => Plain end.
Definition impl_get_fontface (h : cheap) (p : nat) : outcome fontface :=
  let* g := heap_read h p in Done (face_of_code (g_fontface g)).
(** set_fontstyle, renderer.rs:106-115 *)
Definition impl_set_fontstyle (h : cheap) (p : nat) (s : font_style) : outcome cheap :=
  match s with
  | FSItalic | FSOblique =>
      let* f := impl_get_fontface h p in
      match f with
      | Plain => impl_set_fontface h p Italics
      | Bold => impl_set_fontface h p BoldItalics
      | _ => Done h
      end
  | _ => Done h
  end.
(** set_fontweight, renderer.rs:117-126 *)
Definition impl_set_fontweight (h : cheap) (p : nat) (w : font_weight) : outcome cheap :=
  match w with
  | FWBold =>
      let* f := impl_get_fontface h p in
      match f with
      | Plain => impl_set_fontface h p Bold
      | Italics => impl_set_fontface h p BoldItalics
      | _ => Done h
      end
  | _ => Done h
  end.
(** set_fontsize, renderer.rs:129-132 *)
Definition impl_set_fontsize (h : cheap) (p : nat) (size : Len) : outcome cheap :=
  gcontext_set_fontsize h p (ldiv (size * px 72) (px 96)).
(** get_fontsize, renderer.rs:186-192 *)
Definition impl_get_fontsize (h : cheap) (p : nat) : outcome Len :=
  let* g := heap_read h p in Done (ldiv (g_fontsize g * px 96) (px 72)).
(** set_linestyle, renderer.rs:135-143 *)
Definition line_code (s : line_style) : Z :=
  match s with LSNone => 0 | LSSolid => 1 | LSDashed => 2 | LSDotted => 3 end.

(** The setters of GContextImpl as data. *)
(** set_color ... set_linewidth, renderer.rs:84-149 *)
Inductive setter :=
| SetColor (c : rgba) | SetFill (c : rgba) | SetFontFamily (s : string) | SetFontface (f : fontface)
| SetFontStyle (s : font_style) | SetFontWeight (w : font_weight) | SetFontSize (l : Len)
| SetLineStyle (s : line_style) | SetLineWidth (l : Len).
(** renderer.rs:84-149 *)
Definition impl_set (h : cheap) (p : nat) (s : setter) : outcome cheap :=
  match s with
  | SetColor c => let* cc := cstring_unwrap (rgba_to_string c) in gcontext_set_color h p cc
  | SetFill c => let* cc := cstring_unwrap (rgba_to_string c) in gcontext_set_fill h p cc
  | SetFontFamily f => let* cf := cstring_unwrap f in gcontext_set_fontfamily h p cf
  | SetFontface f => impl_set_fontface h p f
  | SetFontStyle st => impl_set_fontstyle h p st
  | SetFontWeight w => impl_set_fontweight h p w
  | SetFontSize l => impl_set_fontsize h p l
  | SetLineStyle st => gcontext_set_linetype h p (line_code st)
  | SetLineWidth l => gcontext_set_linewidth h p l
  end.

(* ---------------------------------------------------------------- GContext = Rc<GContextImpl> *)

(** An [Rc] block: strong count and the wrapped GContextImpl (its native pointer). *)
(** external: what Rc<GContextImpl> points to, renderer.rs:216 *)
Record rcell := RCell { rc_strong : nat; rc_ptr : nat }.
(** Native heap, Rc blocks ([None] = deallocated), program variables holding a GContext
    ([None] = dropped). *)
(** No type of the code: the state of a program that uses the functions of renderer.rs:68-246 *)
Record gworld := GWorld { w_heap : cheap; w_rcs : list (option rcell); w_vars : list (option nat) }.
(** No function of the code: the state before the program *)
Definition gworld0 : gworld := GWorld [] [] [].

(** The Rc in a GContext variable, renderer.rs:216 *)
Definition var_rc (w : gworld) (v : nat) : outcome nat :=
  match nth_error (w_vars w) v with Some (Some r) => Done r | _ => IllScoped end.
(** external: dereferencing an Rc, renderer.rs:238 *)
Definition rc_get (w : gworld) (r : nat) : outcome rcell :=
  match nth_error (w_rcs w) r with Some (Some c) => Done c | _ => Dangling end.

(** GContext::new, renderer.rs:219-221 *)
Definition gc_new (w : gworld) : outcome gworld :=
  let* (p, h) := gcontext_new (w_heap w) in
  Done (GWorld h (w_rcs w ++ [Some (RCell 1 p)]) (w_vars w ++ [Some (length (w_rcs w))])).
(** GContext::new_from, renderer.rs:223-225 (GContextImpl::clone, 201-207) *)
Definition gc_new_from (w : gworld) (v : nat) : outcome gworld :=
  let* r := var_rc w v in let* c := rc_get w r in
  let* (p, h) := gcontext_clone (w_heap w) (rc_ptr c) in
  Done (GWorld h (w_rcs w ++ [Some (RCell 1 p)]) (w_vars w ++ [Some (length (w_rcs w))])).
(** Clone for GContext (Rc::clone), renderer.rs:228-232 *)
Definition gc_clone (w : gworld) (v : nat) : outcome gworld :=
  let* r := var_rc w v in let* c := rc_get w r in
  Done (GWorld (w_heap w) (upd r (fun _ => Some (RCell (S (rc_strong c)) (rc_ptr c))) (w_rcs w)) (w_vars w ++ [Some r])).
(** releasing one strong reference; dropping the last one drops the GContextImpl, renderer.rs:209-213 *)
Definition rc_release (w : gworld) (r : nat) : outcome gworld :=
  let* c := rc_get w r in
  match rc_strong c with
  | S (S n) => Done (GWorld (w_heap w) (upd r (fun _ => Some (RCell (S n) (rc_ptr c))) (w_rcs w)) (w_vars w))
  | _ => let* h := gcontext_delete (w_heap w) (rc_ptr c) in
         Done (GWorld h (upd r (fun _ => None) (w_rcs w)) (w_vars w))
  end.
(** drop of a variable *)
(** Drop glue of GContext (external: Rc) and Drop for GContextImpl, renderer.rs:209-213 *)
Definition gc_drop (w : gworld) (v : nat) : outcome gworld :=
  let* r := var_rc w v in
  let* w1 := rc_release w r in
  Done (GWorld (w_heap w1) (w_rcs w1) (upd v (fun _ => None) (w_vars w1))).
(** DerefMut for GContext, renderer.rs:242-246: Rc::make_mut clones the contents when shared *)
Definition gc_make_mut (w : gworld) (v : nat) : outcome (nat * gworld) :=
  let* r := var_rc w v in let* c := rc_get w r in
  if (rc_strong c =? 1)%nat then Done (rc_ptr c, w)
  else
    let* (p, h) := gcontext_clone (w_heap w) (rc_ptr c) in
    let* w1 := rc_release (GWorld h (w_rcs w) (w_vars w)) r in
    Done (p, GWorld (w_heap w1) (w_rcs w1 ++ [Some (RCell 1 p)]) (upd v (fun _ => Some (length (w_rcs w1))) (w_vars w1))).
(** a setter called through a GContext variable *)
(** deref_mut and a setter, renderer.rs:242-246 and 84-149 *)
Definition gc_set (w : gworld) (v : nat) (s : setter) : outcome gworld :=
  let* (p, w1) := gc_make_mut w v in
  let* h := impl_set (w_heap w1) p s in
  Done (GWorld h (w_rcs w1) (w_vars w1)).
(** Deref for GContext, renderer.rs:234-240, and reading all fields *)
Definition gc_view (w : gworld) (v : nat) : outcome cgc :=
  let* r := var_rc w v in let* c := rc_get w r in heap_read (w_heap w) (rc_ptr c).

(** Programs using graphics contexts; a new variable gets the next free number. *)
(** No type of the code: a program made of the calls at renderer.rs:219-245 *)
Inductive gcop := GNew | GNewFrom (v : nat) | GClone (v : nat) | GSet (v : nat) (s : setter) | GDrop (v : nat).
(** No function of the code: one call of such a program *)
Definition gc_step (w : gworld) (o : gcop) : outcome gworld :=
  match o with
  | GNew => gc_new w | GNewFrom v => gc_new_from w v | GClone v => gc_clone w v
  | GSet v s => gc_set w v s | GDrop v => gc_drop w v
  end.
(** No function of the code: such a program *)
Fixpoint gc_run (w : gworld) (os : list gcop) : outcome gworld :=
  match os with [] => Done w | o :: os' => let* w1 := gc_step w o in gc_run w1 os' end.

(* ---------------------------------------------------------------- fonts *)

(** rdev_string_metrics, render_device.c:221-242.  R's GEStrMetric on the current device is the
    arbitrary function [ge]: family, face, size in points, text |-> ascent, descent, width in inches. *)
Definition metric_fun := string -> Z -> Len -> string -> (Len * Len * Len).
Definition rdev_string_metrics (ge : metric_fun) (label : string) (g : cgc) : outcome (Len * Len * Len) :=
  let* fam := c_strcpy (g_fontfamily g) in   (* R_gc.fontfamily is char[201] too *)
  Done (ge fam (g_fontface g) (g_fontsize g) label).
(** string_metrics_internal, font.rs:35-57 *)
Definition string_metrics_internal (ge : metric_fun) (label : string) (g : cgc) : outcome (Len * Len * Len) :=
  let* l := cstring_unwrap label in
  let* (a, d, w) := rdev_string_metrics ge l g in
  Done (px 96 * a, px 96 * d, px 96 * w).
(** FontImpl, font.rs:22-32; [f_gc] is the variable holding the font's context *)
Record font := Font {
  f_name : string; f_style : font_style; f_weight : font_weight; f_size : Len;
  f_ascent : Len; f_descent : Len; f_space : Len; f_gc : nat }.
(** FontImpl::new, font.rs:59-78 *)
Definition font_new (ge : metric_fun) (w : gworld) (name : string) (st : font_style) (wt : font_weight) (size : Len)
  : outcome (font * gworld) :=
  let v := length (w_vars w) in
  let* w := gc_new w in
  let* w := gc_set w v (SetFontFamily name) in
  let* w := gc_set w v (SetFontStyle st) in
  let* w := gc_set w v (SetFontWeight wt) in
  let* w := gc_set w v (SetFontSize size) in
  let* g := gc_view w v in
  let* (a, d, _) := string_metrics_internal ge "gjpqyQ" g in
  let* (_, _, sp) := string_metrics_internal ge " " g in
  Done (Font name st wt size a d sp v, w).
(** FontFamily, style/values/fontfamily.rs:7-15; choice of the family name, font.rs:121-127 *)
Inductive font_family := FamSans | FamSerif | FamMono | FamFantasy | FamCursive | FamName (s : string).
Definition family_name (f : font_family) : string :=
  match f with
  | FamSans => "sans" | FamSerif => "serif" | FamMono => "mono" | FamName s => s | _ => "sans"
  end%string.

(* ---------------------------------------------------------------- C render device *)

(** grid::gpar arguments, r_callbacks.c:168-245 *)
Inductive lty_arg := LtyString (s : string) | LtyInt (z : Z).
Record gpar := GPar {
  gp_col : string; gp_fill : string; gp_family : string; gp_face : Z; gp_fontsize : Len;
  gp_lineheight : Len; gp_lty : lty_arg; gp_lwd : Len; gp_lineend : string }.
Definition gpar_gcontext (g : cgc) : gpar :=
  GPar (g_color g) (g_fill g) (g_fontfamily g) (g_fontface g) (g_fontsize g) (g_lineheight g)
       (match g_linetype g with 2%Z => LtyString "21" | 3%Z => LtyString "11" | z => LtyInt z end)
       (g_linewidth g) "butt".
(** the grid objects created by text_grob, rect_grob, lines_grob (r_callbacks.c:15-124); all lengths in inches *)
Inductive grob :=
| TextGrob (label : string) (x y hjust vjust : Len) (gp : gpar)
| RectGrob (x y w h hjust vjust : Len) (gp : gpar)
| LinesGrob (xs ys : list Len) (gp : gpar).

(** RenderDevice, renderer.h:19-26.  [d_grobs] is the R vector (NULL elements are [None]). *)
Record rdev := RDev {
  d_grobs : list (option grob); d_size : nat; d_capacity : nat; d_y0 : Len;
  d_xmin : Len; d_ymin : Len; d_xmax : Len; d_ymax : Len; d_set : bool }.
(** rdev_new, render_device.c:4-23 *)
Definition rdev_new (y0 : Len) : rdev := RDev (repeat None 5) 0 5 y0 l0 l0 l0 l0 false.
(** VECTOR_ELT / SET_VECTOR_ELT on an R list *)
(** external: called at render_device.c:35, 84 *)
Definition vector_elt {A} (v : list (option A)) (i : nat) : outcome (option A) :=
  match nth_error v i with Some x => Done x | None => OutOfRange end.
(** external: called at render_device.c:35, 50-53, 84, 103 *)
Definition set_vector_elt {A} (v : list (option A)) (i : nat) (x : option A) : outcome (list (option A)) :=
  if (i <? length v)%nat then Done (upd i (fun _ => x) v) else OutOfRange.
(** the copy loops of render_device.c:34-36 and 83-85: indices [i, i+k) *)
Fixpoint copy_elts {A} (old new : list (option A)) (i k : nat) : outcome (list (option A)) :=
  match k with
  | O => Done new
  | S k' => let* x := vector_elt old i in let* new' := set_vector_elt new i x in copy_elts old new' (S i) k'
  end.
(** rdev_grow_capacity, render_device.c:73-92 *)
Definition rdev_grow_capacity (d : rdev) : outcome rdev :=
  let cap := (2 * d_capacity d)%nat in
  let* g := copy_elts (d_grobs d) (repeat None cap) 0 (d_size d) in
  Done (RDev g (d_size d) cap (d_y0 d) (d_xmin d) (d_ymin d) (d_xmax d) (d_ymax d) (d_set d)).
(** rdev_add_SEXP, render_device.c:95-105 *)
Definition rdev_add (d : rdev) (s : grob) : outcome rdev :=
  let* d := (if (d_size d =? d_capacity d)%nat then rdev_grow_capacity d else Done d) in
  let* g := set_vector_elt (d_grobs d) (d_size d) (Some s) in
  Done (RDev g (d_size d + 1) (d_capacity d) (d_y0 d) (d_xmin d) (d_ymin d) (d_xmax d) (d_ymax d) (d_set d)).
(** rdev_draw_text, render_device.c:107-124 *)
Definition rdev_draw_text (d : rdev) (label : string) (x y : Len) (g : cgc) : outcome rdev :=
  rdev_add d (TextGrob label x (d_y0 d - y) l0 l0 (gpar_gcontext g)).
(** rdev_draw_rect, render_device.c:127-147 *)
Definition rdev_draw_rect (d : rdev) (x y w h : Len) (g : cgc) : outcome rdev :=
  rdev_add d (RectGrob x (d_y0 d - y) w h l0 (px 1) (gpar_gcontext g)).
(** rdev_draw_line, render_device.c:150-174 ([n] is the common length of both arrays) *)
Definition rdev_draw_line (d : rdev) (xs ys : list Len) (g : cgc) : outcome rdev :=
  rdev_add d (LinesGrob xs (map (fun y => d_y0 d - y) ys) (gpar_gcontext g)).
(** rdev_record_bbox, render_device.c:184-214 *)
Definition rdev_record_bbox (d : rdev) (xmin ymin xmax ymax : Len) : rdev :=
  let ymin := d_y0 d - ymin in
  let ymax := d_y0 d - ymax in
  let '(xmin, xmax) := if lltb xmax xmin then (xmax, xmin) else (xmin, xmax) in
  let '(ymin, ymax) := if lltb ymax ymin then (ymax, ymin) else (ymin, ymax) in
  if d_set d then
    RDev (d_grobs d) (d_size d) (d_capacity d) (d_y0 d)
      (if lltb xmin (d_xmin d) then xmin else d_xmin d) (if lltb ymin (d_ymin d) then ymin else d_ymin d)
      (if lltb (d_xmax d) xmax then xmax else d_xmax d) (if lltb (d_ymax d) ymax then ymax else d_ymax d) true
  else RDev (d_grobs d) (d_size d) (d_capacity d) (d_y0 d) xmin ymin xmax ymax true.
(** rdev_release, render_device.c:26-70: the returned list and its "bbox" attribute (xmin, ymin, xmax, ymax) *)
Definition rdev_release (d : rdev) : outcome (list (option grob) * option (Len * Len * Len * Len)) :=
  let* g := copy_elts (d_grobs d) (repeat None (d_size d)) 0 (d_size d) in
  Done (g, if d_set d then Some (d_xmin d, d_ymin d, d_xmax d, d_ymax d) else None).

(* ---------------------------------------------------------------- Rust RenderDevice *)

(** Division by 96.0, renderer.rs:275-276, 288-291, 309-310, 324-327 *)
Definition to_in (l : Len) : Len := ldiv l (px 96).

(** A drawing world: the C device and the graphics contexts. *)
(** RenderDevice with the pointer to its C device, renderer.rs:261-263, and the contexts made for drawing, 278, 293, 313 *)
Record dworld := DWorld { dw_dev : rdev; dw_gc : gworld }.

(** RenderDevice::draw_text, renderer.rs:272-284.  [f_gc] names the font's context; the local [gc] is
    dropped at the end of the function. *)
Definition draw_text (w : dworld) (label : string) (x y : Len) (f : font) (color : rgba) : outcome dworld :=
  let* clabel := cstring_unwrap label in
  let v := length (w_vars (dw_gc w)) in
  let* gw := gc_clone (dw_gc w) (f_gc f) in
  let* gw := gc_set gw v (SetColor color) in
  let* g := gc_view gw v in
  let* d := rdev_draw_text (dw_dev w) clabel (to_in x) (to_in y) g in
  let* gw := gc_drop gw v in
  Done (DWorld d gw).
(** RenderDevice::draw_rect, renderer.rs:286-300 *)
Definition draw_rect (w : dworld) (x y width height : Len) (fill : rgba) : outcome dworld :=
  let v := length (w_vars (dw_gc w)) in
  let* gw := gc_new (dw_gc w) in
  let* gw := gc_set gw v (SetColor (RGBA zero zero zero zero)) in
  let* gw := gc_set gw v (SetFill fill) in
  let* g := gc_view gw v in
  let* d := rdev_draw_rect (dw_dev w) (to_in x) (to_in y) (to_in width) (to_in height) g in
  let* gw := gc_drop gw v in
  Done (DWorld d gw).
(** RenderDevice::draw_line, renderer.rs:302-321 *)
Definition draw_line (w : dworld) (points : list (Len * Len)) (color : rgba) (width : Len) (style : line_style) : outcome dworld :=
  let v := length (w_vars (dw_gc w)) in
  let* gw := gc_new (dw_gc w) in
  let* gw := gc_set gw v (SetColor color) in
  let* gw := gc_set gw v (SetLineStyle style) in
  let* gw := gc_set gw v (SetLineWidth width) in
  let* g := gc_view gw v in
  let* d := rdev_draw_line (dw_dev w) (map (fun p => to_in (fst p)) points) (map (fun p => to_in (snd p)) points) g in
  let* gw := gc_drop gw v in
  Done (DWorld d gw).
(** RenderDevice::record_bbox, renderer.rs:323-332; the rectangle is given by its corner and size *)
Definition record_bbox (w : dworld) (x y width height : Len) : dworld :=
  let xmin := to_in x in
  let ymin := to_in y in
  DWorld (rdev_record_bbox (dw_dev w) xmin ymin (xmin + to_in width) (ymin + to_in height)) (dw_gc w).

(** The calls the painting code makes, as data. *)
(** draw_text, draw_rect, draw_line, record_bbox, renderer.rs:272-332 *)
Inductive dcall :=
| DText (label : string) (x y : Len) (f : font) (color : rgba)
| DRect (x y width height : Len) (fill : rgba)
| DLine (points : list (Len * Len)) (color : rgba) (width : Len) (style : line_style)
| DBBox (x y width height : Len).
(** One of the calls at renderer.rs:272-332 *)
Definition dstep (w : dworld) (c : dcall) : outcome dworld :=
  match c with
  | DText l x y f col => draw_text w l x y f col
  | DRect x y wd ht col => draw_rect w x y wd ht col
  | DLine ps col wd st => draw_line w ps col wd st
  | DBBox x y wd ht => Done (record_bbox w x y wd ht)
  end.
(** A sequence of the calls at renderer.rs:272-332 *)
Fixpoint drun (w : dworld) (cs : list dcall) : outcome dworld :=
  match cs with [] => Done w | c :: cs' => let* w1 := dstep w c in drun w1 cs' end.

(* ---------------------------------------------------------------- shaped segments *)

(** number of bytes of a char in UTF-8 (char::len_utf8) *)
(** external: part of String::len, called at shaped_segment.rs:69, 92 *)
Definition utf8_len (c : char) : nat :=
  if (c <? 128)%N then 1 else if (c <? 2048)%N then 2 else if (c <? 65536)%N then 3 else 4.
(** external: String::len, called at shaped_segment.rs:69, 92 *)
Definition str_len (s : text) : nat := fold_right (fun c n => utf8_len c + n)%nat O s.
(** String::truncate(n): no effect when n > len; panics when n is not on a char boundary *)
(** external: part of String::truncate, called at shaped_segment.rs:75 *)
Fixpoint str_take (s : text) (n : nat) : outcome text :=
  match n, s with
  | O, _ => Done []
  | _, [] => Done []
  | _, c :: s' => if (utf8_len c <=? n)%nat then let* r := str_take s' (n - utf8_len c) in Done (c :: r) else RustPanic
  end.
(** external: called at shaped_segment.rs:75 *)
Definition str_truncate (s : text) (n : nat) : outcome text :=
  if (n <=? str_len s)%nat then str_take s n else Done s.

(** ShapedSegment, shaped_segment.rs:8-21; [width] is the font's measuring function *)
Record segment := Seg { seg_glyphs : text; seg_width : option Len }.
Record seg_state := SegState { ss_glyphs : nat; ss_width : option Len }.
(** new, shaped_segment.rs:37-43 *)
Definition seg_new : segment := Seg [] None.
(** append_char, shaped_segment.rs:49-57 *)
Definition seg_append_char (s : segment) (ch : char) : segment := Seg (seg_glyphs s ++ [ch]) None.
(** append, shaped_segment.rs:45-47 *)
Definition seg_append (s : segment) (t : text) : segment := fold_left seg_append_char t s.
(** strip_space, shaped_segment.rs:60-65 *)
Definition seg_strip_space (s : segment) : segment :=
  match rev (seg_glyphs s) with
  | c :: r => if (c =? sp)%N then Seg (rev r) None else s
  | [] => s
  end.
(** save, restore, shaped_segment.rs:67-77 *)
Definition seg_save (s : segment) : seg_state := SegState (str_len (seg_glyphs s)) (seg_width s).
Definition seg_restore (s : segment) (st : seg_state) : outcome segment :=
  let* g := str_truncate (seg_glyphs s) (ss_glyphs st) in Done (Seg g (ss_width st)).
(** get_advance_width, shaped_segment.rs:79-88: the width and the updated cache *)
Definition seg_advance (width : text -> Len) (s : segment) : Len * segment :=
  match seg_width s with
  | Some l => (l, s)
  | None => let l := width (seg_glyphs s) in (l, Seg (seg_glyphs s) (Some l))
  end.
(** empty, shaped_segment.rs:91-93 *)
Definition seg_empty (s : segment) : bool := (str_len (seg_glyphs s) =? 0)%nat.

(** A program editing one segment; states saved are numbered in order of saving. *)
(** No type of the code: a program made of the calls at shaped_segment.rs:45-93 *)
Inductive segop := SAppend (c : char) | SStrip | SSave | SRestore (i : nat) | SMeasure.
(** No function of the code: one call of such a program *)
Definition seg_step (width : text -> Len) (s : segment * list seg_state) (o : segop) : outcome (segment * list seg_state) :=
  let '(g, saved) := s in
  match o with
  | SAppend c => Done (seg_append_char g c, saved)
  | SStrip => Done (seg_strip_space g, saved)
  | SSave => Done (g, saved ++ [seg_save g])
  | SRestore i => match nth_error saved i with
                  | Some st => let* g' := seg_restore g st in Done (g', saved)
                  | None => IllScoped
                  end
  | SMeasure => Done (snd (seg_advance width g), saved)
  end.
(** No function of the code: such a program *)
Fixpoint seg_run (width : text -> Len) (s : segment * list seg_state) (os : list segop) : outcome (segment * list seg_state) :=
  match os with [] => Done s | o :: os' => let* s1 := seg_step width s o in seg_run width s1 os' end.
End Any.
