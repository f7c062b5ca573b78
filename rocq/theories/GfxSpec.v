(** Specification vocabulary for the graphics engine (C52-C60), independent of reference counts, buffers
    and capacities. *)
From Verif Require Export GfxModel.
Local Open Scope len_scope.

(* ---- graphics contexts with value semantics: every variable has its own private record ---- *)
Record gvals := GVals {
  gv_color : string; gv_fill : string; gv_family : string; gv_bold : bool; gv_italic : bool;
  gv_size_px : Len; gv_lineheight : Len; gv_line : line_style; gv_linewidth : Len }.
Definition gvals_fresh : gvals := GVals "black" "black" "" false false (px 16) (px (12#10)) LSSolid (px 1).

(** R's font faces: 1 plain, 2 bold, 3 italic, 4 bold italic (renderer.h:40-43) *)
Definition r_face (bold italic : bool) : Z :=
  match bold, italic with false, false => 1 | true, false => 2 | false, true => 3 | true, true => 4 end.
(** R's line types: 0 blank, 1 solid, 2 dashed, 3 dotted (renderer.h:44-48) *)
Definition r_line (s : line_style) : Z := match s with LSNone => 0 | LSSolid => 1 | LSDashed => 2 | LSDotted => 3 end.
(** the native record holding these values: 1px = 3/4pt *)
Definition native (v : gvals) : cgc :=
  CGC (gv_color v) (gv_fill v) (gv_size_px v * px (3#4)) (gv_lineheight v)
      (r_face (gv_bold v) (gv_italic v)) (r_line (gv_line v)) (gv_linewidth v) (gv_family v).

(** a string that can be handed to a 201-byte C buffer *)
Definition c_safe (s : string) : bool := negb (has_nul s) && (String.length s <=? 200)%nat.

Definition is_italic (s : font_style) : bool := match s with FSNormal => false | _ => true end.
Definition is_bold (w : font_weight) : bool := match w with FWBold => true | _ => false end.
Definition face_bold (f : fontface) : bool := match f with Bold | BoldItalics => true | _ => false end.
Definition face_italic (f : fontface) : bool := match f with Italics | BoldItalics => true | _ => false end.

(** effect of a setter on a private record; [None] when the string cannot be stored *)
Definition set_value (v : gvals) (s : setter) : option gvals :=
  let '(GVals col fill fam b i sz lh ls lw) := v in
  match s with
  | SetColor c => Some (GVals (rgba_to_string c) fill fam b i sz lh ls lw)
  | SetFill c => Some (GVals col (rgba_to_string c) fam b i sz lh ls lw)
  | SetFontFamily f => if c_safe f then Some (GVals col fill f b i sz lh ls lw) else None
  | SetFontface f => Some (GVals col fill fam (face_bold f) (face_italic f) sz lh ls lw)
  | SetFontStyle st => Some (GVals col fill fam b (i || is_italic st) sz lh ls lw)
  | SetFontWeight w => Some (GVals col fill fam (b || is_bold w) i sz lh ls lw)
  | SetFontSize l => Some (GVals col fill fam b i l lh ls lw)
  | SetLineStyle st => Some (GVals col fill fam b i sz lh st lw)
  | SetLineWidth l => Some (GVals col fill fam b i sz lh ls l)
  end.

Definition vstore := list (option gvals).
Definition value_of (vs : vstore) (v : nat) : option gvals :=
  match nth_error vs v with Some (Some g) => Some g | _ => None end.
Definition put (vs : vstore) (v : nat) (x : option gvals) : vstore := upd v (fun _ => x) vs.
(** one operation on private records; [None]: the variable holds nothing, or the string cannot be stored *)
Definition value_step (vs : vstore) (o : gcop) : option vstore :=
  match o with
  | GNew => Some (vs ++ [Some gvals_fresh])
  | GNewFrom v | GClone v => match value_of vs v with Some g => Some (vs ++ [Some g]) | None => None end
  | GSet v s => match value_of vs v with
                | Some g => match set_value g s with Some g' => Some (put vs v (Some g')) | None => None end
                | None => None
                end
  | GDrop v => match value_of vs v with Some _ => Some (put vs v None) | None => None end
  end.
Fixpoint value_run (vs : vstore) (os : list gcop) : option vstore :=
  match os with [] => Some vs | o :: os' => match value_step vs o with Some vs' => value_run vs' os' | None => None end end.

(** native contexts that are allocated and not freed; variables that hold a context *)
Definition live {A} (l : list (option A)) : nat := length (filter (fun o => match o with Some _ => true | None => false end) l).

(* ---- colours: what R reads from "#rrggbb" / "#rrggbbaa" (missing alpha means opaque) ---- *)
Definition hex_value (c : ascii) : option N :=
  let n := N_of_ascii c in
  if ((48 <=? n) && (n <=? 57))%N%bool then Some (n - 48)%N
  else if ((97 <=? n) && (n <=? 102))%N%bool then Some (n - 87)%N
  else None.
Definition hex_byte (a b : ascii) : option u8 :=
  match hex_value a, hex_value b with Some x, Some y => Some (ascii_of_N (16 * x + y)) | _, _ => None end.
Definition r_colour (s : string) : option rgba :=
  match s with
  | String "#" (String a (String b (String c (String d (String e (String f EmptyString)))))) =>
      match hex_byte a b, hex_byte c d, hex_byte e f with
      | Some r, Some g, Some b => Some (RGBA r g b (ascii_of_N 255))
      | _, _, _ => None
      end
  | String "#" (String a (String b (String c (String d (String e (String f (String g (String h EmptyString)))))))) =>
      match hex_byte a b, hex_byte c d, hex_byte e f, hex_byte g h with
      | Some r, Some g, Some b, Some a => Some (RGBA r g b a)
      | _, _, _, _ => None
      end
  | _ => None
  end.

(* ---- device coordinates ---- *)
(** a point of the page (px, y downwards) on the device (inches, y upwards) *)
Definition on_device (y0 : Len) (p : Len * Len) : Len * Len := (fst p * px (1#96), y0 - snd p * px (1#96)).
(** the page points of a rectangle *)
Definition in_rect (x y w h : Len) (p : Len * Len) : Prop :=
  x <= fst p /\ fst p <= x + w /\ y <= snd p /\ snd p <= y + h.
(** the device points covered by a grid rectangle: the point (x, y) is the fraction (hjust, vjust) of its extent *)
Definition grob_covers (g : grob) (p : Len * Len) : Prop :=
  match g with
  | RectGrob x y w h hj vj _ =>
      x - hj * w <= fst p /\ fst p <= x - hj * w + w /\ y - vj * h <= snd p /\ snd p <= y - vj * h + h
  | _ => False
  end.
(** device position of the left end of a text's baseline *)
Definition text_origin (g : grob) : option (Len * Len) :=
  match g with TextGrob _ x y hj vj _ => if leqb hj l0 && leqb vj l0 then Some (x, y) else None | _ => None end.
Definition line_points (g : grob) : list (Len * Len) :=
  match g with LinesGrob xs ys _ => combine xs ys | _ => [] end.

Record box := Box { b_xmin : Len; b_ymin : Len; b_xmax : Len; b_ymax : Len }.
Definition in_box (b : box) (p : Len * Len) : Prop :=
  b_xmin b <= fst p /\ fst p <= b_xmax b /\ b_ymin b <= snd p /\ snd p <= b_ymax b.
Definition box_within (a b : box) : Prop :=
  b_xmin b <= b_xmin a /\ b_xmax a <= b_xmax b /\ b_ymin b <= b_ymin a /\ b_ymax a <= b_ymax b.
Definition corners (x y w h : Len) : list (Len * Len) := [(x, y); (x + w, y); (x, y + h); (x + w, y + h)].
(** page corners of all recorded rectangles *)
Fixpoint recorded (cs : list dcall) : list (Len * Len) :=
  match cs with
  | [] => []
  | DBBox x y w h :: cs' => corners x y w h ++ recorded cs'
  | _ :: cs' => recorded cs'
  end.
Definition least_box (b : box) (pts : list (Len * Len)) : Prop :=
  Forall (in_box b) pts /\ forall b', Forall (in_box b') pts -> box_within b b'.

(** the object a drawing call must produce; [vs] gives the graphics contexts of the fonts *)
Definition produces (y0 : Len) (vs : vstore) (c : dcall) (g : grob) : Prop :=
  match c, g with
  | DText l x y f col, TextGrob l' _ _ _ _ gp =>
      l' = l /\ text_origin g = Some (on_device y0 (x, y)) /\
      exists v, value_of vs (f_gc f) = Some v /\ gp_col gp = rgba_to_string col /\
        gp_family gp = gv_family v /\ gp_face gp = r_face (gv_bold v) (gv_italic v) /\ gp_fontsize gp = gv_size_px v * px (3#4)
  | DRect x y w h col, RectGrob _ _ _ _ _ _ gp =>
      (forall p, in_rect x y w h p <-> grob_covers g (on_device y0 p)) /\ gp_fill gp = rgba_to_string col /\
      r_colour (gp_col gp) = Some (RGBA zero zero zero zero)
  | DLine ps col w st, LinesGrob xs ys gp =>
      length xs = length ps /\ length ys = length ps /\
      line_points g = map (on_device y0) ps /\ gp_col gp = rgba_to_string col /\ gp_lwd gp = w /\
      gp_lty gp = match st with LSNone => LtyInt 0 | LSSolid => LtyInt 1 | LSDashed => LtyString "21" | LSDotted => LtyString "11" end
  | _, _ => False
  end.
Definition draws (c : dcall) : bool := match c with DBBox _ _ _ _ => false | _ => true end.
(** a call whose label is a C string and whose font is alive *)
Definition call_ok (vs : vstore) (c : dcall) : Prop :=
  match c with
  | DText l _ _ f _ => has_nul l = false /\ value_of vs (f_gc f) <> None
  | _ => True
  end.

(* ---- shaped segments ---- *)
(** Texts saved so far and current text, with no caches: what an edit means. [None]: restoring a text that is
    not a prefix of the current one (its end was stripped or replaced since it was saved), or never saved. *)
Definition prefix (a b : text) : Prop := exists c, b = a ++ c.
Fixpoint prefixb (a b : text) : bool :=
  match a, b with
  | [], _ => true
  | x :: a', y :: b' => (x =? y)%N && prefixb a' b'
  | _, _ => false
  end.
Definition text_step (s : text * list text) (o : segop) : option (text * list text) :=
  let '(t, saved) := s in
  match o with
  | SAppend c => Some (t ++ [c], saved)
  | SStrip => Some (match rev t with c :: r => if (c =? sp)%N then rev r else t | [] => t end, saved)
  | SSave => Some (t, saved ++ [t])
  | SRestore i => match nth_error saved i with Some t' => if prefixb t' t then Some (t', saved) else None | None => None end
  | SMeasure => Some (t, saved)
  end.
Fixpoint text_run (s : text * list text) (os : list segop) : option (text * list text) :=
  match os with [] => Some s | o :: os' => match text_step s o with Some s' => text_run s' os' | None => None end end.

(** coordinates only: the object sits where the page coordinates are mapped by one and the same flip *)
Definition flipped (y0 : Len) (c : dcall) (g : grob) : Prop :=
  match c with
  | DText _ x y _ _ => text_origin g = Some (on_device y0 (x, y))
  | DRect x y w h _ => forall p, in_rect x y w h p <-> grob_covers g (on_device y0 p)
  | DLine ps _ _ _ => line_points g = map (on_device y0) ps
  | DBBox _ _ _ _ => False
  end.
(** what of a produced object is not its position: kind, text, colours, pen *)
Definition looks (vs : vstore) (c : dcall) (g : grob) : Prop :=
  match c, g with
  | DText l _ _ f col, TextGrob l' _ _ _ _ gp =>
      l' = l /\ exists v, value_of vs (f_gc f) = Some v /\ gp_col gp = rgba_to_string col /\
        gp_family gp = gv_family v /\ gp_face gp = r_face (gv_bold v) (gv_italic v) /\ gp_fontsize gp = gv_size_px v * px (3#4)
  | DRect _ _ _ _ col, RectGrob _ _ _ _ _ _ gp => gp_fill gp = rgba_to_string col /\ r_colour (gp_col gp) = Some (RGBA zero zero zero zero)
  | DLine ps col w st, LinesGrob xs ys gp =>
      gp_col gp = rgba_to_string col /\ gp_lwd gp = w /\
      gp_lty gp = match st with LSNone => LtyInt 0 | LSSolid => LtyInt 1 | LSDashed => LtyString "21" | LSDotted => LtyString "11" end
  | _, _ => False
  end.
