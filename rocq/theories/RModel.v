(** Model of the R code: R/html_grob.R, R/grid-utils.R, R/render-markdown.R.  Definitions only.
    R's package grid is external; what is used of it is written down here:
    a viewport is an axis-parallel rectangle placed in the current one by position, size and justification, pushing
    puts it on the stack of viewports, popping takes viewports off again.
    SIMPLIFICATION: no rotation, native scales, layouts or clipping; the vp of a grob is a viewport or a vpStack. *)
From Verif Require Import GfxModel Base Len.
Local Open Scope list_scope.
Local Open Scope len_scope.
Local Open Scope result_scope.

(** grid units: sums of a part of the viewport and of inches *)
(** external: unit(), used at grid-utils.R:7, 18, 51, html_grob.R:105-121 *)
Record unit_ := Unit { u_npc : Len; u_in : Len }.
(** An argument that is NULL, a number or a unit *)
(** The arguments x, y, width, height of html_grob, html_grob.R:28-54, as with_unit takes them, grid-utils.R:5-10 *)
Inductive arg := Null | Number (n : Len) | AUnit (u : unit_).
(** with_unit, grid-utils.R:5-10; [default] is unit(., default.units) *)
Definition with_unit (default : Len -> unit_) (a : arg) : option unit_ :=
  match a with Null => None | Number n => Some (default n) | AUnit u => Some u end.

(* ------------------------------------------------------------------ *)
(** * grid *)

(** The rectangle of a viewport on the device, in inches, y upwards *)
(** external: the state behind convertWidth, convertHeight, grid-utils.R:25-40, 58-73 *)
Record area := Area { a_left : Len; a_bottom : Len; a_width : Len; a_height : Len }.
(** external: viewport(x, y, width, height, just) *)
(** Called at html_grob.R:94 *)
Record viewport := Viewport { vp_x : unit_; vp_y : unit_; vp_w : unit_; vp_h : unit_; vp_hjust : Len; vp_vjust : Len }.
(** external: the stack of viewports: the current one first, the whole device last (ROOT is not part of vpPath) *)
(** Used by pushViewport, popViewport, current.vpPath, grid-utils.R:37-41, 70-74 *)
Record grid := Grid { g_pushed : list area; g_root : area }.
(** Used by convertWidth, convertHeight, grid-utils.R:31, 40, 64, 73 *)
Definition current (g : grid) : area := match g_pushed g with a :: _ => a | [] => g_root g end.
(** convertWidth(u, "in", TRUE), convertHeight(u, "in", TRUE) *)
(** external: called at grid-utils.R:27, 31, 40 *)
Definition convert_width (g : grid) (u : unit_) : Len := u_npc u * a_width (current g) + u_in u.
(** external: called at grid-utils.R:60, 64, 73 *)
Definition convert_height (g : grid) (u : unit_) : Len := u_npc u * a_height (current g) + u_in u.
(** external: part of pushViewport, called at grid-utils.R:39, 72 *)
Definition place (g : grid) (v : viewport) : area :=
  let w := convert_width g (vp_w v) in
  let h := convert_height g (vp_h v) in
  Area (a_left (current g) + (convert_width g (vp_x v) - vp_hjust v * w))
       (a_bottom (current g) + (convert_height g (vp_y v) - vp_vjust v * h)) w h.
(** pushViewport of a viewport or a vpStack *)
(** external: called at grid-utils.R:39, 72 *)
Fixpoint push (g : grid) (vs : list viewport) : grid :=
  match vs with [] => g | v :: r => push (Grid (place g v :: g_pushed g) (g_root g)) r end.
(** current.vpPath()$n: NULL at the top *)
(** external: called at grid-utils.R:37, 41, 70, 74 *)
Definition vp_path_n (g : grid) : option nat := match g_pushed g with [] => None | l => Some (List.length l) end.
(** popViewport(n): 0 means all; an error if there are not that many *)
(** external: called at grid-utils.R:41, 74 *)
Definition pop (g : grid) (n : nat) : result grid :=
  match n with
  | O => Ok (Grid [] (g_root g))
  | _ => if Nat.ltb (List.length (g_pushed g)) n then Panic else Ok (Grid (skipn n (g_pushed g)) (g_root g))
  end.

(* ------------------------------------------------------------------ *)
(** * grid-utils.R *)

(** current_width, current_height, grid-utils.R:15-78, with flip = FALSE and convert_null = TRUE, the only way they
    are called.  [vp] is grob$vp (NULL or the viewports it stands for); [convert] is the conversion in use. *)
Definition current_extent (convert : grid -> unit_ -> Len) (g : grid) (vp : option (list viewport)) (e : option unit_)
  : result (Len * grid) :=
  let e := match e with Some u => u | None => Unit (px 1) l0 end in
  match vp with
  | None => Ok (convert g e, g)
  | Some vs =>
      let n := match vp_path_n g with Some n => n | None => O end in
      let g1 := push g vs in
      let e_in := convert g1 e in
      match vp_path_n g1 with
      | Some m => do g2 <- pop g1 (m - n); Ok (e_in, g2)
      | None => Panic (* NULL - n is numeric(0): an error in popViewport *)
      end
  end.
(** current_width, grid-utils.R:15-45 *)
Definition current_width := current_extent convert_width.
(** current_height, grid-utils.R:48-78 *)
Definition current_height := current_extent convert_height.

(* ------------------------------------------------------------------ *)
(** * html_grob.R *)
Section Renderer.
(** [bbox]: xmin, ymin, xmax, ymax in inches *)
(** The attribute made at render_device.c:42-57, read at html_grob.R:84-92 *)
Definition bbox : Set := Len * Len * Len * Len.
(** sinab_test_renderer and what comes back from the device (PaintModel.render_markdown): text, css, width and height
    of the page in pixels *)
Variable renderer : text -> text -> Len -> Len -> list grob * option bbox.

(** C_render_markdown, render_markdown.c:8-29: only the first text and the first css count *)
Definition render_markdown (texts css : list text) (width_in height_in : Len) : list grob * option bbox :=
  match texts, css with
  | t :: _, c :: _ => renderer t c (width_in * px 96) (height_in * px 96)
  | _, _ => ([], None)
  end.

Record html := Html {
  h_text : list text; h_x : unit_; h_y : unit_; h_width : option unit_; h_height : option unit_;
  h_hjust : Len; h_vjust : Len; h_css : list text; h_vp : option (list viewport) }.
(** html_grob, html_grob.R:19-54; NA is [None] *)
Definition html_grob (default : Len -> unit_) (text : list (option text)) (x y width height : arg) (hjust vjust : Len)
    (css : list Base.text) (vp : option (list viewport)) : html :=
  Html (map (fun t => match t with Some t => t | None => [] end) text)
    (match with_unit default x with Some u => u | None => Unit hjust l0 end)
    (match with_unit default y with Some u => u | None => Unit vjust l0 end)
    (with_unit default width) (with_unit default height) hjust vjust css vp.

Record made := Made { m_vp : list viewport; m_children : list grob; m_width : Len; m_height : Len }.
(** makeContext.html_grob, html_grob.R:72-101 *)
Definition make_context (g : grid) (x : html) : result (made * grid) :=
  do (w, g) <- current_width g (h_vp x) (h_width x);
  do (h, g) <- current_height g (h_vp x) (h_height x);
  let '(children, bb) := render_markdown (h_text x) (h_css x) w h in
  let w := match bb, h_width x with Some (xmin, ymin, xmax, ymax), None => xmax - xmin | _, _ => w end in
  let h := match bb, h_height x with Some (xmin, ymin, xmax, ymax), None => ymax - ymin | _, _ => h end in
  let vp := Viewport (h_x x) (h_y x) (Unit (px 1) l0) (Unit (px 1) l0) (h_hjust x) (px 1 - h_vjust x) in
  Ok (Made (match h_vp x with None => [vp] | Some vs => vs ++ [vp] end) children w h, g).
(** widthDetails, heightDetails, ascentDetails, descentDetails, html_grob.R:104-121; grid calls them after
    makeContext *)
Definition width_details (m : made) : unit_ := Unit l0 (m_width m).
Definition height_details (m : made) : unit_ := Unit l0 (m_height m).
Definition ascent_details (m : made) : unit_ := Unit l0 (m_height m).
Definition descent_details (m : made) : unit_ := Unit l0 l0.

(** external: grid.draw of a gTree: make the context, push its viewports, draw the children (whose coordinates are
    inches from the lower left corner of the current viewport), pop the viewports *)
(** Called by draw_html, html_grob.R:66 *)
Definition drawn_at (a : area) (x y : Len) : Len * Len := (a_left a + x, a_bottom a + y).
(** Called by draw_html, html_grob.R:66 *)
Definition draw (g : grid) (x : html) : result (list grob * area * grid) :=
  do (m, g) <- make_context g x;
  let g1 := push g (m_vp m) in
  do g2 <- pop g1 (List.length (m_vp m));
  Ok (m_children m, current g1, g2).
End Renderer.
