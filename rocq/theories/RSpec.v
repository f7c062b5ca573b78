(** What a user of html_grob is promised, for C74-C77.  Only the vocabulary of grid is used: rectangles on the device,
    units and viewports. *)
From Verif Require Import Base Len RModel.
Local Open Scope list_scope.
Local Open Scope len_scope.

(** A viewport argument: absent, or at least one viewport (grid has no empty vpStack) *)
Definition vp_ok (vp : option (list viewport)) : Prop := vp <> Some [].
(** The rectangle the grob belongs in: that of its own viewports if it has some, else the current one *)
Definition own_area (g : grid) (vp : option (list viewport)) : area :=
  current (push g match vp with Some vs => vs | None => [] end).
(** A unit measured in a space of [full] inches *)
Definition measured (u : unit_) (full : Len) : Len := u_npc u * full + u_in u.
(** The size a text is laid out in: as asked for, else all the space there is *)
Definition available (asked : option unit_) (full : Len) : Len :=
  match asked with Some u => measured u full | None => full end.
(** The size a grob reports: as asked for, else that of what was drawn, else all the space there is *)
Definition reported (asked : option unit_) (drawn : option Len) (full : Len) : Len :=
  match asked, drawn with
  | Some u, _ => measured u full
  | None, Some d => d
  | None, None => full
  end.
Definition box_width (b : bbox) : Len := let '(xmin, _, xmax, _) := b in xmax - xmin.
Definition box_height (b : bbox) : Len := let '(_, ymin, _, ymax) := b in ymax - ymin.
(** The point of the device [right_] inches to the right of and [up] inches above the upper left corner of a box of
    size w x h whose reference point (given by hjust and vjust: 0,0 its lower left and 1,1 its upper right corner) is
    at (x, y) in the rectangle [a] *)
Definition justified (a : area) (x y w h hjust vjust right_ up : Len) : Len * Len :=
  (a_left a + x - hjust * w + right_, a_bottom a + y + (px 1 - vjust) * h + up).
