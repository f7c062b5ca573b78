(** What it means to use R's memory well.  Definitions only. *)
From Verif Require Import GcModel.

(** R is in order: everything that can be reached is there. *)
Definition inv (s : state) : Prop := gc_safe s [] /\ forall j, (st_fresh s <= j)%nat -> st_heap s j = None.
(** [r] and everything it refers to is there. *)
Definition closed (s : state) (r : nat) : Prop := forall j, reach (st_heap s) [r] j -> st_heap s j <> None.

(** Requests that draw something, and those that ask for the bounding box *)
Definition is_draw (q : request) : bool := match q with RText | RRect | RLine => true | _ => false end.
Definition is_bbox (q : request) : bool := match q with RBBox => true | _ => false end.

(** [r] is a list with the elements [gs], in this order.  It has a class attribute and, if [bb], an attribute that is a
    list of four numbers. *)
Definition grob_list (s : state) (r : nat) (gs : list nat) (bb : bool) : Prop :=
  if bb then exists box cl x0 y0 x1 y1, st_heap s r = Some (Obj Vec (map Some gs) [box; cl]) /\ st_heap s box = Some (Obj Vec [Some x0; Some y0; Some x1; Some y1] [])
  else exists cl, st_heap s r = Some (Obj Vec (map Some gs) [cl]).

(** What a call leaves behind: the PROTECT stack, the preserved objects and the blocks as they were, R in order, and a
    list of [gs] to return *)
Definition returned (s : state) (r : nat) (gs : list nat) (bb : bool) (s1 : state) : Prop :=
  inv s1 /\ closed s1 r /\ grob_list s1 r gs bb /\
  st_preserved s1 = st_preserved s /\ st_blocks s1 = st_blocks s /\ st_pstack s1 = st_pstack s /\ st_ext s1 = st_ext s.
