(** What it means to put something in front of a document (C94). *)
From Verif Require Import Base Len StyleModel StyleSpec BlockModel TreeModel TreeSpec GfxModel AppendSpec.
Local Open Scope len_scope.

(** Nodes that make no box: comments and the like, and elements that are not displayed *)
Definition makes_no_box (n : snode) : Prop :=
  match n with SOther => True | SText _ => False | SElem br st _ => br = false /\ sv st Ldisplay = DispNone end.

(** [prepended st kids kids']: the contents of an element of style [st] are [kids] before and [kids'] after something was
    put in front.  Either new content comes before all the old content, where the new ends or the old starts with a block,
    or something is put in front in the first element that makes a box, a block of automatic height, and new content may
    come before that one too.
    If the old content has no block of its own (it is one paragraph of inline content), the element must have automatic
    height. *)
Inductive prepended : style -> list snode -> list snode -> Prop :=
| Prepend_here st more n kids :
    (exists more' b, more = more' ++ [b] /\ block_element b) \/ block_element n ->
    Exists block_element (n :: kids) \/ sv st Lheight = LPAAuto ->
    prepended st (n :: kids) (more ++ n :: kids)
| Prepend_inside st front more st' ks ks' kids : Forall makes_no_box front ->
    in_flow_block st' -> sv st' Lheight = LPAAuto -> prepended st' ks ks' ->
    prepended st (front ++ SElem false st' ks :: kids) (more ++ SElem false st' ks' :: kids).

(** The same thing drawn lower by [d] *)
Definition lower (d : Len) (c : dcall) : dcall :=
  match c with GfxModel.DText t x y f col => GfxModel.DText t x (y + d) f col | _ => c end.
