(** What it means to take away elements with display: contents that only inherit (C98). *)
From Verif Require Import Base Len StyleModel StyleSpec TreeModel WrapSpec.

(** An element of style [st] makes no box of its own and passes on what it inherits from [parent]. *)
Definition only_passes_on (parent st : style) : Prop := sv st Ldisplay = DispContents /\ same_inherited parent st.
(** There are nodes, and the last of them is not an element with display: none. *)
Definition shown_last (nodes : list snode) : Prop :=
  exists front n, nodes = front ++ [n] /\
    match n with SElem false st _ => sv st Ldisplay <> DispNone | _ => True end.

(** [opened parent kids kids']: some of the nodes in [kids], the contents of an element of style [parent], or deeper down,
    are elements that make no box and only pass on what they inherit, and in [kids'] their contents, where such elements
    may be taken away too, stand in their place. *)
Inductive opened : style -> list snode -> list snode -> Prop :=
| O_nil parent : opened parent [] []
| O_node parent n n' kids kids' : opened_node n n' -> opened parent kids kids' ->
    opened parent (n :: kids) (n' :: kids')
| O_here parent st inner inner' kids kids' : only_passes_on parent st -> shown_last inner ->
    opened st inner inner' -> opened parent kids kids' ->
    opened parent (SElem false st inner :: kids) (inner' ++ kids')
with opened_node : snode -> snode -> Prop :=
| ON_same n n' : same_node n n' -> opened_node n n'
| ON_elem br st st' kids kids' : same_style st st' -> opened st kids kids' ->
    opened_node (SElem br st kids) (SElem br st' kids').
