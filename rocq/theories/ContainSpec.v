(** What it means for the contents of a box to be kept in it (C100). *)
From Verif Require Import Base Len StyleModel StyleSpec BlockModel TreeModel TreeSpec AppendSpec.
Local Open Scope len_scope.

(** A block of style [st] whose size does not depend on its contents and whose margins do not collapse with theirs:
    its height is a length, and it is a flow root or has padding or a border at the top
    (lengths, not adding up to zero). *)
Definition contains_contents (st : style) : Prop :=
  (exists h, sv st Lheight = LPALen h) /\
  (sv st Ldisplay = DispBox OBlock IFlowRoot \/
   exists p b, sv st Lpadding_top = LPLen p /\ sv st Lborder_top_width = LPLen b /\ p + b <> l0).

(** A place in the contents of an element: between its other contents there is a block, and either that block is meant
    or a place in it. *)
Inductive spot :=
| This (before : list snode) (st : style) (after : list snode)
| InIt (before : list snode) (st : style) (s : spot) (after : list snode).
(** the contents of the element when [kids] are the contents of the block meant *)
Fixpoint fill (s : spot) (kids : list snode) : list snode :=
  match s with
  | This before st after => before ++ SElem false st kids :: after
  | InIt before st s after => before ++ SElem false st (fill s kids) :: after
  end.
(** The block meant keeps its contents, and it and those it is in are blocks in normal flow. *)
Fixpoint contained (s : spot) : Prop :=
  match s with
  | This _ st _ => in_flow_block st /\ contains_contents st
  | InIt _ st s _ => in_flow_block st /\ contained s
  end.
