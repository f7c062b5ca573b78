(** What it means to append to a document (C88). *)
From Verif Require Import Base Len StyleModel StyleSpec BlockModel TreeModel TreeSpec GfxModel.

Section Any.
Context {ar : Arith}.

(** An element that is a block in normal flow *)
Definition in_flow_block (st : style) : Prop :=
  (exists i, sv st Ldisplay = DispBox OBlock i) /\ is_absolutely_positioned (sv st Lposition) = false /\ is_floating (sv st Lfloat) = false.
Definition block_element (n : snode) : Prop :=
  match n with SElem br st _ => br = false /\ in_flow_block st | _ => False end.

(** [appended allow st kids kids']: the contents of an element of style [st] are [kids] before and [kids'] after
    appending.  Either new content, starting with a block, comes after the old content, or the last element,
    a block, is appended to, and more content may follow it.
    If the old content has no block of its own (it is one paragraph of inline content), [allow] must hold and the
    element must have automatic height. *)
Inductive appended (allow : Prop) : style -> list snode -> list snode -> Prop :=
| Append_here st kids b more : block_element b ->
    Exists block_element kids \/ (allow /\ sv st Lheight = LPAAuto) ->
    appended allow st kids (kids ++ b :: more)
| Append_inside st kids st' ks ks' more : in_flow_block st' -> appended allow st' ks ks' ->
    appended allow st (kids ++ [SElem false st' ks]) (kids ++ SElem false st' ks' :: more).

(** No element is absolutely positioned. *)
Definition no_absolute : snode -> Prop :=
  boxes_styled (fun st => is_absolutely_positioned (sv st Lposition) = false).

(** The texts drawn, with their positions, fonts and colors *)
Definition texts_drawn (cs : list dcall) : list dcall :=
  filter (fun c => match c with DText _ _ _ _ _ => true | _ => false end) cs.
End Any.
