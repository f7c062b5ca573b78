(** When two lists of styled nodes differ only in what is not displayed: independent of the construction of boxes. *)
From Verif Require Import StyleModel TreeModel.
From Coq Require Import List.
Import ListNotations.

Section Any.
Context {ar : Len.Arith}.
(** Elements that are not displayed, whatever is in them. *)
Definition not_displayed (n : snode) : Prop :=
  match n with SElem false st _ => sv st Ldisplay = DispNone | _ => False end.
(** The nodes that are displayed are the same, and below them the same holds.  Comments come and go; elements that
    are not displayed come, go and change as long as something follows them; one that is the last may change but
    neither come nor go.  Of a line break only the style counts. *)
Inductive differ_in_unseen : list snode -> list snode -> Prop :=
| Du_nil : differ_in_unseen [] []
| Du_text t l l' : differ_in_unseen l l' -> differ_in_unseen (SText t :: l) (SText t :: l')
| Du_break st k k' l l' : differ_in_unseen l l' -> differ_in_unseen (SElem true st k :: l) (SElem true st k' :: l')
| Du_element st k k' l l' : sv st Ldisplay <> DispNone -> differ_in_unseen k k' -> differ_in_unseen l l' ->
    differ_in_unseen (SElem false st k :: l) (SElem false st k' :: l')
| Du_comment_before l l' : differ_in_unseen l l' -> differ_in_unseen (SOther :: l) l'
| Du_comment_after l l' : differ_in_unseen l l' -> differ_in_unseen l (SOther :: l')
| Du_hidden_before n l l' : not_displayed n -> l <> [] -> differ_in_unseen l l' -> differ_in_unseen (n :: l) l'
| Du_hidden_after n l l' : not_displayed n -> l' <> [] -> differ_in_unseen l l' -> differ_in_unseen l (n :: l')
| Du_hidden_last n n' : not_displayed n -> not_displayed n' -> differ_in_unseen [n] [n'].
End Any.
