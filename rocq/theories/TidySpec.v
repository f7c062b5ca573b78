(** When two documents differ in formatting only (C85). *)
From Verif Require Import StyleModel TreeModel TreeSpec.

Section Any.
Context {ar : Arith}.

(** White space that the style collapses, reduced to single spaces. *)
Definition tidy_text (st : style) (t : text) : text :=
  match sv st Lwhite_space with WSNormal | WSNowrap => squeeze false t | _ => t end.
(** The children of an element with style [st], without comments, with texts joined that a comment separated, and
    with white space reduced; and so inside the children. *)
Fixpoint tidy_node (n : snode) : snode :=
  match n with
  | SText t => SText t
  | SOther => SOther
  | SElem br st kids =>
      SElem br st ((fix go (l : list snode) : list snode :=
         match l with
         | [] => []
         | SOther :: l' => go l'
         | SText t :: l' =>
             match go l' with
             | SText u :: r => SText (tidy_text st (t ++ u)) :: r
             | r => SText (tidy_text st t) :: r
             end
         | x :: l' => tidy_node x :: go l'
         end) kids)
  end.
Definition tidy (st : style) (kids : list snode) : list snode :=
  match tidy_node (SElem false st kids) with SElem _ _ l => l | _ => [] end.

(** No element has display:none. *)
Fixpoint nothing_hidden (n : snode) : Prop :=
  match n with
  | SElem br st kids => (br = true \/ sv st Ldisplay <> DispNone) /\ fold_right (fun k P => nothing_hidden k /\ P) True kids
  | _ => True
  end.
End Any.
