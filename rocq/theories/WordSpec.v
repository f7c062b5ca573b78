(** Specification for C92: a text shown on lines. *)
From Verif Require Import InlineModel InlineSpec.

(** what a line break may swallow *)
Definition gap (d : text) : Prop := d = [] \/ d = [sp] \/ d = [nl] \/ d = [sp; nl] \/ d = [hyphen].
(** [shown_on ls t]: the text [t] is the lines [ls] one behind the other, with gaps only where a line ends. *)
Inductive shown_on : list text -> text -> Prop :=
| so_last l d : gap d -> shown_on [l] (l ++ d)
| so_line l d ls t : gap d -> shown_on ls t -> shown_on (l :: ls) (l ++ d ++ t).

(** the texts of the runs of inline content, in document order *)
Fixpoint run_texts {ar : Arith} {C} (b : ilb C) : list text :=
  match b with
  | InlineBox _ _ _ ch => flat_map run_texts ch
  | TextRun _ t _ => [t]
  | _ => []
  end.
(** no run that is followed by further text ends with a space, newline or hyphen *)
Definition no_loose_end (ts : list text) : Prop := forall before t c after,
  ts = before ++ (t ++ [c]) :: after -> break_char c -> concat after = [].
