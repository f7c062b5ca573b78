(** What may depend on the height of the page: independent of layout and of painting. *)
From Verif Require Import Base Len StyleModel StyleSpec TreeModel TreeSpec.
Section Any.
Context {ar : Arith}.
(** A height that is not a percentage. *)
Definition not_percent (v : lpa Len) : Prop := match v with LPAPct _ => False | _ => True end.
(** An element that is not absolutely positioned by its distance from the bottom only, nor - see C107_refuted - by its
    distance from the right edge only. *)
Definition from_start (st : style) : Prop :=
  is_absolutely_positioned (sv st Lposition) = true ->
  (sv st Ltop = LPAAuto -> sv st Lbottom = LPAAuto) /\ (sv st Lleft = LPAAuto -> sv st Lright = LPAAuto).
End Any.
