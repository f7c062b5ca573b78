(** Specification of matching on an enum. *)
From Verif Require Import StyleModel JumpModel.

(** A value of an enum: the name of its variant and its fields. *)
Section Enum.
Context {ty : Type} {den : ty -> Type}.
Definition is_value (variants : list (@variant ty)) (k : nat) (name : string) (fields : list (@cell ty den)) : Prop :=
  exists v, nth_error variants k = Some v /\ v_name v = name /\ map (@projT1 ty den) fields = v_fields v.
(** `match value { arms }` runs the block of the arm that names the variant of the value, on its fields. *)
Definition match_result {R} (arms : list (@arm ty den R)) (name : string) (fields : list (@cell ty den)) (r : ran R) : Prop :=
  exists a, In a arms /\ a_variant a = name /\ List.length (a_binders a) = List.length fields /\ r = a_block a fields /\
    forall a', In a' arms -> a_variant a' = name -> a' = a.
End Enum.
