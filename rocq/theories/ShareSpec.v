(** What the sharing of style structs must look like from outside, for C78: every element has a private copy of its
    style, which is what StyleModel.style_new says and which nothing changes later. *)
From Verif Require Import Base Len StyleModel ShareModel.
Local Open Scope list_scope.

(** Two styles with the same values *)
Definition same (a b : style) : Prop :=
  (forall l, sv a l = sv b l) /\ s_specified_display a = s_specified_display b.

(** The same histories with private styles *)
Definition private_op (w : list (option style)) (o : op) : list (option style) :=
  match o with
  | New None m => w ++ [Some (style_new None m)]
  | New (Some i) m => match nth_error w i with Some (Some p) => w ++ [Some (style_new (Some p) m)] | _ => w end
  | Drop O => w
  | Drop i => forget w i
  end.
Definition private_run (w : list (option style)) (os : list op) : list (option style) := fold_left private_op os w.

(** The number of pointers to an address that live styles hold *)
Definition pointers_of (c : cv) : list nat := map (ptr c) all_groups.
Definition pointers (styles : list (option cv)) : list nat :=
  flat_map (fun c => match c with Some c => pointers_of c | None => [] end) styles.
