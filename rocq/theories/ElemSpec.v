(** Documents that differ in the names of elements only, and the element names selectors look at: independent of
    matching, of the cascade and of layout. *)
From Verif Require Import StyleModel Base DomModel DomSpec SelModel UaSpec.
Local Open Scope string_scope.
Local Open Scope list_scope.

(** The same data but for element names: the elements have the same attributes and are in the same namespace; both
    or neither have a given name among [names]; everything else is the same. *)
Definition renamed_data (names : string -> Prop) (a b : node_data) : Prop :=
  match a, b with
  | DElement x, DElement y => q_ns (e_name x) = q_ns (e_name y) /\ e_attrs x = e_attrs y /\
      forall l, names l -> (q_local (e_name x) = l <-> q_local (e_name y) = l)
  | _, _ => a = b
  end.
Definition renamed_node (names : string -> Prop) (n m : node) : Prop :=
  n_parent n = n_parent m /\ n_next n = n_next m /\ n_prev n = n_prev m /\ n_first n = n_first m /\ n_last n = n_last m /\
  renamed_data names (n_data n) (n_data m).
(** The same document but for names of elements that are not among [names], before or after. *)
Definition renamed (names : string -> Prop) (d d' : doc) : Prop :=
  Forall2 (renamed_node names) (nodes d) (nodes d') /\ style_elements d = style_elements d'.

(** The element names a selector looks at. *)
Fixpoint simple_names (l : string) (s : simple) : Prop :=
  match s with
  | SLocal name lower_name => l = name \/ l = lower_name
  | SNot ss => (fix some ss := match ss with [] => False | s :: r => simple_names l s \/ some r end) ss
  | _ => False
  end.
Definition selector_names (l : string) (s : selector) : Prop :=
  (exists x, In x (s_subject s) /\ simple_names l x) \/
  exists k c x, In (k, c) (s_rest s) /\ In x c /\ simple_names l x.
Definition sheets_name (l : string) (sheets : list (list (rule selector))) : Prop :=
  exists sels items s, In (RStyle sels items) (concat sheets) /\ In s sels /\ selector_names l s.

(** The elements that are something of their own without any style sheet of the author: those that are not displayed,
    the blocks, hidden objects and fields, emphasis, code, line breaks, subscripts and superscripts. *)
Definition special_elements : list string :=
  never_shown ++ blocks ++ ["embed"; "input"; "em"; "strong"; "code"; "br"; "sub"; "sup"].
