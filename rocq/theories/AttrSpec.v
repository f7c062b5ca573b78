(** Documents that differ in attributes only, what selectors look at, and the styles of the nodes of a document:
    independent of matching, of the cascade and of layout. *)
From Verif Require Import StyleModel Base DomModel DomSpec SelModel.
Local Open Scope string_scope.
Local Open Scope list_scope.

(** The attributes of an element with a given name, whatever their namespace. *)
Definition attributes_named (l : string) (x : elem) : list attr :=
  filter (fun a => String.eqb (q_local (a_name a)) l) (e_attrs x).
(** The same data but for attributes: an element has the same name and the same attributes among those named in
    [names]; everything else is the same. *)
Definition like_data (names : string -> Prop) (a b : node_data) : Prop :=
  match a, b with
  | DElement x, DElement y => e_name x = e_name y /\ forall l, names l -> attributes_named l x = attributes_named l y
  | _, _ => a = b
  end.
Definition like_node (names : string -> Prop) (n m : node) : Prop :=
  n_parent n = n_parent m /\ n_next n = n_next m /\ n_prev n = n_prev m /\ n_first n = n_first m /\ n_last n = n_last m /\
  like_data names (n_data n) (n_data m).
(** The same document but for attributes that are not named in [names]. *)
Definition like (names : string -> Prop) (d d' : doc) : Prop :=
  Forall2 (like_node names) (nodes d) (nodes d') /\ style_elements d = style_elements d'.
(** The same document but for the style attribute of node [n]. *)
Definition restyled (n : node_id) (d d' : doc) : Prop :=
  like (fun l => l <> "style") d d' /\ forall i, i <> n -> nth_error (nodes d') i = nth_error (nodes d) i.

(** The attributes a selector looks at. *)
Fixpoint simple_reads (l : string) (s : simple) : Prop :=
  match s with
  | SId _ => l = "id"
  | SClass _ => l = "class"
  | SAttr _ local _ => l = local
  | SNot ss => (fix some ss := match ss with [] => False | s :: r => simple_reads l s \/ some r end) ss
  | _ => False
  end.
Definition selector_reads (l : string) (s : selector) : Prop :=
  (exists x, In x (s_subject s) /\ simple_reads l x) \/
  exists k c x, In (k, c) (s_rest s) /\ In x c /\ simple_reads l x.
Definition sheets_read (l : string) (sheets : list (list (rule selector))) : Prop :=
  exists sels items s, In (RStyle sels items) (concat sheets) /\ In s sels /\ selector_reads l s.

(** [style_of] gives the style of a node from that of its parent; [r] is the root element. *)
Inductive has_style (style_of : node_id -> option style -> style) (d : doc) (r : node_id) : node_id -> style -> Prop :=
| Hs_root : has_style style_of d r r (style_of r None)
| Hs_kid p e st : has_style style_of d r p st -> kid d p e -> has_style style_of d r e (style_of e (Some st)).
