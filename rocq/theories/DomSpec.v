(** Specification of the document tree, stated on the arena (no reference to the proof devices). *)
From Coq Require Import Relations.
From Verif Require Import Base DomModel.

Definition is_style_nameb (name : qname) : bool := qname_eqb name (QName html_ns "style").

(** Local consistency of the links, stated on the arena alone. *)
Record links_consistent (d : doc) : Prop := {
  lc_next : forall i n j, nth_error (nodes d) i = Some n -> n_next n = Some j ->
      exists m, nth_error (nodes d) j = Some m /\ n_prev m = Some i /\ n_parent m = n_parent n /\ n_parent n <> None;
  lc_prev : forall i n j, nth_error (nodes d) i = Some n -> n_prev n = Some j ->
      exists m, nth_error (nodes d) j = Some m /\ n_next m = Some i /\ n_parent m = n_parent n /\ n_parent n <> None;
  lc_first : forall i n j, nth_error (nodes d) i = Some n -> n_first n = Some j ->
      exists m, nth_error (nodes d) j = Some m /\ n_parent m = Some i /\ n_prev m = None;
  lc_last : forall i n j, nth_error (nodes d) i = Some n -> n_last n = Some j ->
      exists m, nth_error (nodes d) j = Some m /\ n_parent m = Some i /\ n_next m = None;
  lc_parent : forall i n p, nth_error (nodes d) i = Some n -> n_parent n = Some p ->
      exists m, nth_error (nodes d) p = Some m /\
        (n_prev n = None -> n_first m = Some i) /\ (n_next n = None -> n_last m = Some i) }.

(** Trees and pre-order, for traversal. *)
Inductive dtree := DT (id : node_id) (kids : list dtree).
Fixpoint preorder (t : dtree) : list node_id :=
  match t with DT i kids => i :: flat_map preorder kids end.

(** Observations on the arena alone (no forest): the child list of a node is what one reads by
    following first_child and then next_sibling to the end. *)
Inductive chain (d : doc) : option node_id -> list node_id -> Prop :=
| chain_nil : chain d None []
| chain_cons i n l : nth_error (nodes d) i = Some n -> chain d (n_next n) l -> chain d (Some i) (i :: l).
Definition kids (d : doc) (p : node_id) (l : list node_id) : Prop :=
  exists n, nth_error (nodes d) p = Some n /\ chain d (n_first n) l.
Definition kid (d : doc) (p k : node_id) : Prop := exists l, kids d p l /\ In k l.
(** [below d a b]: b is a proper descendant of a. *)
Definition below (d : doc) : node_id -> node_id -> Prop := clos_trans nat (kid d).
Definition data_of (d : doc) (i : node_id) : option node_data := option_map n_data (nth_error (nodes d) i).
Definition node_of (d : doc) (i : node_id) : Prop := 1 <= i < length (nodes d).
Definition parent_of (d : doc) (i : node_id) : option node_id :=
  match nth_error (nodes d) i with Some n => n_parent n | None => None end.

(** The tree hanging under a node, read off the arena. *)
Inductive arena_tree (d : doc) : node_id -> dtree -> Prop :=
| arena_tree_intro i l ts : kids d i l -> Forall2 (arena_tree d) l ts -> arena_tree d i (DT i ts).

(** Text below a node: concatenation of the text nodes of its subtree in document order. *)
Fixpoint tree_text (d : doc) (t : dtree) : text :=
  match t with
  | DT i ts => (match data_of d i with Some (DText u) => u | _ => [] end) ++ flat_map (tree_text d) ts
  end.

(** Text of the text children (dom spec "child text content"). *)
Definition own_text (d : doc) (i : node_id) : text :=
  match data_of d i with Some (DText u) => u | _ => [] end.

(** The parser's contract, stated on the arena alone (html5ever's tree builder never passes a
    stale handle, never inserts the document node, never inserts a node below itself, uses
    append_before_sibling only for a sibling that has a parent). *)
Definition may_append (d : doc) (p : node_id) (c : child) : Prop :=
  node_of d p /\
  match c with
  | CNode k => node_of d k /\ k <> document_node_id /\ k <> p /\ ~ below d k p
  | CText _ => True
  end.
Definition may_insert_before (d : doc) (s : node_id) (c : child) : Prop :=
  (exists p, kid d p s) /\
  match c with
  | CNode k => node_of d k /\ k <> document_node_id /\ k <> s /\ ~ below d k s
  | CText _ => True
  end.
Definition allowed (d : doc) (o : op) : Prop :=
  match o with
  | OCreateElement _ _ | OCreateComment | OCreatePI | OAppendDoctype => True
  | OAppend p c => may_append d p c
  | OAppendBefore s c => may_insert_before d s c
  | OAppendBased e p c =>
    node_of d e /\
    ((exists q, kid d q e) -> may_insert_before d e c) /\
    ((forall q, ~ kid d q e) -> may_append d p c)
  | OAddAttrs t _ => exists e, data_of d t = Some (DElement e) /\ node_of d t
  | ORemove t => node_of d t
  | OReparent n p => node_of d n /\ node_of d p /\ n <> p /\ ~ below d n p
  end.
(** The documents the parser can build. *)
Inductive reach : doc -> Prop :=
| reach_new : reach doc_new
| reach_step d o d' : reach d -> allowed d o -> step d o = Ok d' -> reach d'.

(** [drop c l]: l without c. *)
Definition drop (c : nat) (l : list nat) : list nat := remove Nat.eq_dec c l.

(** A <style> element of the html namespace, and the css type test. *)
Definition style_element (d : doc) (i : node_id) : bool :=
  match data_of d i with Some (DElement e) => is_style_nameb (e_name e) | _ => false end.
Definition css_type (d : doc) (i : node_id) : bool :=
  match data_of d i with
  | Some (DElement e) =>
    match get_attr e "type" with None => true | Some v => String.eqb (lower v) "text/css" end
  | _ => false
  end.
