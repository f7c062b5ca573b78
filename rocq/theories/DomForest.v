(** Proof device for the document tree: an ordered forest given by child lists, the effect of each
    parser operation on it, and the representation relation between arena and forest.
    (The property statements do not mention it; they use DomSpec.v only.) *)
From Coq Require Import Relations.
From Verif Require Import Base DomModel DomSpec.

(** Abstract document: [a_count] node slots (ids 1 .. a_count-1 are real nodes, 0 is the dummy),
    the ordered children of every node, the payload of every node. *)
Record astate := AState {
  a_count : nat;
  a_children : node_id -> list node_id;
  a_data : node_id -> node_data;
  a_styles : list node_id }.

(** Neighbours of [x] in a list. *)
Fixpoint next_of (x : nat) (l : list nat) : option nat :=
  match l with
  | [] => None
  | y :: l' => if Nat.eqb y x then hd_error l' else next_of x l'
  end.
Definition last_error {A} (l : list A) : option A := hd_error (rev l).
Definition prev_of (x : nat) (l : list nat) : option nat := next_of x (rev l).

Definition live (s : astate) (i : node_id) : Prop := 1 <= i < a_count s.
Definition child_of (s : astate) (p k : node_id) : Prop := In k (a_children s p).
(** proper ancestor *)
Definition anc (s : astate) : node_id -> node_id -> Prop := clos_trans nat (child_of s).

(** Well-formed forest. *)
Record AWf (s : astate) : Prop := {
  wf_count : 2 <= a_count s;
  wf_range : forall p k, child_of s p k -> live s p /\ 2 <= k < a_count s;
  wf_nodup : forall p, NoDup (a_children s p);
  wf_parent : forall p q k, child_of s p k -> child_of s q k -> p = q;
  wf_acyclic : forall k, ~ anc s k k;
  wf_doc : a_data s document_node_id = DDocument;
  wf_styles : forall i, In i (a_styles s) -> live s i /\ exists e, a_data s i = DElement e }.

(** The arena's links are exactly those of the forest. *)
Record LinksOf (s : astate) (i : node_id) (n : node) : Prop := {
  lk_data : n_data n = a_data s i;
  lk_first : n_first n = hd_error (a_children s i);
  lk_last : n_last n = last_error (a_children s i);
  lk_child : forall p, child_of s p i ->
      n_parent n = Some p /\ n_next n = next_of i (a_children s p) /\ n_prev n = prev_of i (a_children s p);
  lk_orphan : (forall p, ~ child_of s p i) ->
      n_parent n = None /\ n_next n = None /\ n_prev n = None }.
Record Rep (d : doc) (s : astate) : Prop := {
  rep_count : length (nodes d) = a_count s;
  rep_styles : style_elements d = a_styles s;
  rep_links : forall i n, nth_error (nodes d) i = Some n -> LinksOf s i n }.

(** Effect of the operations on the forest. *)
Definition without (c : nat) (l : list nat) : list nat := filter (fun x => negb (Nat.eqb x c)) l.
Fixpoint insert_in (s c : nat) (l : list nat) : list nat :=
  match l with
  | [] => []
  | x :: l' => if Nat.eqb x s then c :: x :: l' else x :: insert_in s c l'
  end.

Definition with_children (s : astate) (f : node_id -> list node_id) : astate :=
  AState (a_count s) f (a_data s) (a_styles s).

Definition a_remove (s : astate) (c : node_id) : astate :=
  with_children s (fun p => without c (a_children s p)).
Definition a_append (s : astate) (p c : node_id) : astate :=
  with_children s (fun q => if Nat.eqb q p then without c (a_children s q) ++ [c] else without c (a_children s q)).
Definition a_insert_before (s : astate) (sib c : node_id) : astate :=
  with_children s (fun q => insert_in sib c (without c (a_children s q))).
Definition a_new (s : astate) (dt : node_data) : astate :=
  AState (S (a_count s)) (a_children s)
         (fun i => if Nat.eqb i (a_count s) then dt else a_data s i) (a_styles s).
Definition a_set_data (s : astate) (i : node_id) (dt : node_data) : astate :=
  AState (a_count s) (a_children s) (fun j => if Nat.eqb j i then dt else a_data s j) (a_styles s).
Definition a_add_style (s : astate) (i : node_id) : astate :=
  AState (a_count s) (a_children s) (a_data s) (a_styles s ++ [i]).

(** Parent lookup in the forest. *)
Definition a_parent (s : astate) (k : node_id) : option node_id :=
  find (fun p => existsb (Nat.eqb k) (a_children s p)) (seq 0 (a_count s)).

(** Text goes into the text node [prev] immediately before the insertion point if there is one. *)
Definition a_text (s : astate) (prev : option node_id) (t : text)
    (place : astate -> node_id -> astate) : astate :=
  match prev with
  | Some k => match a_data s k with
              | DText u => a_set_data s k (DText (u ++ t))
              | _ => place (a_new s (DText t)) (a_count s)
              end
  | None => place (a_new s (DText t)) (a_count s)
  end.

Definition a_sink_append (s : astate) (p : node_id) (c : child) : astate :=
  match c with
  | CNode k => a_append s p k
  | CText t => a_text s (last_error (a_children s p)) t (fun s' k => a_append s' p k)
  end.
Definition a_sink_before (s : astate) (sib : node_id) (c : child) : astate :=
  match c with
  | CNode k => a_insert_before s sib k
  | CText t =>
    match a_parent s sib with
    | Some p => a_text s (prev_of sib (a_children s p)) t (fun s' k => a_insert_before s' sib k)
    | None => s
    end
  end.


Definition astep (s : astate) (o : op) : astate :=
  match o with
  | OCreateElement name attrs =>
    let s1 := a_new s (DElement (Elem name attrs)) in
    if is_style_nameb name then a_add_style s1 (a_count s) else s1
  | OCreateComment => a_new s DComment
  | OCreatePI => a_new s DPI
  | OAppend p c => a_sink_append s p c
  | OAppendBefore sib c => a_sink_before s sib c
  | OAppendBased e p c =>
    match a_parent s e with
    | Some _ => a_sink_before s e c
    | None => a_sink_append s p c
    end
  | OAppendDoctype => a_append (a_new s DDoctype) document_node_id (a_count s)
  | OAddAttrs t attrs =>
    match a_data s t with
    | DElement e => a_set_data s t (DElement (Elem (e_name e) (add_missing (e_attrs e) attrs)))
    | _ => s
    end
  | ORemove t => a_remove s t
  | OReparent n p =>
    (* what the code does (see C05): only the first child is moved *)
    match a_children s n with
    | c :: _ => a_append s p c
    | [] => s
    end
  end.

(** What html5ever promises about its calls: the nodes exist, the document node is never inserted,
    a node is never inserted below itself, "before sibling" is only used for a sibling with a parent. *)
Definition ok_append (s : astate) (p : node_id) (c : child) : Prop :=
  live s p /\
  match c with
  | CNode k => live s k /\ k <> document_node_id /\ k <> p /\ ~ anc s k p
  | CText _ => True
  end.
Definition ok_before (s : astate) (sib : node_id) (c : child) : Prop :=
  live s sib /\ (exists p, child_of s p sib) /\
  match c with
  | CNode k => live s k /\ k <> document_node_id /\ k <> sib /\ ~ anc s k sib
  | CText _ => True
  end.
Definition admissible (s : astate) (o : op) : Prop :=
  match o with
  | OCreateElement _ _ | OCreateComment | OCreatePI | OAppendDoctype => True
  | OAppend p c => ok_append s p c
  | OAppendBefore sib c => ok_before s sib c
  | OAppendBased e p c =>
    live s e /\
    ((exists q, child_of s q e) -> ok_before s e c) /\
    ((forall q, ~ child_of s q e) -> ok_append s p c)
  | OAddAttrs t _ => live s t /\ exists e, a_data s t = DElement e
  | ORemove t => live s t
  | OReparent n p => live s n /\ live s p /\ n <> p /\ ~ anc s n p
  end.

Definition a_init : astate := AState 2 (fun _ => []) (fun _ => DDocument) [].

Inductive tree_of (s : astate) : node_id -> dtree -> Prop :=
| tree_of_intro i kids : Forall2 (tree_of s) (a_children s i) kids -> tree_of s i (DT i kids).
