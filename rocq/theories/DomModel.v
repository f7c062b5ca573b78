(** Model of the arena DOM: /repo/src/sinab/src/dom/mod.rs and dom/html.rs.
    Definitions only; specification in DomSpec.v, proofs in DomProofs.v. *)
From Verif Require Import Base.

(** QualName / Attribute, dom/mod.rs:254-260.  SIMPLIFICATION: the namespace prefix is dropped
    (it is never read); interned atoms are strings. *)
Record qname := QName { q_ns : string; q_local : string }.
Record attr := Attr { a_name : qname; a_value : string }.

(** ElementData, dom/mod.rs:246-252 (layout_data is modelled separately, see UnsetModel.v). *)
Record elem := Elem { e_name : qname; e_attrs : list attr }.

(** NodeData, dom/mod.rs:225-244.  SIMPLIFICATION: the strings of doctype, comment and PI nodes are
    never read by the code (fields start with an underscore) and are dropped. *)
Inductive node_data :=
| DDocument
| DDoctype
| DText (contents : text)
| DComment
| DElement (e : elem)
| DPI.

(** NodeId, dom/mod.rs:29-30: a non-zero index into the arena. *)
Notation node_id := nat (only parsing).

(** Node, dom/mod.rs:20-27. *)
Record node := Node {
  n_parent : option node_id;
  n_next : option node_id;
  n_prev : option node_id;
  n_first : option node_id;
  n_last : option node_id;
  n_data : node_data }.

(** Document, dom/mod.rs:15-18. *)
Record doc := Doc { nodes : list node; style_elements : list node_id }.

(** Node::new, dom/mod.rs:300-309. *)
Definition new_node (dt : node_data) : node := Node None None None None None dt.

(** Document::new, dom/mod.rs:33-42. *)
Definition doc_new : doc := Doc [new_node DDocument; new_node DDocument] [].

(** Document::document_node_id, dom/mod.rs:44-46. *)
Definition document_node_id : node_id := 1.

Definition set_parent v n := Node v (n_next n) (n_prev n) (n_first n) (n_last n) (n_data n).
Definition set_next v n := Node (n_parent n) v (n_prev n) (n_first n) (n_last n) (n_data n).
Definition set_prev v n := Node (n_parent n) (n_next n) v (n_first n) (n_last n) (n_data n).
Definition set_first v n := Node (n_parent n) (n_next n) (n_prev n) v (n_last n) (n_data n).
Definition set_last v n := Node (n_parent n) (n_next n) (n_prev n) (n_first n) v (n_data n).
Definition set_data v n := Node (n_parent n) (n_next n) (n_prev n) (n_first n) (n_last n) v.

(** Index, dom/mod.rs:209-216: out of range panics. *)
Definition getn (d : doc) (i : node_id) : result node :=
  match nth_error (nodes d) i with Some n => Ok n | None => Panic end.

(** IndexMut followed by a field assignment, dom/mod.rs:218-223: out of range panics. *)
Definition setn (d : doc) (i : node_id) (f : node -> node) : result doc :=
  match nth_error (nodes d) i with
  | Some _ => Ok (Doc (upd i f (nodes d)) (style_elements d))
  | None => Panic
  end.

(** assert! / debug_assert! (the model is of the debug build, where both are checked). *)
(** The assertions at dom/mod.rs:86-100, 142, 145, 157, 160 *)
Definition check (b : bool) : result unit := if b then Ok tt else Panic.

(** Option::is_none (std), called at dom/mod.rs:87-100, 142, 145 *)
Definition is_none {A} (o : option A) : bool := match o with None => true | Some _ => false end.
(** Option::is_some (std), the negation of is_none at dom/mod.rs:87-100 *)
Definition is_some {A} (o : option A) : bool := negb (is_none o).
(** PartialEq for Option<NodeId>, used by debug_assert_eq at dom/mod.rs:157, 160 *)
Definition opt_nat_eqb (a b : option nat) : bool :=
  match a, b with
  | Some x, Some y => Nat.eqb x y
  | None, None => true
  | _, _ => false
  end.

Open Scope result_scope.

(** Document::push_node, dom/mod.rs:108-112. *)
Definition push_node (d : doc) (n : node) : doc * node_id :=
  (Doc (nodes d ++ [n]) (style_elements d), length (nodes d)).

(** Document::detach, dom/mod.rs:114-135. *)
Definition detach (d : doc) (k : node_id) : result doc :=
  do n <- getn d k;
  let parent := n_parent n in
  let previous_sibling := n_prev n in
  let next_sibling := n_next n in
  do d1 <- setn d k (fun n => set_next None (set_prev None (set_parent None n)));
  do d2 <- match next_sibling with
           | Some s => setn d1 s (set_prev previous_sibling)
           | None => match parent with
                     | Some p => setn d1 p (set_last previous_sibling)
                     | None => Ok d1
                     end
           end;
  match previous_sibling with
  | Some q => setn d2 q (set_next next_sibling)
  | None => match parent with
            | Some p => setn d2 p (set_first next_sibling)
            | None => Ok d2
            end
  end.

(** Document::append, dom/mod.rs:137-149. *)
Definition append (d : doc) (parent new_child : node_id) : result doc :=
  do d1 <- detach d new_child;
  do d2 <- setn d1 new_child (set_parent (Some parent));
  do np <- getn d2 parent;
  do d3 <- setn d2 parent (set_last None);            (* last_child.take() *)
  do d4 <- match n_last np with
           | Some last_child =>
             do d4 <- setn d3 new_child (set_prev (Some last_child));
             do nl <- getn d4 last_child;
             do _ <- check (is_none (n_next nl));
             setn d4 last_child (set_next (Some new_child))
           | None =>
             do np3 <- getn d3 parent;
             do _ <- check (is_none (n_first np3));
             setn d3 parent (set_first (Some new_child))
           end;
  setn d4 parent (set_last (Some new_child)).

(** Document::insert_before, dom/mod.rs:151-164. *)
Definition insert_before (d : doc) (sibling new_sibling : node_id) : result doc :=
  do d1 <- detach d new_sibling;
  do ns <- getn d1 sibling;
  do d2 <- setn d1 new_sibling (set_parent (n_parent ns));
  do d3 <- setn d2 new_sibling (set_next (Some sibling));
  do ns3 <- getn d3 sibling;
  do d4 <- setn d3 sibling (set_prev None);           (* previous_sibling.take() *)
  do d5 <- match n_prev ns3 with
           | Some q =>
             do d5 <- setn d4 new_sibling (set_prev (Some q));
             do nq <- getn d5 q;
             do _ <- check (opt_nat_eqb (n_next nq) (Some sibling));
             setn d5 q (set_next (Some new_sibling))
           | None =>
             do ns4 <- getn d4 sibling;
             match n_parent ns4 with
             | Some p =>
               do np <- getn d4 p;
               do _ <- check (opt_nat_eqb (n_first np) (Some sibling));
               setn d4 p (set_first (Some new_sibling))
             | None => Ok d4
             end
           end;
  setn d5 sibling (set_prev (Some new_sibling)).

(** NodeOrText of html5ever. *)
(** The argument of append_common and append, dom/html.rs:30-52, 137 *)
Inductive child := CNode (c : node_id) | CText (t : text).

(** Sink::append_common, dom/html.rs:30-56: [previous] is evaluated lazily, only for text. *)
Definition append_common (d : doc) (c : child)
    (previous : doc -> result (option node_id))
    (app : doc -> node_id -> result doc) : result doc :=
  match c with
  | CText t =>
    do prev <- previous d;
    let fresh := let '(d1, new) := push_node d (new_node (DText t)) in app d1 new in
    match prev with
    | Some id =>
      do n <- getn d id;
      match n_data n with
      | DText contents => setn d id (set_data (DText (contents ++ t)))
      | _ => fresh
      end
    | None => fresh
    end
  | CNode n => app d n
  end.

(** TreeSink::append, dom/html.rs:137-143. *)
Definition sink_append (d : doc) (parent : node_id) (c : child) : result doc :=
  append_common d c
    (fun d => do n <- getn d parent; Ok (n_last n))
    (fun d new => append d parent new).

(** TreeSink::append_before_sibling, dom/html.rs:145-151. *)
Definition sink_append_before_sibling (d : doc) (sibling : node_id) (c : child) : result doc :=
  append_common d c
    (fun d => do n <- getn d sibling; Ok (n_prev n))
    (fun d new => insert_before d sibling new).

(** TreeSink::append_based_on_parent_node, dom/html.rs:153-164. *)
Definition sink_append_based_on_parent_node (d : doc) (element prev_element : node_id) (c : child) : result doc :=
  do n <- getn d element;
  match n_parent n with
  | Some _ => sink_append_before_sibling d element c
  | None => sink_append d prev_element c
  end.

Definition html_ns : string := "http://www.w3.org/1999/xhtml".
Definition qname_eqb (a b : qname) : bool :=
  String.eqb (q_ns a) (q_ns b) && String.eqb (q_local a) (q_local b).

(** TreeSink::create_element, dom/html.rs:102-122. *)
Definition create_element (d : doc) (name : qname) (attrs : list attr) : doc * node_id :=
  let is_style := qname_eqb name (QName html_ns "style") in
  let '(d1, element) := push_node d (new_node (DElement (Elem name attrs))) in
  if is_style then (Doc (nodes d1) (style_elements d1 ++ [element]), element)
  else (d1, element).

(** TreeSink::create_comment, dom/html.rs:124-128. *)
Definition create_comment (d : doc) : doc * node_id := push_node d (new_node DComment).

(** TreeSink::create_pi, dom/html.rs:130-135. *)
Definition create_pi (d : doc) : doc * node_id := push_node d (new_node DPI).

(** TreeSink::append_doctype_to_document, dom/html.rs:166-178. *)
Definition append_doctype (d : doc) : result doc :=
  let '(d1, n) := push_node d (new_node DDoctype) in
  append d1 document_node_id n.

(** TreeSink::add_attrs_if_missing, dom/html.rs:180-197.  [existing_names] is a set computed once
    before extending. *)
Definition add_missing (existing new : list attr) : list attr :=
  existing ++ filter (fun a => negb (existsb (fun e => qname_eqb (a_name e) (a_name a)) existing)) new.

Definition add_attrs_if_missing (d : doc) (target : node_id) (attrs : list attr) : result doc :=
  do n <- getn d target;
  match n_data n with
  | DElement e => setn d target (set_data (DElement (Elem (e_name e) (add_missing (e_attrs e) attrs))))
  | _ => Panic
  end.

(** TreeSink::remove_from_parent, dom/html.rs:199-201. *)
Definition remove_from_parent (d : doc) (target : node_id) : result doc := detach d target.

(** TreeSink::reparent_children, dom/html.rs:203-210. *)
Fixpoint reparent_loop (fuel : nat) (d : doc) (node new_parent : node_id) (next_child : option node_id)
  : result doc :=
  match next_child with
  | None => Ok d
  | Some c =>
    match fuel with
    | O => OutOfFuel
    | S fuel' =>
      do nc <- getn d c;
      do _ <- check (opt_nat_eqb (n_parent nc) (Some node));
      do d1 <- append d new_parent c;
      do nc1 <- getn d1 c;
      reparent_loop fuel' d1 node new_parent (n_next nc1)
    end
  end.
Definition reparent_children (fuel : nat) (d : doc) (node new_parent : node_id) : result doc :=
  do n <- getn d node;
  reparent_loop fuel d node new_parent (n_first n).

(** The operations through which html5ever drives the sink, dom/html.rs:59-211
    (the remaining TreeSink methods do not change the document). *)
Inductive op :=
| OCreateElement (name : qname) (attrs : list attr)
| OCreateComment
| OCreatePI
| OAppend (parent : node_id) (c : child)
| OAppendBefore (sibling : node_id) (c : child)
| OAppendBased (element prev_element : node_id) (c : child)
| OAppendDoctype
| OAddAttrs (target : node_id) (attrs : list attr)
| ORemove (target : node_id)
| OReparent (node new_parent : node_id).

Definition step (d : doc) (o : op) : result doc :=
  match o with
  | OCreateElement name attrs => Ok (fst (create_element d name attrs))
  | OCreateComment => Ok (fst (create_comment d))
  | OCreatePI => Ok (fst (create_pi d))
  | OAppend p c => sink_append d p c
  | OAppendBefore s c => sink_append_before_sibling d s c
  | OAppendBased e p c => sink_append_based_on_parent_node d e p c
  | OAppendDoctype => append_doctype d
  | OAddAttrs t attrs => add_attrs_if_missing d t attrs
  | ORemove t => remove_from_parent d t
  | OReparent n p => reparent_children (S (length (nodes d))) d n p
  end.

Fixpoint run (d : doc) (ops : list op) : result doc :=
  match ops with
  | [] => Ok d
  | o :: os => do d1 <- step d o; run d1 os
  end.

(** Document::node_and_following_siblings, dom/mod.rs:182-187 (iterator forced with fuel). *)
Fixpoint following_siblings (fuel : nat) (d : doc) (link : option node_id) : result (list node_id) :=
  match link with
  | None => Ok []
  | Some i =>
    match fuel with
    | O => OutOfFuel
    | S f => do n <- getn d i; do r <- following_siblings f d (n_next n); Ok (i :: r)
    end
  end.

(** node_and_ancestors(..).find_map(next_sibling), dom/mod.rs:189-194, 198-199. *)
Fixpoint climb (fuel : nat) (d : doc) (i : node_id) : result (option node_id) :=
  match fuel with
  | O => OutOfFuel
  | S f =>
    do n <- getn d i;
    match n_next n with
    | Some s => Ok (Some s)
    | None => match n_parent n with
              | Some p => climb f d p
              | None => Ok None
              end
    end
  end.

(** Document::next_in_tree_order, dom/mod.rs:196-201. *)
Definition next_in_tree_order (fuel : nat) (d : doc) (i : node_id) : result (option node_id) :=
  do n <- getn d i;
  match n_first n with
  | Some c => Ok (Some c)
  | None => climb fuel d i
  end.

(** Document::nodes, dom/mod.rs:203-206; [cfuel] is the fuel of the inner loop. *)
Fixpoint iter_nodes (fuel cfuel : nat) (d : doc) (link : option node_id) : result (list node_id) :=
  match link with
  | None => Ok []
  | Some i =>
    match fuel with
    | O => OutOfFuel
    | S f =>
      do nx <- next_in_tree_order cfuel d i;
      do r <- iter_nodes f cfuel d nx;
      Ok (i :: r)
    end
  end.
Definition doc_nodes (fuel : nat) (d : doc) : result (list node_id) :=
  iter_nodes fuel fuel d (Some document_node_id).

(** Node::as_element, as_text, dom/mod.rs:286-298. *)
Definition as_element (n : node) : option elem := match n_data n with DElement e => Some e | _ => None end.
Definition as_text (n : node) : option text := match n_data n with DText t => Some t | _ => None end.

(** ElementData::get_attr, dom/mod.rs:263-268. *)
Definition get_attr (e : elem) (name : string) : option string :=
  option_map a_value
    (find (fun a => String.eqb (q_ns (a_name a)) "" && String.eqb (q_local (a_name a)) name) (e_attrs e)).

(** Document::child_text_content, dom/mod.rs:166-180. *)
Fixpoint child_text_loop (fuel : nat) (d : doc) (link : option node_id) : result text :=
  match link with
  | None => Ok []
  | Some c =>
    match fuel with
    | O => OutOfFuel
    | S f =>
      do n <- getn d c;
      do r <- child_text_loop f d (n_next n);
      Ok (match n_data n with DText t => t ++ r | _ => r end)
    end
  end.
Definition child_text_content (fuel : nat) (d : doc) (i : node_id) : result text :=
  do n <- getn d i; child_text_loop fuel d (n_first n).

(** Document::root_element, dom/mod.rs:84-106. *)
Fixpoint root_scan (d : doc) (l : list node_id) (root : option node_id) : result (option node_id) :=
  match l with
  | [] => Ok root
  | c :: l' =>
    do n <- getn d c;
    match n_data n with
    | DDoctype | DComment | DPI => root_scan d l' root
    | DDocument | DText _ => Panic
    | DElement _ => do _ <- check (is_none root); root_scan d l' (Some c)
    end
  end.
Definition root_element (fuel : nat) (d : doc) : result node_id :=
  do n <- getn d document_node_id;
  do _ <- check (match n_data n with DDocument => true | _ => false end);
  do _ <- check (is_none (n_parent n));
  do _ <- check (is_none (n_next n));
  do _ <- check (is_none (n_prev n));
  match n_first n with
  | None => Panic
  | Some c =>
    do l <- following_siblings fuel d (Some c);
    do r <- root_scan d l None;
    match r with Some i => Ok i | None => Panic end
  end.

(** str::eq_ignore_ascii_case (std). *)
(** Part of eq_ignore_ascii_case, called at dom/mod.rs:59 *)
Definition lower_ascii (c : ascii) : ascii :=
  let n := N_of_ascii c in
  if (N.leb 65 n && N.leb n 90)%bool then ascii_of_N (n + 32) else c.
(** Part of eq_ignore_ascii_case, called at dom/mod.rs:59 *)
Fixpoint lower (s : string) : string :=
  match s with EmptyString => EmptyString | String c s' => String (lower_ascii c) (lower s') end.
(** Called at dom/mod.rs:59 *)
Definition eq_ignore_ascii_case (a b : string) : bool := String.eqb (lower a) (lower b).

(** Document::parse_stylesheets, dom/mod.rs:48-66: the list of css sources handed to
    StyleSetBuilder::add_stylesheet, in order (the builder itself is in CascadeModel.v). *)
Fixpoint style_sources (fuel : nat) (d : doc) (ids : list node_id) : result (list text) :=
  match ids with
  | [] => Ok []
  | i :: is =>
    do n <- getn d i;
    match as_element n with
    | None => Panic
    | Some e =>
      let skip := match get_attr e "type" with
                  | Some t => negb (eq_ignore_ascii_case t "text/css")
                  | None => false
                  end in
      if skip then style_sources fuel d is
      else do t <- child_text_content fuel d i;
           do r <- style_sources fuel d is;
           Ok (t :: r)
    end
  end.
Definition parse_stylesheets (fuel : nat) (d : doc) (user_css : option text) : result (list text) :=
  do r <- style_sources fuel d (style_elements d);
  Ok (match user_css with Some c => [c] | None => [] end ++ r).

(** Document::html_link_elements, dom/mod.rs:68-82. *)
Definition html_link_elements (fuel : nat) (d : doc) : result (list (string * string)) :=
  do ids <- doc_nodes fuel d;
  do r <- mapR (fun i =>
      do n <- getn d i;
      Ok (match as_element n with
          | Some e => if qname_eqb (e_name e) (QName html_ns "link")
                      then match get_attr e "rel", get_attr e "href" with
                           | Some a, Some b => [(a, b)]
                           | _, _ => []
                           end
                      else []
          | None => []
          end)) ids;
  Ok (concat r).
