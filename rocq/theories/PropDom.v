(** Properties of the document tree (C01-C08).  Statements use DomModel.v (the code) and DomSpec.v. *)
From Coq Require Import List Arith Lia NArith String Relations.
From Verif Require Import Base DomModel DomSpec DomFacts DomExample.
Import ListNotations.
Local Open Scope nat_scope.

(** C01: every operation the parser may issue succeeds (no failed assertion, no bad index) and leads
    to a document whose links are consistent; no node is below itself; the children of a node are exactly
    the nodes whose parent it is, each listed once. *)
Theorem C01_links_consistent : forall d, reach d ->
  links_consistent d /\
  (forall k, ~ below d k k) /\
  (forall p, node_of d p -> exists l, kids d p l /\ NoDup l /\
      forall k, In k l <-> (node_of d k /\ parent_of d k = Some p)).
Proof. exact (fun d H => conj (reach_links d H) (conj (fun k => reach_acyclic d k H) (fun p => reach_kids d p H))). Qed.
Print Assumptions C01_links_consistent.

Theorem C01_operations_succeed : forall d o, reach d -> allowed d o -> exists d', step d o = Ok d' /\ reach d'.
Proof. exact reach_no_panic. Qed.
Print Assumptions C01_operations_succeed.

Example C01_nonvacuous : reach ex_doc /\ kids ex_doc 3 [4; 9; 6] /\ allowed ex_doc (ORemove 6).
Proof. split; [exact ex_reach|]. split; [kids_tac|node_tac]. Qed.

(** C02 *)
Theorem C02_append : forall d p c, reach d -> may_append d p (CNode c) ->
  exists d', step d (OAppend p (CNode c)) = Ok d' /\
    (forall l, kids d p l -> kids d' p (drop c l ++ [c])) /\
    (forall q l, q <> p -> kids d q l -> kids d' q (drop c l)) /\
    (forall i, data_of d' i = data_of d i) /\ parent_of d' c = Some p.
Proof. exact append_node_effect. Qed.
Print Assumptions C02_append.

Theorem C02_insert_before : forall d sib c, reach d -> may_insert_before d sib (CNode c) ->
  exists d', step d (OAppendBefore sib (CNode c)) = Ok d' /\
    (forall q a b, kids d q (a ++ sib :: b) -> kids d' q (drop c a ++ c :: sib :: drop c b)) /\
    (forall q l, kids d q l -> ~ In sib l -> kids d' q (drop c l)) /\
    (forall i, data_of d' i = data_of d i).
Proof. exact insert_node_effect. Qed.
Print Assumptions C02_insert_before.

Theorem C02_remove : forall d c, reach d -> node_of d c ->
  exists d', step d (ORemove c) = Ok d' /\
    (forall q l, kids d q l -> kids d' q (drop c l)) /\
    (forall i, data_of d' i = data_of d i) /\ parent_of d' c = None.
Proof. exact remove_effect. Qed.
Print Assumptions C02_remove.

Example C02_nonvacuous : may_append ex_doc 4 (CNode 8) /\ may_insert_before ex_doc 4 (CNode 8) /\ kids ex_doc 6 [7; 8].
Proof.
  assert (~ below ex_doc 8 4) by (apply not_below_leaf; [exact ex_reach|kids_tac]).
  repeat split; try (vm_compute; lia); try assumption.
  - exists 3, [4; 9; 6]. split; [kids_tac|cbn; auto].
  - kids_tac.
Qed.

(** C03 *)
Theorem C03_traversal_preorder : forall d, reach d ->
  exists t, arena_tree d document_node_id t /\
    (forall f, S (length (nodes d)) <= f -> doc_nodes f d = Ok (preorder t)) /\
    NoDup (preorder t) /\
    (forall x, In x (preorder t) <-> x = document_node_id \/ below d document_node_id x).
Proof. exact reach_traversal. Qed.
Print Assumptions C03_traversal_preorder.
Example C03_nonvacuous : doc_nodes 20 ex_doc = Ok [1; 2; 3; 4; 5; 9; 6; 7; 8].
Proof. vm_compute. reflexivity. Qed.

(** C04 *)
Theorem C04_append_text : forall d p t l, reach d -> node_of d p -> kids d p l ->
  exists d', step d (OAppend p (CText t)) = Ok d' /\
  ((exists l0 k u, l = l0 ++ [k] /\ data_of d k = Some (DText u) /\
      data_of d' k = Some (DText (u ++ t)) /\ (forall i, i <> k -> data_of d' i = data_of d i) /\
      (forall q l', kids d q l' -> kids d' q l'))
   \/ ((forall l0 k u, l = l0 ++ [k] -> data_of d k <> Some (DText u)) /\
      exists k, data_of d k = None /\ data_of d' k = Some (DText t) /\ (forall i, i <> k -> data_of d' i = data_of d i) /\
      kids d' p (l ++ [k]) /\ (forall q l', q <> p -> kids d q l' -> kids d' q l'))).
Proof. exact append_text_effect. Qed.
Print Assumptions C04_append_text.

Theorem C04_append_text_content : forall d p t l, reach d -> node_of d p -> kids d p l ->
  exists d' l', step d (OAppend p (CText t)) = Ok d' /\ kids d' p l' /\
    flat_map (own_text d') l' = flat_map (own_text d) l ++ t.
Proof. exact append_text_content. Qed.
Print Assumptions C04_append_text_content.

Theorem C04_before_text : forall d p sib t a b, reach d -> kids d p (a ++ sib :: b) ->
  exists d', step d (OAppendBefore sib (CText t)) = Ok d' /\
  ((exists a0 k u, a = a0 ++ [k] /\ data_of d k = Some (DText u) /\
      data_of d' k = Some (DText (u ++ t)) /\ (forall i, i <> k -> data_of d' i = data_of d i) /\
      (forall q l', kids d q l' -> kids d' q l'))
   \/ ((forall a0 k u, a = a0 ++ [k] -> data_of d k <> Some (DText u)) /\
      exists k, data_of d k = None /\ data_of d' k = Some (DText t) /\ (forall i, i <> k -> data_of d' i = data_of d i) /\
      kids d' p (a ++ k :: sib :: b) /\ (forall q l', q <> p -> kids d q l' -> kids d' q l'))).
Proof. exact before_text_effect. Qed.
Print Assumptions C04_before_text.

Theorem C04_before_text_content : forall d p sib t a b, reach d -> kids d p (a ++ sib :: b) ->
  exists d' a', step d (OAppendBefore sib (CText t)) = Ok d' /\ kids d' p (a' ++ sib :: b) /\
    flat_map (own_text d') a' = flat_map (own_text d) a ++ t /\
    flat_map (own_text d') (sib :: b) = flat_map (own_text d) (sib :: b).
Proof. exact before_text_content. Qed.
Print Assumptions C04_before_text_content.
Example C04_nonvacuous : kids ex_doc 6 ([7] ++ 8 :: []) /\ data_of ex_doc 7 = Some (DText (txt "ab")) /\ node_of ex_doc 6.
Proof. split; [kids_tac|split; [vm_compute; reflexivity|node_tac]]. Qed.

(** C05: the full statement is false of the code; what is true. *)
Theorem C05_reparent_refuted : exists d n p l lp, reach d /\ allowed d (OReparent n p) /\ kids d n l /\ kids d p lp /\
  forall d', step d (OReparent n p) = Ok d' -> ~ (kids d' p (lp ++ l) /\ kids d' n []).
Proof.
  exists ex_doc, 6, 4, [7; 8], [5]. exact ex_reparent.
Qed.
Print Assumptions C05_reparent_refuted.

(** Only the first child is moved; the others stay. *)
Theorem C05_reparent_partial : forall d n p c l, reach d -> allowed d (OReparent n p) -> kids d n (c :: l) ->
  exists d', step d (OReparent n p) = Ok d' /\ kids d' n l /\
    (forall lp, kids d p lp -> kids d' p (lp ++ [c])) /\
    (forall q lq, q <> n -> q <> p -> kids d q lq -> kids d' q lq).
Proof. exact reparent_effect. Qed.
Print Assumptions C05_reparent_partial.
Theorem C05_reparent_empty_partial : forall d n p, reach d -> allowed d (OReparent n p) -> kids d n [] ->
  exists d', step d (OReparent n p) = Ok d' /\ (forall q l, kids d q l -> kids d' q l).
Proof. exact reparent_effect_nil. Qed.
Print Assumptions C05_reparent_empty_partial.

(** C06 *)
Theorem C06_add_attrs : forall d t e attrs, reach d -> node_of d t -> data_of d t = Some (DElement e) ->
  exists d' extra, step d (OAddAttrs t attrs) = Ok d' /\
    data_of d' t = Some (DElement (Elem (e_name e) (e_attrs e ++ extra))) /\
    (forall a, In a extra <-> In a attrs /\ forall o, In o (e_attrs e) -> a_name o <> a_name a) /\
    (forall k v, get_attr e k = Some v -> get_attr (Elem (e_name e) (e_attrs e ++ extra)) k = Some v) /\
    (forall a, In a attrs -> exists b, In b (e_attrs e ++ extra) /\ a_name b = a_name a) /\
    (forall i, i <> t -> data_of d' i = data_of d i) /\ (forall q l, kids d q l -> kids d' q l).
Proof. exact add_attrs_effect. Qed.
Print Assumptions C06_add_attrs.
Example C06_nonvacuous : node_of ex_doc 6 /\ exists e, data_of ex_doc 6 = Some (DElement e) /\ get_attr e "id" = Some "x"%string.
Proof. split; [node_tac|]. eexists. split; vm_compute; reflexivity. Qed.

(** C07 *)
Theorem C07_root_element : forall d r f l, reach d -> kids d document_node_id l -> length (nodes d) <= f ->
  (root_element f d = Ok r <->
   (forall i, In i l -> exists dt, data_of d i = Some dt /\
       match dt with DText _ | DDocument => False | _ => True end) /\
   In r l /\ (forall i, In i l -> ((exists e, data_of d i = Some (DElement e)) <-> i = r))).
Proof. exact root_element_iff. Qed.
Print Assumptions C07_root_element.
Theorem C07_root_element_terminates : forall d f, reach d -> length (nodes d) <= f -> root_element f d <> OutOfFuel.
Proof. exact root_element_total. Qed.
Print Assumptions C07_root_element_terminates.
Example C07_nonvacuous : kids ex_doc document_node_id [2; 3] /\ root_element 20 ex_doc = Ok 3.
Proof. split; [kids_tac|vm_compute; reflexivity]. Qed.

(** C08 *)
Theorem C08_stylesheets : forall d user f, reach d -> length (nodes d) <= f ->
  exists srcs,
    parse_stylesheets f d user = Ok (match user with Some c => [c] | None => [] end ++ srcs) /\
    Forall2 (fun i t => exists l, kids d i l /\ t = flat_map (own_text d) l)
      (filter (css_type d) (filter (style_element d) (seq 0 (length (nodes d))))) srcs.
Proof. exact parse_stylesheets_ok. Qed.
Print Assumptions C08_stylesheets.
Example C08_nonvacuous : parse_stylesheets 20 ex_doc (Some (txt "u")) = Ok [txt "u"; txt "p"].
Proof. vm_compute. reflexivity. Qed.
