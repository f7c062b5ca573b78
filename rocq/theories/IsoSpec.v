(** When two documents are the same tree (C86). *)
From Verif Require Import Base DomModel DomSpec.

(** The trees below node [i] of [d] and node [i'] of [d'] have the same shape and the same data, whatever the numbers
    of the nodes and whatever else the arenas hold. *)
Inductive same_tree (d d' : doc) : node_id -> node_id -> Prop :=
| Same i i' l l' : data_of d i = data_of d' i' -> kids d i l -> kids d' i' l' -> Forall2 (same_tree d d') l l' ->
    same_tree d d' i i'.

(** [in_tree_order d]: every <style> element ever created is in the tree, and the order of creation is that of the
    tree. *)
Definition in_tree_order (d : doc) : Prop :=
  exists t, arena_tree d document_node_id t /\
    filter (style_element d) (seq 0 (List.length (nodes d))) = filter (style_element d) (preorder t).
