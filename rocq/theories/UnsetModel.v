(** Model of Context::unset_boxes_in_subtree, /repo/src/sinab/src/layout/dom_traversal.rs:334-377, and of the
    reading of a document into the tree that box construction works on.  Definitions only. *)
From Verif Require Import StyleModel TreeModel Base DomModel DomSpec.
Local Open Scope result_scope.

(** The layout data of an element (layout/mod.rs:12-24): its self_box cell.  [Busy]: mutably borrowed by a live
    BoxSlot, so that borrow_mut panics.  SIMPLIFICATION: pseudo_elements is only ever set to None here. *)
Inductive cell := Busy | Full | Empty.
Definition cells := node_id -> cell.
Definition set_cell (c : cells) (i : node_id) (v : cell) : cells := fun j => if Nat.eqb j i then v else c j.

(** The inner loop, dom_traversal.rs:362-371: [node] is the node the outer loop is at, [cur] is
    next_is_a_sibling_of.  Gives the sibling found and the node it is a sibling of. *)
Fixpoint find_sibling (fuel : nat) (d : doc) (n : node) (cur : node_id) : result (node_id * node_id) :=
  match fuel with
  | O => OutOfFuel
  | S fuel =>
      do c <- getn d cur;
      match n_next c with
      | Some sibling => Ok (sibling, cur)
      | None => match n_parent n with
                | Some p => find_sibling fuel d n p
                | None => Panic (* expect("reached the root while traversing only a subtree") *)
                end
      end
  end.
(** The outer loop, dom_traversal.rs:340-377 *)
Fixpoint unset_from (fuel : nat) (d : doc) (base : node_id) (c : cells) (id : node_id) : result cells :=
  match fuel with
  | O => OutOfFuel
  | S fuel =>
      do n <- getn d id;
      let continue := fun c => 
        do (next, cur) <- find_sibling fuel d n id;
        if Nat.eqb cur base then Ok c else unset_from fuel d base c next in
      match n_data n with
      | DElement _ =>
          match c id with
          | Busy => Panic
          | Full => match n_first n with
                    | Some child => unset_from fuel d base (set_cell c id Empty) child
                    | None => continue (set_cell c id Empty)
                    end
          | Empty => continue (set_cell c id Empty)
          end
      | _ => continue c
      end
  end.
Definition unset_boxes_in_subtree (fuel : nat) (d : doc) (base : node_id) (c : cells) : result cells :=
  unset_from fuel d base c base.

(** The traversal's view of a document (dom_traversal.rs:53-145): the node kinds and, for elements, the style
    computed from the parent's style.  [style_of] is style_for_element for this document (StyleModel.v).
    local_name!("br") is compared without the namespace. *)
Section Styled.
  Context {ar : Arith} (style_of : node_id -> option style -> style).
  Fixpoint styled (d : doc) (parent : style) (t : dtree) : snode :=
    match t with
    | DT i ts =>
        match data_of d i with
        | Some (DText u) => SText u
        | Some (DElement e) =>
            let st := style_of i (Some parent) in
            SElem (String.eqb (q_local (e_name e)) "br") st (map (styled d st) ts)
        | _ => SOther
        end
    end.
  (** BoxTreeRoot::construct, root.rs:16-30 *)
  Definition construct_document (d : doc) (root : dtree) : outcome bfc :=
    match root with
    | DT i ts => let st := style_of i None in construct_root st (map (styled d st) ts)
    end.
End Styled.
