(** Model of selector matching: /repo/src/sinab/src/style/selectors.rs, on the arena of DomModel.v.
    The matching loop itself lives in the external crate `selectors` 0.22 (Cargo.toml); it is modelled
    from its published algorithm, so that the tree navigation of selectors.rs can be related to the
    meaning of whole selectors.  Definitions only. *)
From Coq Require Import ZArith.
From Verif Require Import Base DomModel.
Local Open Scope nat_scope.
Open Scope result_scope.

(** `node().as_element().unwrap()`, selectors.rs:156, 160, 164, 185, 216, 226-228, 236-238;
    Node::as_element, dom/mod.rs:286-291 *)
Definition unwrap_element (d : doc) (i : node_id) : result elem :=
  do n <- getn d i;
  match n_data n with DElement e => Ok e | _ => Panic end.
Definition is_element_data (dt : node_data) : bool := match dt with DElement _ => true | _ => false end.

(** find_element, selectors.rs:110-125; [fuel] bounds the loop. *)
Fixpoint find_element (fuel : nat) (d : doc) (next : node -> option node_id) (first : option node_id)
  : result (option node_id) :=
  match first with
  | None => Ok None
  | Some i =>
    match fuel with
    | O => OutOfFuel
    | S f =>
      do n <- getn d i;
      if is_element_data (n_data n) then Ok (Some i) else find_element f d next (next n)
    end
  end.
(** parent_element, selectors.rs:134-141 *)
Definition parent_element (d : doc) (i : node_id) : result (option node_id) :=
  do n <- getn d i;
  match n_parent n with
  | None => Ok None
  | Some p => do m <- getn d p; Ok (if is_element_data (n_data m) then Some p else None)
  end.
(** next_sibling_element, selectors.rs:143-147 *)
Definition next_sibling_element (fuel : nat) (d : doc) (i : node_id) : result (option node_id) :=
  do n <- getn d i; find_element fuel d n_next (n_next n).
(** prev_sibling_element, selectors.rs:149-153 *)
Definition prev_sibling_element (fuel : nat) (d : doc) (i : node_id) : result (option node_id) :=
  do n <- getn d i; find_element fuel d n_prev (n_prev n).
(** is_html_element_in_html_document, selectors.rs:155-157; in_html_document is constantly true, dom/mod.rs:281-284 *)
Definition is_html_element_in_html_document (d : doc) (i : node_id) : result bool :=
  do e <- unwrap_element d i; Ok (String.eqb (q_ns (e_name e)) html_ns).
(** has_local_name, has_namespace, selectors.rs:159-165 *)
Definition has_local_name (d : doc) (i : node_id) (name : string) : result bool :=
  do e <- unwrap_element d i; Ok (String.eqb (q_local (e_name e)) name).
Definition has_namespace (d : doc) (i : node_id) (ns : string) : result bool :=
  do e <- unwrap_element d i; Ok (String.eqb (q_ns (e_name e)) ns).
(** attr_matches, selectors.rs:179-193; [ns = None] is NamespaceConstraint::Any; [op] is
    AttrSelectorOperation::eval_str, external. *)
Definition attr_matches (d : doc) (i : node_id) (ns : option string) (local : string) (op : string -> bool) : result bool :=
  do e <- unwrap_element d i;
  Ok (existsb (fun a => String.eqb (q_local (a_name a)) local
                        && (match ns with None => true | Some n => String.eqb (q_ns (a_name a)) n end)
                        && op (a_value a)) (e_attrs e)).
(** has_id, has_class, selectors.rs:225-243.  The crate asks for case-sensitive comparison, since matches()
    passes QuirksMode::NoQuirks (selectors.rs:23). *)
Definition has_id (d : doc) (i : node_id) (id : string) : result bool :=
  do e <- unwrap_element d i;
  Ok (match get_attr e "id" with Some v => String.eqb id v | None => false end).
Definition has_class (d : doc) (i : node_id) (class : string) : result bool :=
  do e <- unwrap_element d i;
  Ok (match get_attr e "class" with Some v => String.eqb class v | None => false end).
(** is_empty, selectors.rs:245-263 *)
Fixpoint is_empty_loop (fuel : nat) (d : doc) (i : node_id) : result bool :=
  match fuel with
  | O => OutOfFuel
  | S f =>
    do n <- getn d i;
    if is_element_data (n_data n) then Ok false
    else if match n_data n with DText t => negb (Nat.eqb (length t) 0) | _ => false end then Ok false
    else match n_next n with None => Ok true | Some j => is_empty_loop f d j end
  end.
Definition is_empty (fuel : nat) (d : doc) (i : node_id) : result bool :=
  do n <- getn d i;
  match n_first n with None => Ok true | Some j => is_empty_loop fuel d j end.
(** is_root, selectors.rs:265-267 *)
Definition is_root (d : doc) (i : node_id) : result bool :=
  do p <- parent_element d i; Ok (is_none p).
(** is_same_type, selectors.rs:271: todo!() *)
Definition is_same_type (d : doc) (i j : node_id) : result bool := Panic.

(* ------------------------------------------------------------------ *)
(** * The external matcher (crate `selectors`), built on the functions above *)

(** external: Component, instantiated by the SelectorImpl at selectors.rs:50-63 *)
Inductive simple :=
| SLocal (name lower_name : string)                (* type selector, with its lower-cased form *)
| SNamespace (ns : string)
| SId (id : string)
| SClass (class : string)
| SAttr (ns : option string) (local : string) (op : string -> bool)
| SRoot
| SEmpty
| SFirstChild
| SLastChild
| SOnlyChild
| SNth (from_end of_type : bool) (a b : Z)          (* :nth-child(an+b) and its variants *)
| SNot (l : list simple).

(** external: nth_child_index *)
(** external: uses prev_sibling_element and next_sibling_element, selectors.rs:143-153 *)
Fixpoint nth_index (fuel : nat) (steps : nat) (d : doc) (from_end of_type : bool) (self cur : node_id) (index : Z) : result Z :=
  match steps with
  | O => OutOfFuel
  | S s =>
    do o <- (if from_end then next_sibling_element fuel d cur else prev_sibling_element fuel d cur);
    match o with
    | None => Ok index
    | Some x =>
      do same <- (if of_type then is_same_type d self x else Ok true);
      nth_index fuel s d from_end of_type self x (if same then (index + 1)%Z else index)
    end
  end.
(** external: "is there a non-negative integer n such that An+B=index"; SIMPLIFICATION: Z instead of i32 *)
(** external: the formula for :nth-child *)
Definition nth_test (a b index : Z) : bool :=
  let an := (index - b)%Z in
  if Z.eqb a 0 then Z.eqb an 0 else let n := Z.quot an a in Z.leb 0 n && Z.eqb (a * n) an.

(** external: matches_simple_selector / matches_compound_selector *)
(** external: calls the methods at selectors.rs:155-268 *)
Fixpoint simple_match (fuel : nat) (d : doc) (e : node_id) (s : simple) : result bool :=
  match s with
  | SLocal name lower_name =>
      do h <- is_html_element_in_html_document d e; has_local_name d e (if h then lower_name else name)
  | SNamespace ns => has_namespace d e ns
  | SId id => has_id d e id
  | SClass c => has_class d e c
  | SAttr ns local op => attr_matches d e ns local op
  | SRoot => is_root d e
  | SEmpty => is_empty fuel d e
  | SFirstChild => do o <- prev_sibling_element fuel d e; Ok (is_none o)
  | SLastChild => do o <- next_sibling_element fuel d e; Ok (is_none o)
  | SOnlyChild => do o <- prev_sibling_element fuel d e;
                  if is_none o then do o' <- next_sibling_element fuel d e; Ok (is_none o') else Ok false
  | SNth from_end of_type a b =>
      do i <- nth_index fuel fuel d from_end of_type e e 1; Ok (nth_test a b i)
  | SNot l =>
      do r <- (fix all l := match l with
                            | [] => Ok true
                            | s :: r => do b <- simple_match fuel d e s; if b then all r else Ok false
                            end) l;
      Ok (negb r)
  end.
(** external: calls the methods at selectors.rs:155-268 *)
Fixpoint compound_match (fuel : nat) (d : doc) (e : node_id) (l : list simple) : result bool :=
  match l with
  | [] => Ok true
  | s :: r => do b <- simple_match fuel d e s; if b then compound_match fuel d e r else Ok false
  end.

(** external: Combinator of the selectors crate *)
Inductive combinator := CChild | CDescendant | CNextSibling | CLaterSibling.
(** A selector, right to left: the rightmost compound, then combinators and compounds. *)
(** external: Selector<Impl>, Impl at selectors.rs:50-63 *)
Record selector := Selector { s_subject : list simple; s_rest : list (combinator * list simple) }.

(** external: SelectorMatchingResult *)
(** external: result type of the loop over combinators *)
Inductive outcome := Matched | RestartLaterSibling | RestartDescendant | NotGlobally.

(** The elements a combinator goes through, nearest first: repeated parent_element or prev_sibling_element.
    (The crate steps through them lazily.) *)
(** external: loop over parent_element, selectors.rs:134-141 *)
Fixpoint ancestors (steps : nat) (d : doc) (e : node_id) : result (list node_id) :=
  match steps with
  | O => OutOfFuel
  | S s => do o <- parent_element d e;
           match o with None => Ok [] | Some p => do r <- ancestors s d p; Ok (p :: r) end
  end.
(** external: loop over prev_sibling_element, selectors.rs:149-153 *)
Fixpoint previous (steps fuel : nat) (d : doc) (e : node_id) : result (list node_id) :=
  match steps with
  | O => OutOfFuel
  | S s => do o <- prev_sibling_element fuel d e;
           match o with None => Ok [] | Some p => do r <- previous s fuel d p; Ok (p :: r) end
  end.
(** No function of the code *)
Definition opt_to_list (o : option node_id) : list node_id := match o with Some x => [x] | None => [] end.
(** external: next_element_for_combinator; calls parent_element and prev_sibling_element, selectors.rs:134-153 *)
Definition next_elements (fuel : nat) (d : doc) (k : combinator) (e : node_id) : result (list node_id) :=
  match k with
  | CChild => do o <- parent_element d e; Ok (opt_to_list o)
  | CDescendant => ancestors fuel d e
  | CNextSibling => do o <- prev_sibling_element fuel d e; Ok (opt_to_list o)
  | CLaterSibling => previous fuel fuel d e
  end.
(** external: the loop of matches_complex_selector_internal *)
(** external: calls the methods at selectors.rs:134-268 *)
Fixpoint walk (k : combinator) (f : node_id -> result outcome) (not_found : outcome) (l : list node_id) : result outcome :=
  match l with
  | [] => Ok not_found
  | x :: r =>
    do res <- f x;
    match res, k with
    | Matched, _ => Ok Matched
    | NotGlobally, _ => Ok NotGlobally
    | _, CNextSibling => Ok res
    | _, CChild => Ok RestartDescendant
    | RestartDescendant, CLaterSibling => Ok RestartDescendant
    | _, _ => walk k f not_found r
    end
  end.
(** external: part of that loop *)
Definition candidate_not_found (k : combinator) : outcome :=
  match k with CNextSibling | CLaterSibling => RestartDescendant | CChild | CDescendant => NotGlobally end.
(** external: matches_complex_selector_internal *)
(** external: called from matches_selector, selectors.rs:14-26 *)
Fixpoint match_complex (fuel : nat) (d : doc) (c : list simple) (rest : list (combinator * list simple)) (e : node_id)
  : result outcome :=
  do ok <- compound_match fuel d e c;
  if ok then
    match rest with
    | [] => Ok Matched
    | (k, c') :: rest' =>
      do l <- next_elements fuel d k e;
      walk k (fun x => match_complex fuel d c' rest' x) (candidate_not_found k) l
    end
  else Ok RestartLaterSibling.
(** matches, selectors.rs:14-26 *)
Definition matches (fuel : nat) (d : doc) (s : selector) (e : node_id) : result bool :=
  do r <- match_complex fuel d (s_subject s) (s_rest s) e;
  Ok (match r with Matched => true | _ => false end).
