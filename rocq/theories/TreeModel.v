(** Model of box construction: /repo/src/sinab/src/layout/flow/construct.rs, the traversal of
    layout/dom_traversal.rs and the construction half of layout/flow/root.rs.  Definitions only. *)
From Verif Require Export BlockModel.

(* ------------------------------------------------------------------ *)
(** * Outcomes *)

(** Construction can fail in two ways that the caller can tell apart.  [Panics]: a Rust panic that unwinds and
    can be caught (test.rs:25).  [Fatal]: control never comes back to the caller, because a second panic while
    unwinding aborts the process or because a loop never ends.  The second panic is the assertion in
    BoxSlot::drop, dom_traversal.rs:288-294, which fails for every slot that is dropped unset. *)
Inductive outcome (A : Type) := Done (a : A) | Panics | Fatal.
Arguments Done {A}. Arguments Panics {A}. Arguments Fatal {A}.
Definition obind {A B} (r : outcome A) (k : A -> outcome B) : outcome B :=
  match r with Done a => k a | Panics => Panics | Fatal => Fatal end.
Declare Scope outcome_scope.
Delimit Scope outcome_scope with outcome.
Notation "'run' x <- r ; k" := (obind r (fun x => k))
  (at level 200, x pattern, r at level 100, k at level 200) : outcome_scope.
Local Open Scope outcome_scope.
(** Running [r] while the BoxSlot of an element is live and unset: a panic drops the slot, whose assertion
    panics again, which aborts.  dom_traversal.rs:267-294 *)
Definition with_slot {A} (r : outcome A) : outcome A :=
  match r with Panics => Fatal | _ => r end.

Section Any.
Context {ar : Arith}.

(* ------------------------------------------------------------------ *)
(** * Input: the document with its computed styles *)

(** A node of the document as the traversal sees it (dom.rs:48-67 NodeData).  SIMPLIFICATION: the style of an
    element, computed at dom_traversal.rs:99-104 by style_for_element from the document and the style of the
    parent element, is stored in the node (UnsetModel.v builds these trees from a document).  [br] says
    whether the local name is br (dom_traversal.rs:107-108).  [SOther] is a comment, doctype or processing
    instruction. *)
Inductive snode :=
| SText (t : text)
| SOther
| SElem (br : bool) (st : style) (kids : list snode).

(* ------------------------------------------------------------------ *)
(** * The builder *)

(** An element of ongoing_inline_boxes_stack, construct.rs:93; its last_fragment is false until it is popped *)
Record ongoing := Ongoing { og_style : style; og_first : bool; og_children : list (ilb bfc) }.

(** IntermediateBlockLevelBox with its BoxSlot, construct.rs:18-50, 75.  SIMPLIFICATION: contents whose
    construction is deferred are represented by the outcome that constructing them will have ([MDeferred],
    [MIndep], [MAbspos], [MFloat]); construction has no side effect other than its outcome, and [finish] is
    what looks at it.  [MAnon] is SameFormattingContextBlock with an InlineFormattingContext; it is the only one
    pushed with a dummy slot (construct.rs:576). *)
Inductive inter :=
| MAnon (st : style) (parent_style : style) (boxes : list (ilb bfc))
| MDeferred (st : style) (contents : outcome (bcontainer * bool))
| MIndep (st : style) (contents : outcome bfc)
| MAbspos (st : style) (contents : outcome bfc)
| MFloat (st : style) (contents : outcome bfc).
Definition has_real_slot (m : inter) : bool := match m with MAnon _ _ _ => false | _ => true end.

(** BlockContainerBuilder, construct.rs:56-105.  The top of the stack is the head of [b_stack].
    SIMPLIFICATION: anonymous_style only caches a pure computation and is left out. *)
Record builder := Builder {
  b_style : style;              (* block_container_style *)
  b_boxes : list inter;         (* block_level_boxes *)
  b_inlines : list (ilb bfc);   (* ongoing_inline_formatting_context *)
  b_stack : list ongoing;       (* ongoing_inline_boxes_stack *)
  b_floats : bool               (* contains_floats *)
}.
(** construct.rs:113-121 *)
Definition builder_new (st : style) : builder := Builder st [] [] [] false.

(** current_inline_level_boxes, construct.rs:580-585: reading and replacing it *)
Definition current (b : builder) : list (ilb bfc) :=
  match b_stack b with o :: _ => og_children o | [] => b_inlines b end.
Definition set_current (b : builder) (l : list (ilb bfc)) : builder :=
  match b_stack b with
  | o :: s => Builder (b_style b) (b_boxes b) (b_inlines b) (Ongoing (og_style o) (og_first o) l :: s) (b_floats b)
  | [] => Builder (b_style b) (b_boxes b) l [] (b_floats b)
  end.
(** has_ongoing_inline_formatting_context, construct.rs:587-593 *)
Definition has_ongoing_ifc (b : builder) : bool :=
  match b_inlines b, b_stack b with [], [] => false | _, _ => true end.
(** Vec::push on block_level_boxes *)
(** construct.rs:479, 495, 528, 576 *)
Definition push_box (b : builder) (m : inter) : builder :=
  Builder (b_style b) (b_boxes b ++ [m]) (b_inlines b) (b_stack b) (b_floats b).

(* ------------------------------------------------------------------ *)
(** * Text *)

(** u8::is_ascii_whitespace and char::is_ascii_whitespace: space, tab, line feed, form feed, carriage return *)
(** external: called at construct.rs:247, 251, 339, 363 *)
Definition ascii_ws (c : char) : bool :=
  N.eqb c 32 || N.eqb c 9 || N.eqb c 10 || N.eqb c 12 || N.eqb c 13.
(** str::split_at the first byte that satisfies [p]; None when there is none.  SIMPLIFICATION: on characters
    instead of bytes; ASCII bytes occur in UTF-8 only as the characters they stand for. *)
(** construct.rs:247-251 *)
Fixpoint split_first (p : char -> bool) (t : text) : option (text * text) :=
  match t with
  | [] => None
  | c :: t' => if p c then Some ([], t)
               else match split_first p t' with Some (a, b) => Some (c :: a, b) | None => None end
  end.
(** str::trim_start_matches *)
(** external: called at construct.rs:363 *)
Fixpoint trim_start (p : char -> bool) (t : text) : text :=
  match t with c :: t' => if p c then trim_start p t' else t | [] => [] end.
(** r.text.ends_with(&[' ', '\n'][..]), construct.rs:346 *)
Definition ends_with_space_or_nl (t : text) : bool :=
  match rev t with c :: _ => N.eqb c 32 || N.eqb c 10 | [] => false end.

(** The loop over the boxes before the text, construct.rs:342-363: Some preserved for the first text run met
    going backwards, None at the paragraph start.  SIMPLIFICATION: the stack of iterators is recursion. *)
Fixpoint search_box (b : ilb bfc) : option bool :=
  match b with
  | TextRun _ t _ => Some (negb (ends_with_space_or_nl t))
  | IAbspos _ _ | IFloat _ _ => None
  | InlineBox _ _ _ ch =>
      (fix back (l : list (ilb bfc)) : option bool :=
         match l with [] => None | x :: l' => match back l' with Some r => Some r | None => search_box x end end) ch
  end.
Fixpoint search_back (l : list (ilb bfc)) : option bool :=
  match l with [] => None | x :: l' => match search_back l' with Some r => Some r | None => search_box x end end.
(** handle_leading_whitespace, construct.rs:336-366 *)
Definition handle_leading_whitespace (b : builder) (t : text) : bool * text :=
  match t with
  | c :: _ =>
      if ascii_ws c
      then (match search_back (current b) with Some preserved => preserved | None => false end, trim_start ascii_ws t)
      else (false, t)
  | [] => (false, t)
  end.

(** The loop that appends the input, construct.rs:247-261.  One unit of fuel per iteration; TreeFacts.collapse_fuel
    shows that the fuel given by [handle_text_collapse] is never used up. *)
Fixpoint collapse_loop (fuel : nat) (input : text) : option text :=
  match fuel with
  | O => None
  | S fuel =>
      match split_first ascii_ws input with
      | Some (non_whitespace, rest) =>
          match split_first (fun c => negb (ascii_ws c)) rest with
          | Some (_, input') =>
              match collapse_loop fuel input' with
              | Some out => Some (non_whitespace ++ 32%N :: out)
              | None => None
              end
          | None => Some (non_whitespace ++ [32%N])
          end
      | None => Some input
      end
  end.
(** get_last_text and the two ways to use it, construct.rs:230-245, 263-273, 315-330: append to the text of the
    last box if it is a text run, otherwise push a new run with the parent's style and a font made from it *)
Fixpoint append_text (l : list (ilb bfc)) (out : text) (parent_style : style) : list (ilb bfc) :=
  match l with
  | [] => [TextRun parent_style out parent_style]
  | [TextRun st t font] => [TextRun st (t ++ out) font]
  | x :: l' => x :: append_text l' out parent_style
  end.
(** handle_text_collapse, construct.rs:221-274 *)
Definition handle_text_collapse (input : text) (parent_style : style) (b : builder) : outcome builder :=
  let '(leading, input) := handle_leading_whitespace b input in
  if leading || match input with [] => false | _ => true end then
    match collapse_loop (S (List.length input)) input with
    | Some out => Done (set_current b (append_text (current b) (if leading then 32%N :: out else out) parent_style))
    | None => Fatal (* the fuel ran out: excluded by TreeFacts.collapse_fuel *)
    end
  else Done b.
(** handle_text_preserve, construct.rs:277-311 *)
Definition handle_text_preserve (input : text) (parent_style : style) (b : builder) : outcome builder :=
  match input with
  | [] => Done b
  | _ => Done (set_current b (append_text (current b) input parent_style))
  end.
(** handle_text, construct.rs:209-215.  The panic drops the builder and with it the slots of the elements in
    block_level_boxes, which are all unset. *)
Definition handle_text (input : text) (parent_style : style) (b : builder) : outcome builder :=
  match sv parent_style Lwhite_space with
  | WSNormal | WSNowrap => handle_text_collapse input parent_style b
  | WSPre | WSPreWrap => handle_text_preserve input parent_style b
  | WSPreLine | WSBreakSpaces => if existsb has_real_slot (b_boxes b) then Fatal else Panics
  end.

(* ------------------------------------------------------------------ *)
(** * Inline and block-level elements *)

(** construct.rs:383-388 *)
Definition push_inline (st : style) (b : builder) : builder :=
  Builder (b_style b) (b_boxes b) (b_inlines b) (Ongoing st true [] :: b_stack b) (b_floats b).
(** construct.rs:392-397, 405.  An empty stack panics (`expect`). *)
Definition pop_inline (b : builder) : outcome builder :=
  match b_stack b with
  | o :: s =>
      let b' := Builder (b_style b) (b_boxes b) (b_inlines b) s (b_floats b) in
      Done (set_current b' (current b' ++ [InlineBox (og_style o) (og_first o) true (og_children o)]))
  | [] => Panics
  end.
(** end_ongoing_inline_formatting_context, construct.rs:544-577 *)
Definition end_ifc (b : builder) : outcome builder :=
  match b_stack b with
  | _ :: _ => Panics
  | [] =>
      match b_inlines b with
      | [] => Done b
      | l => Done (Builder (b_style b)
                    (b_boxes b ++ [MAnon (anonymous_inheriting_from (Some (b_style b))) (b_style b) l])
                    [] [] (b_floats b))
      end
  end.
(** The inline boxes ongoing before a block-level element, construct.rs:420-452: the stack is emptied into one
    nested box, outermost last, and every ongoing box stops being a first fragment. *)
Fixpoint fragmented (s : list ongoing) (inner : option (ilb bfc)) : option (ilb bfc) :=
  match s with
  | [] => inner
  | o :: s' =>
      fragmented s' (Some (InlineBox (og_style o) (og_first o) false
                             (og_children o ++ match inner with Some i => [i] | None => [] end)))
  end.
Definition fragment_inlines (b : builder) : builder :=
  Builder (b_style b) (b_boxes b)
    (b_inlines b ++ match fragmented (b_stack b) None with Some i => [i] | None => [] end)
    (map (fun o => Ongoing (og_style o) false []) (b_stack b)) (b_floats b).
(** handle_block_level_element, construct.rs:408-480 *)
Definition handle_block (st : style) (inside : inside) (r : outcome (bcontainer * bool)) (b : builder)
  : outcome builder :=
  run b <- end_ifc (fragment_inlines b);
  Done (push_box b match inside with
                   | IFlow => MDeferred st r
                   | IFlowRoot => MIndep st (obind r (fun '(c, fl) => Done (BFC fl c)))
                   end).

(* ------------------------------------------------------------------ *)
(** * Finishing a container *)

(** IntermediateBlockLevelBox::finish and IntermediateBlockContainer::finish, construct.rs:596-679; the slot is
    live while it runs (construct.rs:147-152) *)
Definition finish_one (m : inter) : outcome (blb * bool) :=
  match m with
  | MAnon st ps l => Done (SameFC st (InlineFC ps l), false)
  | MDeferred st r => with_slot (run (c, fl) <- r; Done (SameFC st c, fl))
  | MIndep st r => with_slot (run c <- r; Done (Indep st c, false))
  | MAbspos st r => with_slot (run c <- r; Done (BAbspos st c, false))
  | MFloat st r => with_slot (run c <- r; Done (BFloat st c, true))
  end.
(** construct.rs:142-155; `|=` on ContainsFloats, construct.rs:688-694 *)
Fixpoint finish_all (l : list inter) (floats : bool) : outcome (list blb * bool) :=
  match l with
  | [] => Done ([], floats)
  | m :: l' =>
      run (x, fl) <- finish_one m;
      run (xs, floats) <- finish_all l' (floats || fl);
      Done (x :: xs, floats)
  end.
(** BlockContainer::construct after the traversal, construct.rs:125-173.  The debug_assert! at line 125 is
    TreeProofs.traverse_stack. *)
Definition finish_container (b : builder) : outcome (bcontainer * bool) :=
  match b_inlines b, b_boxes b with
  | _ :: _, [] => Done (InlineFC (b_style b) (b_inlines b), b_floats b)
  | _, _ =>
      run b <- match b_inlines b with [] => Done b | _ => end_ifc b end;
      run (l, floats) <- finish_all (b_boxes b) (b_floats b);
      Done (BlockLevelBoxes l, floats)
  end.

(* ------------------------------------------------------------------ *)
(** * The traversal *)

(** The loop of traverse_children_of, dom_traversal.rs:67-81; [handle] gets the node, and whether it has a next
    sibling.  The pseudo-elements before and after never exist: pseudo_element_style returns None
    (dom_traversal.rs:244-253). *)
Section Children.
  Context {B : Type} (handle : snode -> bool -> B -> outcome B).
  Fixpoint traverse_with (kids : list snode) (b : B) : outcome B :=
    match kids with
    | [] => Done b
    | n :: rest =>
        run b <- handle n (match rest with [] => false | _ => true end) b;
        traverse_with rest b
    end.
End Children.

(** handle_absolutely_positioned_element, construct.rs:482-511, and handle_float_element, construct.rs:513-542;
    the eager construction runs while the slot is live *)
Definition handle_abspos (st : style) (r : outcome bfc) (b : builder) : outcome builder :=
  if has_ongoing_ifc b
  then with_slot (run c <- r; Done (set_current b (current b ++ [IAbspos st c])))
  else Done (push_box b (MAbspos st r)).
Definition handle_float (st : style) (r : outcome bfc) (b : builder) : outcome builder :=
  let b := Builder (b_style b) (b_boxes b) (b_inlines b) (b_stack b) true in
  if has_ongoing_ifc b
  then with_slot (run c <- r; Done (set_current b (current b ++ [IFloat st c])))
  else Done (push_box b (MFloat st r)).

(** One child of traverse_children_of, dom_traversal.rs:69-79, with traverse_element (92-145) and
    BlockContainerBuilder::handle_element (construct.rs:178-207).
    unset_boxes_in_subtree (dom_traversal.rs:124) is UnsetModel.v: on a document that is laid out for the first
    time it does nothing if the element has a next sibling (PropTree.C43_unset_with_sibling) and never returns
    otherwise (PropTree.C43_unset_never_returns).
    IndependentFormattingContext::construct (layout/mod.rs:40-60) does the same for Flow and FlowRoot. *)
Fixpoint handle_node (parent_style : style) (n : snode) (has_next : bool) (b : builder) {struct n} : outcome builder :=
  match n with
  | SOther => Done b
  | SText t => handle_text t parent_style b
  | SElem br st kids =>
      let traverse := traverse_with (handle_node st) kids in
      let construct := obind (traverse (builder_new st)) finish_container in
      let context := run (c, fl) <- construct; Done (BFC fl c) in
      if br then handle_text [nl] st b else
      match sv st Ldisplay with
      | DispNone => if has_next then Done b else Fatal
      | DispContents => traverse b
      | DispBox OInline IFlow => with_slot (run b <- traverse (push_inline st b); pop_inline b)
      | DispBox OInline IFlowRoot => with_slot Panics
      | DispBox OBlock inside =>
          if is_absolutely_positioned (sv st Lposition) then handle_abspos st context b
          else if is_floating (sv st Lfloat) then handle_float st context b
          else with_slot (handle_block st inside construct b)
      end
  end.
(** NonReplacedContents::traverse, dom_traversal.rs:226-242 *)
Definition traverse (st : style) (kids : list snode) (b : builder) : outcome builder :=
  traverse_with (handle_node st) kids b.
(** BlockContainer::construct, construct.rs:108-174 *)
Definition construct_container (st : style) (kids : list snode) : outcome (bcontainer * bool) :=
  run b <- traverse st kids (builder_new st); finish_container b.
(** BlockFormattingContext::construct, construct.rs:5-16; IndependentFormattingContext::construct *)
Definition construct_bfc (st : style) (kids : list snode) : outcome bfc :=
  run (c, fl) <- construct_container st kids; Done (BFC fl c).

(** construct_for_root_element, root.rs:32-86, and BoxTreeRoot::construct, root.rs:16-30.  ReplacedContent is
    empty, so `replaced` is None.  No slot is live here. *)
Definition construct_root (st : style) (kids : list snode) : outcome bfc :=
  match sv st Ldisplay with
  | DispNone => Done (BFC false (BlockLevelBoxes []))
  | _ =>
      run c <- construct_bfc st kids;
      if is_absolutely_positioned (sv st Lposition) then Done (BFC false (BlockLevelBoxes [BAbspos st c]))
      else if is_floating (sv st Lfloat) then Done (BFC true (BlockLevelBoxes [BFloat st c]))
      else Done (BFC false (BlockLevelBoxes [Indep st c]))
  end.
End Any.
