(** Specification of box construction, independent of the builder. *)
From Verif Require Import StyleSpec TreeModel BlockSpec.

Section Any.
Context {ar : Arith}.

(* ------------------------------------------------------------------ *)
(** * White space *)

Definition is_ws (c : char) : Prop := In c [32; 9; 10; 12; 13]%N.
Definition ws_dec (c : char) : {is_ws c} + {~ is_ws c} := in_dec N.eq_dec c _.
#[global] Arguments ws_dec : simpl never.
(** Collapsing, one character at a time: white space after white space (or at the start of a paragraph)
    disappears, other white space becomes a space, everything else stays.  [after] says whether what comes
    before ends in white space. *)
Fixpoint squeeze (after : bool) (t : text) : text :=
  match t with
  | [] => []
  | c :: t' =>
      if ws_dec c then (if after then squeeze true t' else 32%N :: squeeze true t')
      else c :: squeeze false t'
  end.
(** The maximal pieces without white space.  [word] is the piece being read, backwards. *)
Fixpoint words_from (word : text) (t : text) : list text :=
  let flush := match word with [] => [] | _ => [rev word] end in
  match t with
  | [] => flush
  | c :: t' => if ws_dec c then flush ++ words_from [] t' else words_from (c :: word) t'
  end.
Definition words (t : text) : list text := words_from [] t.
(** The characters that are not white space. *)
Definition solid (t : text) : text := filter (fun c => if ws_dec c then false else true) t.
(** The text ends in a space or a newline. *)
Definition ends_in_space (t : text) : bool :=
  match rev t with c :: _ => if in_dec N.eq_dec c [32; 10]%N then true else false | [] => false end.

(* ------------------------------------------------------------------ *)
(** * What a document renders as *)

(** The rendering of a document without its geometry: boxes opening and closing, and characters. *)
Inductive kind := KInline | KBlock | KIndependent | KAbsolute | KFloat.
Inductive event := Open (k : kind) (st : style) | Close | Char (c : char) (st : style).
(** Equal but for the style of characters. *)
Definition same_content (a b : event) : Prop :=
  match a, b with Char c _, Char c' _ => c = c' | _, _ => a = b end.
Definition chars (st : style) (t : text) : list event := map (fun c => Char c st) t.

(** What the text before ends in, inside the innermost inline element: None when there is no text yet. *)
Definition text_state := option bool.
Definition at_boundary (s : text_state) : bool := match s with Some false => false | _ => true end.
Definition after_text (s : text_state) (out : text) : text_state :=
  match out with [] => s | _ => Some (ends_in_space out) end.
(** A piece of text under its white-space value (CSS Text 3, 4.1; pre-line and break-spaces do not occur in
    documents that can be laid out). *)
Definition shown (ws : white_space) (s : text_state) (t : text) : text :=
  match ws with
  | WSNormal | WSNowrap => squeeze (at_boundary s) t
  | _ => t
  end.
Definition shown_events (s : text_state) (st : style) (t : text) : list event * text_state :=
  let out := shown (sv st Lwhite_space) s t in (chars st out, after_text s out).

Section Events.
  Context (one : text_state -> snode -> list event * text_state).
  Fixpoint events_with (s : text_state) (kids : list snode) : list event * text_state :=
    match kids with
    | [] => ([], s)
    | n :: rest => let '(e1, s1) := one s n in let '(e2, s2) := events_with s1 rest in (e1 ++ e2, s2)
    end.
End Events.
(** A node in document order.  An inline element starts without text; what follows it sees its last text if it
    has one.  A block-level element starts and ends a paragraph.  Boxes out of flow are skipped by the text
    around them. *)
Fixpoint node_events (parent : style) (s : text_state) (n : snode) {struct n} : list event * text_state :=
  match n with
  | SOther => ([], s)
  | SText t => shown_events s parent t
  | SElem br st kids =>
      let inside k := Open k st :: fst (events_with (node_events st) None kids) ++ [Close] in
      if br then shown_events s st [nl] else
      match sv st Ldisplay with
      | DispNone => ([], s)
      | DispContents => events_with (node_events st) s kids
      | DispBox OInline _ =>
          let '(e, s') := events_with (node_events st) None kids in
          (Open KInline st :: e ++ [Close], match s' with Some x => Some x | None => s end)
      | DispBox OBlock i =>
          if is_absolutely_positioned (sv st Lposition) then (inside KAbsolute, s)
          else if is_floating (sv st Lfloat) then (inside KFloat, s)
          else (inside match i with IFlow => KBlock | IFlowRoot => KIndependent end, None)
      end
  end.
Definition document_events (st : style) (kids : list snode) : list event :=
  fst (events_with (node_events st) None kids).

(* ------------------------------------------------------------------ *)
(** * What a box tree renders as *)

(** The rendering of a box tree.  [st] is the style of the element whose container it is.  An anonymous box does
    not show; it is allowed only around inline content, with the style that inherits from [st].  Inline
    formatting contexts and text runs are not empty. *)
Inductive box_events : style -> blb -> list event -> Prop :=
| Be_anon st l e : l <> [] -> inlines_events l e ->
    box_events st (SameFC (anonymous_inheriting_from (Some st)) (InlineFC st l)) e
| Be_block st st' c e : container_events st' c e -> box_events st (SameFC st' c) (Open KBlock st' :: e ++ [Close])
| Be_indep st st' fl c e : container_events st' c e ->
    box_events st (Indep st' (BFC fl c)) (Open KIndependent st' :: e ++ [Close])
| Be_abspos st st' fl c e : container_events st' c e ->
    box_events st (BAbspos st' (BFC fl c)) (Open KAbsolute st' :: e ++ [Close])
| Be_float st st' fl c e : container_events st' c e ->
    box_events st (BFloat st' (BFC fl c)) (Open KFloat st' :: e ++ [Close])
with boxes_events : style -> list blb -> list event -> Prop :=
| Bse_nil st : boxes_events st [] []
| Bse_cons st b l e1 e2 : box_events st b e1 -> boxes_events st l e2 -> boxes_events st (b :: l) (e1 ++ e2)
with container_events : style -> bcontainer -> list event -> Prop :=
| Ce_blocks st l e : boxes_events st l e -> container_events st (BlockLevelBoxes l) e
| Ce_inlines st l e : l <> [] -> inlines_events l e -> container_events st (InlineFC st l) e
with inline_events : ilb bfc -> list event -> Prop :=
| Ie_box st l e : inlines_events l e -> inline_events (InlineBox st true true l) (Open KInline st :: e ++ [Close])
| Ie_text st t : t <> [] -> inline_events (TextRun st t st) (chars st t)
| Ie_abspos st fl c e : container_events st c e -> inline_events (IAbspos st (BFC fl c)) (Open KAbsolute st :: e ++ [Close])
| Ie_float st fl c e : container_events st c e -> inline_events (IFloat st (BFC fl c)) (Open KFloat st :: e ++ [Close])
with inlines_events : list (ilb bfc) -> list event -> Prop :=
| Ise_nil : inlines_events [] []
| Ise_cons x l e1 e2 : inline_events x e1 -> inlines_events l e2 -> inlines_events (x :: l) (e1 ++ e2).

(* ------------------------------------------------------------------ *)
(** * Documents that can be laid out *)

(** What the implementation supports: no text under pre-line or break-spaces, no inline-block, no block-level
    element inside an inline element, and no display:none element that is the last child of its parent.
    [inl] says whether the node is inside an inline element of the same container. *)
Definition white_space_supported (st : style) : Prop :=
  match sv st Lwhite_space with WSPreLine | WSBreakSpaces => False | _ => True end.
Section Supported.
  Context (one : bool -> snode -> Prop).
  Fixpoint supported_with (kids : list snode) : Prop :=
    match kids with
    | [] => True
    | n :: rest => one (match rest with [] => false | _ => true end) n /\ supported_with rest
    end.
End Supported.
Fixpoint supported (parent : style) (inl : bool) (has_next : bool) (n : snode) {struct n} : Prop :=
  match n with
  | SOther => True
  | SText _ => white_space_supported parent
  | SElem br st kids =>
      let inside inl := supported_with (supported st inl) kids in
      if br then white_space_supported st else
      match sv st Ldisplay with
      | DispNone => has_next = true
      | DispContents => inside inl
      | DispBox OInline IFlow => inside true
      | DispBox OInline IFlowRoot => False
      | DispBox OBlock _ =>
          if is_absolutely_positioned (sv st Lposition) || is_floating (sv st Lfloat) then inside false
          else inl = false /\ inside false
      end
  end.
Definition supported_contents (st : style) (kids : list snode) : Prop := supported_with (supported st false) kids.

(* ------------------------------------------------------------------ *)
(** * Floats in a block formatting context *)

(** A float occurs in the contents, outside nested formatting contexts. *)
Fixpoint inline_has_float (x : ilb bfc) : bool :=
  match x with
  | InlineBox _ _ _ l => existsb inline_has_float l
  | TextRun _ _ _ | IAbspos _ _ => false
  | IFloat _ _ => true
  end.
Fixpoint box_has_float (b : blb) : bool :=
  match b with SameFC _ c => container_has_float c | BFloat _ _ => true | BAbspos _ _ | Indep _ _ => false end
with container_has_float (c : bcontainer) : bool :=
  match c with BlockLevelBoxes l => existsb box_has_float l | InlineFC _ l => existsb inline_has_float l end.

(** [P] holds of every block formatting context of a box tree. *)
Definition contexts_inline (Q : bfc -> Prop) : ilb bfc -> Prop :=
  fix go (x : ilb bfc) : Prop :=
    match x with
    | InlineBox _ _ _ l => fold_right (fun x R => go x /\ R) True l
    | TextRun _ _ _ => True
    | IAbspos _ c | IFloat _ c => Q c
    end.
Fixpoint contexts_box (P : bfc -> Prop) (b : blb) : Prop :=
  match b with
  | SameFC _ c => contexts_container P c
  | BAbspos _ c | BFloat _ c | Indep _ c => contexts_bfc P c
  end
with contexts_container (P : bfc -> Prop) (c : bcontainer) : Prop :=
  match c with
  | BlockLevelBoxes l => fold_right (fun x R => contexts_box P x /\ R) True l
  | InlineFC _ l => fold_right (fun x R => contexts_inline (contexts_bfc P) x /\ R) True l
  end
with contexts_bfc (P : bfc -> Prop) (c : bfc) : Prop :=
  P c /\ match c with BFC _ c' => contexts_container P c' end.
Definition flag_accurate (c : bfc) : Prop := match c with BFC fl c' => fl = container_has_float c' end.

(* ------------------------------------------------------------------ *)
(** * Predicates on documents *)

(** [G] holds of the style of every element that generates a box. *)
Fixpoint boxes_styled (G : style -> Prop) (n : snode) : Prop :=
  match n with
  | SText _ | SOther => True
  | SElem br st kids =>
      if br then True else
      match sv st Ldisplay with
      | DispNone => True
      | DispContents => fold_right (fun k R => boxes_styled G k /\ R) True kids
      | DispBox _ _ => G st /\ fold_right (fun k R => boxes_styled G k /\ R) True kids
      end
  end.
(** Neither br nor display:contents, outside display:none. *)
Fixpoint no_br_no_contents (n : snode) : Prop :=
  match n with
  | SText _ | SOther => True
  | SElem br st kids =>
      br = false /\
      match sv st Ldisplay with
      | DispNone => True
      | DispContents => False
      | DispBox _ _ => fold_right (fun k R => no_br_no_contents k /\ R) True kids
      end
  end.

(* ------------------------------------------------------------------ *)
(** * Text content *)

(** Text and comments only. *)
Definition only_text (kids : list snode) : Prop :=
  Forall (fun n => match n with SElem _ _ _ => False | _ => True end) kids.
(** The text of a document outside display:none, as it is written. *)
Fixpoint text_content (n : snode) : text :=
  match n with
  | SText t => t
  | SOther => []
  | SElem br st kids => match sv st Ldisplay with DispNone => [] | _ => flat_map text_content kids end
  end.
Definition written (kids : list snode) : text := flat_map text_content kids.
Definition collapses (st : style) : Prop := sv st Lwhite_space = WSNormal \/ sv st Lwhite_space = WSNowrap.
(** Inline elements only (display:none and display:contents are allowed), all with collapsing white space. *)
Fixpoint inline_only (n : snode) : Prop :=
  match n with
  | SText _ | SOther => True
  | SElem br st kids =>
      br = false /\ match sv st Ldisplay with
                    | DispNone => True
                    | DispContents | DispBox OInline _ => collapses st /\ fold_right (fun k R => inline_only k /\ R) True kids
                    | DispBox OBlock _ => False
                    end
  end.
(** The text of every inline element is empty or starts with something else than white space. *)
Fixpoint no_leading_space (n : snode) : Prop :=
  match n with
  | SText _ | SOther => True
  | SElem br st kids =>
      match sv st Ldisplay with
      | DispNone => True
      | DispContents => fold_right (fun k R => no_leading_space k /\ R) True kids
      | DispBox _ _ => match written kids with c :: _ => ~ is_ws c | [] => True end /\
                       fold_right (fun k R => no_leading_space k /\ R) True kids
      end
  end.
(** The characters of a rendering. *)
Definition rendered_text (e : list event) : text :=
  flat_map (fun x => match x with Char c _ => [c] | _ => [] end) e.

(* ------------------------------------------------------------------ *)
(** * Computed styles *)

(** The style of every element is what the cascade computes for it, for some style sheets and some style
    attribute, from the style of its parent. *)
Fixpoint computed (ct : token -> option color) (parent : option style) (n : snode) : Prop :=
  match n with
  | SText _ | SOther => True
  | SElem _ st kids =>
      (exists (selector : Set) (specificity : selector -> N) (matches : selector -> bool) ua author attr,
         element_style ct specificity matches ua author attr parent st) /\
      fold_right (fun k R => computed ct (Some st) k /\ R) True kids
  end.

(** The rendering of a whole document, given its root element. *)
Definition root_kind (st : style) : kind :=
  if is_absolutely_positioned (sv st Lposition) then KAbsolute
  else if is_floating (sv st Lfloat) then KFloat else KIndependent.
Definition root_events (st : style) (kids : list snode) : list event :=
  match sv st Ldisplay with
  | DispNone => []
  | _ => Open (root_kind st) st :: document_events st kids ++ [Close]
  end.
(** A block-level element: block or flow-root, in flow. *)
Definition block_level_element (st : style) : Prop :=
  (exists i, sv st Ldisplay = DispBox OBlock i) /\ is_absolutely_positioned (sv st Lposition) = false /\ is_floating (sv st Lfloat) = false.
(** [n] is in the document and not inside an element with display:none (nor inside a br, whose contents are
    ignored). *)
Inductive rendered : list snode -> snode -> Prop :=
| Rn_here kids n : In n kids -> rendered kids n
| Rn_below kids st ks n : In (SElem false st ks) kids -> sv st Ldisplay <> DispNone -> rendered ks n -> rendered kids n.
End Any.
