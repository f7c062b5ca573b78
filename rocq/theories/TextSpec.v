(** Specification of the text of a page, independent of layout and painting. *)
From Verif Require Import StyleSpec TreeModel TreeSpec InlineSpec PageSpec.
From Verif Require Import GfxModel PaintModel.

Section Any.
Context {ar : Arith}.

(* ------------------------------------------------------------------ *)
(** * The text of a document *)

Definition floating_element (st : style) : bool :=
  match sv st Ldisplay with
  | DispBox OBlock _ => negb (is_absolutely_positioned (sv st Lposition)) && is_floating (sv st Lfloat)
  | _ => false
  end.
(** The text of a document as it is written, outside display:none and outside floats.  The contents of br are
    ignored. *)
Fixpoint unfloated_text (n : snode) : text :=
  match n with
  | SText t => t
  | SOther => []
  | SElem br st kids =>
      if br then [] else
      match sv st Ldisplay with
      | DispNone => []
      | _ => if floating_element st then [] else flat_map unfloated_text kids
      end
  end.
Definition document_text (st : style) (kids : list snode) : text :=
  match sv st Ldisplay with
  | DispNone => []
  | _ => if negb (is_absolutely_positioned (sv st Lposition)) && is_floating (sv st Lfloat) then []
         else flat_map unfloated_text kids
  end.
(** No absolutely positioned element (outside display:none). *)
Fixpoint nothing_absolute (n : snode) : Prop :=
  match n with
  | SText _ | SOther => True
  | SElem br st kids =>
      br = true \/
      match sv st Ldisplay with
      | DispNone => True
      | DispContents => fold_right (fun k R => nothing_absolute k /\ R) True kids
      | DispBox _ _ => is_absolutely_positioned (sv st Lposition) = false /\
                       fold_right (fun k R => nothing_absolute k /\ R) True kids
      end
  end.
(** No floating element (outside display:none). *)
Fixpoint nothing_floats (n : snode) : Prop :=
  match n with
  | SText _ | SOther => True
  | SElem br st kids =>
      br = true \/
      match sv st Ldisplay with
      | DispNone => True
      | _ => floating_element st = false /\ fold_right (fun k R => nothing_floats k /\ R) True kids
      end
  end.

(** The characters that leave ink: neither white space nor hyphen. *)
Definition leaves_ink (c : char) : bool := if ws_dec c then false else negb (c =? hyphen)%N.
Definition ink (t : text) : text := filter leaves_ink t.

(** The characters of a rendering outside floats, in document order; [k] counts the open boxes from the outermost
    float on. *)
Fixpoint outside_floats (k : nat) (es : list TreeSpec.event) : text :=
  match es with
  | [] => []
  | Char c _ :: es' => match k with O => c :: outside_floats k es' | _ => outside_floats k es' end
  | Open KFloat _ :: es' => outside_floats (S k) es'
  | Open _ _ :: es' => outside_floats (match k with O => O | _ => S k end) es'
  | Close :: es' => outside_floats (pred k) es'
  end.

(* ------------------------------------------------------------------ *)
(** * The text of a page *)

(** The texts of a fragment, in tree order. *)
Fixpoint frag_texts (f : fragment) : list text :=
  match f with
  | FBox _ ch _ _ _ _ _ | FAnon _ ch => flat_map frag_texts ch
  | FText _ _ _ sg => [seg_glyphs sg]
  end.
Definition page_texts (fs : list fragment) : list text := flat_map frag_texts fs.

(** The text of a box tree outside floats, in painting order: the contents of an absolutely positioned box come
    last in the box that is its containing block.  First the text painted in place, then that of the absolutely
    positioned boxes whose containing block is further out. *)
Definition in_order (l : list (text * text)) : text * text := (flat_map fst l, flat_map snd l).
Definition together (p : text * text) : text := fst p ++ snd p.
Definition inline_painted (Q : bfc -> text * text) : ilb bfc -> text * text :=
  fix go (x : ilb bfc) : text * text :=
    match x with
    | InlineBox _ _ _ l => in_order (map go l)
    | TextRun _ t _ => (t, [])
    | IAbspos _ c => ([], together (Q c))
    | IFloat _ _ => ([], [])
    end.
Fixpoint box_painted (b : blb) : text * text :=
  match b with
  | SameFC st c => if positioned st then (together (container_painted c), []) else container_painted c
  | Indep st c => if positioned st then (together (bfc_painted c), []) else bfc_painted c
  | BAbspos _ c => ([], together (bfc_painted c))
  | BFloat _ _ => ([], [])
  end
with container_painted (c : bcontainer) : text * text :=
  match c with
  | BlockLevelBoxes l => in_order (map box_painted l)
  | InlineFC _ l => in_order (map (inline_painted bfc_painted) l)
  end
with bfc_painted (c : bfc) : text * text := match c with BFC _ c' => container_painted c' end.
End Any.
