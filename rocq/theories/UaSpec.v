(** Default styles of HTML elements, written as a table, independent of the style sheet and of the cascade. *)
From Verif Require Import StyleModel StyleSpec GfxModel Base DomModel DomSpec SelModel SelSpec UaModel.
Local Open Scope string_scope.
Local Open Scope list_scope.

(** An attribute without namespace. *)
Definition attribute (x : elem) (n : string) (ok : string -> bool) : bool :=
  existsb (fun a => String.eqb (q_local (a_name a)) n && String.eqb (q_ns (a_name a)) "" && ok (a_value a)) (e_attrs x).
Definition name_of (x : elem) : string := q_local (e_name x).
(** The element carries the attribute `hidden`; the element is <input type=hidden>. *)
Definition marked_hidden (x : elem) : bool := attribute x "hidden" (fun _ => true).
Definition hidden_field (x : elem) : bool :=
  String.eqb (name_of x) "input" && attribute x "type" (fun v => eq_ignore_ascii_case v "hidden").
Definition one_of (l : list string) (n : string) : bool := existsb (String.eqb n) l.

(** Elements that are not displayed, and elements that are blocks. *)
Definition never_shown : list string :=
  ["area"; "base"; "basefont"; "datalist"; "head"; "link"; "meta"; "noembed"; "noframes"; "param"; "rp"; "script";
   "source"; "style"; "template"; "track"; "title"].
Definition blocks : list string :=
  ["html"; "body"; "address"; "blockquote"; "center"; "dialog"; "div"; "figure"; "figcaption"; "footer"; "form";
   "header"; "hr"; "legend"; "listing"; "main"; "p"; "plaintext"; "pre"; "xmp"].
(** Elements the HTML standard (section 15.3, "Non-replaced elements") makes blocks too. *)
Definition other_html_blocks : list string :=
  ["article"; "aside"; "h1"; "h2"; "h3"; "h4"; "h5"; "h6"; "hgroup"; "nav"; "section";
   "dir"; "dd"; "dl"; "dt"; "menu"; "ol"; "ul"; "details"; "summary"; "fieldset"; "optgroup"; "option"].

Definition disp (v : display) : decl := DVal Ldisplay v.
(** The default of a property for an element: [None] means that there is none, so that the property is inherited or
    has its initial value. *)
Definition html_default (name : string) (hidden hidden_field : bool) (l : longhand) : option decl :=
  match l with
  | Ldisplay =>
      if hidden_field then Some (disp DispNone)
      else if hidden then Some (disp (if String.eqb name "embed" then DispBox OInline IFlow else DispNone))
      else if one_of never_shown name then Some (disp DispNone)
      else if one_of blocks name then Some (disp (DispBox OBlock IFlow))
      else None
  | Lwidth => if String.eqb name "embed" && hidden then Some (DVal Lwidth (LPALen (SAbs l0))) else None
  | Lheight => if String.eqb name "embed" && hidden then Some (DVal Lheight (LPALen (SAbs l0))) else None
  | Lmargin_top => if String.eqb name "body" then Some (DVal Lmargin_top (LPALen (SAbs l0))) else None
  | Lmargin_right => if String.eqb name "body" then Some (DVal Lmargin_right (LPALen (SAbs l0))) else None
  | Lmargin_bottom => if String.eqb name "body" then Some (DVal Lmargin_bottom (LPALen (SAbs l0))) else None
  | Lmargin_left => if String.eqb name "body" then Some (DVal Lmargin_left (LPALen (SAbs l0))) else None
  | Lfont_style => if String.eqb name "em" then Some (DVal Lfont_style FSItalic) else None
  | Lfont_weight => if String.eqb name "strong" then Some (DVal Lfont_weight FWBold) else None
  | Lfont_family => if String.eqb name "code" then Some (DVal Lfont_family FamMono) else None
  | Lwhite_space => if String.eqb name "br" || String.eqb name "pre" then Some (DVal Lwhite_space WSPre) else None
  | Lvertical_align =>
      if String.eqb name "sub" then Some (DVal Lvertical_align VASub)
      else if String.eqb name "sup" then Some (DVal Lvertical_align VASuper) else None
  | Lfont_size =>
      if String.eqb name "sub" || String.eqb name "sup" then Some (DVal Lfont_size (SEm (px (8#10)))) else None
  | _ => None
  end.
Definition element_default (x : elem) : longhand -> option decl := html_default (name_of x) (marked_hidden x) (hidden_field x).

(** The text of the style attribute - named "style", in no namespace; the first, should there be several - of an
    element of HTML, SVG or MathML. *)
Definition inline_style (x : elem) : option string :=
  if one_of ["http://www.w3.org/1999/xhtml"; "http://www.w3.org/2000/svg"; "http://www.w3.org/1998/Math/MathML"] (q_ns (e_name x))
  then hd_error (map a_value (filter (fun a => String.eqb (q_local (a_name a)) "style" && String.eqb (q_ns (a_name a)) "") (e_attrs x)))
  else None.
(** No style sheet of the author and no style attribute says anything about property [l] of element [e]. *)
Definition not_authored (ct : token -> option color) (d : doc) (sheets : list (list (rule selector))) (attr : option (list item))
    (e : node_id) (l : longhand) : Prop :=
  (forall s items dc i, In (s, items) (rules_of sheets) -> selector_holds d (s_subject s) (s_rest s) e ->
     In (dc, i) (declared ct items) -> decl_longhand dc <> l) /\
  (forall items dc i, attr = Some items -> In (dc, i) (declared ct items) -> decl_longhand dc <> l).

(** The sheets use no selector the program cannot match, and no declaration it cannot read (C17, C21). *)
Definition good_sheets (ct : token -> option color) (sheets : list (list (rule selector))) : Prop :=
  forall sels items, In (RStyle sels items) (concat sheets) ->
    Forall (fun s => supported (s_subject s) (s_rest s)) sels /\ forall i, In i items -> ~ leftover ct i.

(** No style attribute has a declaration the program cannot read. *)
Definition good_attributes (ct : token -> option color) (attr_items : string -> list item) (d : doc) : Prop :=
  forall e x v i, data_of d e = Some (DElement x) -> inline_style x = Some v -> In i (attr_items v) -> ~ leftover ct i.

(** The author leaves the properties in [ls] alone everywhere. *)
Definition unstyled (ct : token -> option color) (attr_items : string -> list item) (d : doc)
    (sheets : list (list (rule selector))) (ls : list longhand) : Prop :=
  forall e x l, data_of d e = Some (DElement x) -> In l ls ->
    not_authored ct d sheets (option_map attr_items (inline_style x)) e l.

(** The display of an element the author says nothing about. *)
Definition default_display (x : elem) : display :=
  if hidden_field x then DispNone
  else if marked_hidden x then (if String.eqb (name_of x) "embed" then DispBox OInline IFlow else DispNone)
  else if one_of never_shown (name_of x) then DispNone
  else if one_of blocks (name_of x) then DispBox OBlock IFlow
  else DispBox OInline IFlow.
(** A line break does not count as an element here: it has no contents and cannot be hidden. *)
Definition by_default (d : doc) (e : node_id) (P : display -> Prop) : Prop :=
  exists x, data_of d e = Some (DElement x) /\ name_of x <> "br" /\ P (default_display x).
Definition shown_by_default (d : doc) (e : node_id) : Prop := by_default d e (fun v => v <> DispNone).
Definition hidden_by_default (d : doc) (e : node_id) : Prop := by_default d e (fun v => v = DispNone).
Definition block_by_default (d : doc) (e : node_id) : Prop := by_default d e (fun v => v = DispBox OBlock IFlow).
Definition inline_by_default (d : doc) (e : node_id) : Prop := by_default d e (fun v => v = DispBox OInline IFlow).
(** [e] is below [r], and every element on the way from [r] to [e] (both excluded) is shown by default. *)
Inductive shown_under (d : doc) : node_id -> node_id -> Prop :=
| Su_kid r e : kid d r e -> shown_under d r e
| Su_below r k e : kid d r k -> shown_by_default d k -> shown_under d k e -> shown_under d r e.
(** No block stands right inside an inline element below the root, and no hidden element is the last node inside a
    shown one. *)
Definition renderable_by_default (d : doc) (r : node_id) : Prop :=
  (forall e k, shown_under d r e -> inline_by_default d e -> kid d e k -> ~ block_by_default d k) /\
  (forall e l k, e = r \/ shown_under d r e -> shown_by_default d e -> kids d e (l ++ [k]) -> ~ hidden_by_default d k).

(** The text of the elements shown by default, in document order.  <br> has no text. *)
Fixpoint default_text (d : doc) (t : dtree) : text :=
  match t with
  | DT i ts =>
      match data_of d i with
      | Some (DText u) => u
      | Some (DElement x) =>
          if String.eqb (name_of x) "br" then [] else
          match default_display x with DispNone => [] | _ => flat_map (default_text d) ts end
      | _ => []
      end
  end.
