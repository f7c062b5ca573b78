(** Model of the user agent style sheet, /repo/src/sinab/src/style/user_agent.css, and of the way a whole document
    gets its styles: Document::parse_stylesheets, StyleSetBuilder, style_for_element on the nodes of a document.
    Definitions only. *)
From Verif Require Import StyleModel Base DomModel DomSpec SelModel UnsetModel.
Local Open Scope string_scope.
Local Open Scope list_scope.
Local Open Scope result_scope.

(* ------------------------------------------------------------------ *)
(** * Specificity *)

(** external: specificity of the crate `selectors` 0.22 (builder.rs): three counters of 10 bits in a u32.
    [:not(...)] counts what it contains; a namespace counts nothing. *)
Definition add3 (a b : N * N * N) : N * N * N :=
  let '(i, c, t) := a in let '(i', c', t') := b in (i + i', c + c', t + t')%N.
Fixpoint simple_count (s : simple) : N * N * N :=
  match s with
  | SLocal _ _ => (0, 0, 1)%N
  | SNamespace _ => (0, 0, 0)%N
  | SId _ => (1, 0, 0)%N
  | SNot l => (fix all l := match l with [] => (0, 0, 0)%N | s :: r => add3 (simple_count s) (all r) end) l
  | _ => (0, 1, 0)%N
  end.
Definition compound_count (l : list simple) : N * N * N := fold_right (fun s n => add3 (simple_count s) n) (0, 0, 0)%N l.
Definition specificity (s : selector) : N :=
  let '(i, c, t) := add3 (compound_count (s_subject s))
                         (fold_right (fun x n => add3 (compound_count (snd x)) n) (0, 0, 0)%N (s_rest s)) in
  (N.min i 1023 * 1048576 + N.min c 1023 * 1024 + N.min t 1023)%N.

(* ------------------------------------------------------------------ *)
(** * user_agent.css *)

(** How the crate's selector parser reads the selectors of the sheet.  RulesParser ignores the @namespace rule
    (AtRuleParser is not implemented, rules.rs:46-51), so there is no default namespace and a type selector is just
    a local name; an attribute selector without prefix is about attributes without namespace. *)
Definition tag (n : string) : selector := Selector [SLocal n n] [].
Definition has_attribute (n : string) : simple := SAttr (Some "") n (fun _ => true).
Definition attribute_is_i (n v : string) : simple := SAttr (Some "") n (fun w => eq_ignore_ascii_case w v).
Definition dcl (n : string) (v : list token) : item := IDecl n (TColon :: v).

(** user_agent.css:3-32, as cssparser tokenises it *)
Definition user_agent : list (rule selector) :=
  [ (* 3 @namespace *)  RErr;
    (* 5-8 *)
    RStyle (Selector [has_attribute "hidden"] [] ::
            map tag ["area"; "base"; "basefont"; "datalist"; "head"; "link"; "meta"; "noembed";
                     "noframes"; "param"; "rp"; "script"; "source"; "style"; "template"; "track"; "title"])
           [dcl "display" [TIdent "none"]];
    (* 10 *)
    RStyle [Selector [SLocal "embed" "embed"; has_attribute "hidden"] []]
           [dcl "display" [TIdent "inline"]; dcl "height" [TNumber l0]; dcl "width" [TNumber l0]];
    (* 12 *)
    RStyle [Selector [SLocal "input" "input"; attribute_is_i "type" "hidden"] []]
           [dcl "display" [TIdent "none"; TDelim "!"; TIdent "important"]];
    (* 14 *) RStyle (map tag ["html"; "body"]) [dcl "display" [TIdent "block"]];
    (* 16 *) RStyle [tag "body"] [dcl "margin" [TDim l0 "px"]];
    (* 18 *) RStyle [tag "em"] [dcl "font-style" [TIdent "italic"]];
    (* 19 *) RStyle [tag "strong"] [dcl "font-weight" [TIdent "bold"]];
    (* 21-24 *)
    RStyle (map tag ["address"; "blockquote"; "center"; "dialog"; "div"; "figure"; "figcaption"; "footer"; "form";
                     "header"; "hr"; "legend"; "listing"; "main"; "p"; "plaintext"; "pre"; "xmp"])
           [dcl "display" [TIdent "block"]];
    (* 26 *) RStyle [tag "br"] [dcl "white-space" [TIdent "pre"; TDelim "!"; TIdent "important"]];
    (* 28 *) RStyle [tag "sub"] [dcl "vertical-align" [TIdent "sub"]; dcl "font-size" [TDim (px (8#10)) "em"]];
    (* 29 *) RStyle [tag "sup"] [dcl "vertical-align" [TIdent "super"]; dcl "font-size" [TDim (px (8#10)) "em"]];
    (* 31 *) RStyle [tag "pre"] [dcl "white-space" [TIdent "pre"]];
    (* 32 *) RStyle [tag "code"] [dcl "font-family" [TIdent "monospace"]] ].

(* ------------------------------------------------------------------ *)
(** * Styles of the nodes of a document *)
Section Document.
(** external: cssparser's colours, its tokeniser with the crate's selector parser for whole sheets, and its tokeniser
    for style attributes *)
Variable color_token : token -> option color.
Variable sheet_rules : text -> list (rule selector).
Variable attr_items : string -> list item.

(** USER_AGENT_STYLESHEET, cascade.rs:16-22 *)
Definition ua_style_set : result (list (selector * block)) :=
  do r <- add_stylesheet color_token selector [] user_agent; Ok (finish selector specificity r).
(** Document::parse_stylesheets, dom/mod.rs:48-66 *)
Definition author_style_set (fuel : nat) (d : doc) (user_css : option text) : result (list (selector * block)) :=
  do sources <- parse_stylesheets fuel d user_css;
  do r <- add_stylesheets color_token selector [] (map sheet_rules sources);
  Ok (finish selector specificity r).
(** StyleSet::push_matching, cascade.rs:58-69, on a document: matching can panic (SelModel.v) *)
Fixpoint push_matching_in (fuel : nat) (d : doc) (e : node_id) (rules : list (selector * block)) : result (list block) :=
  match rules with
  | [] => Ok []
  | (s, b) :: r =>
      do m <- matches fuel d s e;
      do bs <- push_matching_in fuel d e r;
      Ok (if m then b :: bs else bs)
  end.
(** element.get_attr(style) for an element of the HTML, SVG or MathML namespace, cascade.rs:104-105 *)
Definition svg_ns : string := "http://www.w3.org/2000/svg".
Definition mathml_ns : string := "http://www.w3.org/1998/Math/MathML".
Definition style_attribute (x : elem) : option string :=
  if String.eqb (q_ns (e_name x)) html_ns || String.eqb (q_ns (e_name x)) svg_ns || String.eqb (q_ns (e_name x)) mathml_ns
  then get_attr x "style" else None.
(** style_for_element, cascade.rs:87-114 *)
Definition node_style (fuel : nat) (ua author : list (selector * block)) (d : doc) (e : node_id) (parent : option style) : result style :=
  do n <- getn d e;
  match n_data n with
  | DElement x =>
      do u <- push_matching_in fuel d e ua;
      do a <- push_matching_in fuel d e author;
      match style_attribute x with
      | Some v =>
          do b <- parse_block color_token (attr_items v);
          Ok (style_new parent (Some (Matching u (a ++ [b]))))
      | None => Ok (style_new parent (Some (Matching u a)))
      end
  | _ => Ok (style_new parent None)
  end.

(** The subtree of a node as a tree; [fuel] bounds its height. *)
(** No function of the code: the nodes visited by traverse_children_of, dom_traversal.rs *)
Fixpoint subtree (fuel : nat) (d : doc) (i : node_id) : result dtree :=
  match fuel with
  | O => OutOfFuel
  | S f =>
      do n <- getn d i;
      do l <- following_siblings (length (nodes d)) d (n_first n);
      do ts <- mapR (subtree f d) l;
      Ok (DT i ts)
  end.

(** The style used for a node.  SIMPLIFICATION: where style_for_element panics this is an anonymous box's style; every
    theorem about it excludes that case. *)
(** style_for_element as called from dom_traversal.rs *)
Definition style_or_anonymous (fuel : nat) (ua author : list (selector * block)) (d : doc) (e : node_id) (parent : option style) : style :=
  match node_style fuel ua author d e parent with Ok s => s | _ => anonymous_inheriting_from parent end.
(** Everything BoxTreeRoot::construct starts from, root.rs:16-24: the styles and the tree below the root element *)
Definition document_input (fuel : nat) (d : doc) (user_css : option text) : result ((node_id -> option style -> style) * dtree) :=
  do ua <- ua_style_set;
  do author <- author_style_set fuel d user_css;
  do r <- root_element fuel d;
  do t <- subtree fuel d r;
  Ok (style_or_anonymous fuel ua author d, t).
End Document.
