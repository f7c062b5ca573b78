(** Attributes that nobody reads, and style attributes (C89). *)
From Verif Require Import StyleModel StyleSpec StyleExample GeomModel BlockModel TreeModel TreeSpec PropTree PaintModel PaintSpec PropPaint PropText.
From Verif Require Import Base DomModel DomSpec DomFacts DomExample PropDom SelModel SelSpec UnsetModel UaModel UaSpec UaProofs UaDoc PropUa AttrSpec AttrProofs.
From Coq Require Import Relations.
Local Open Scope string_scope.
Local Open Scope list_scope.
Local Open Scope nat_scope.
Local Open Scope result_scope.

(** The styles of two documents that differ in unread attributes. *)
Lemma input_like ct read_sheet attr_items fuel d d' user names : like names d d' -> names "type" -> names "hidden" ->
  (forall sources l, parse_stylesheets fuel d user = Ok sources -> sheets_read l (map read_sheet sources) -> names l) ->
  match document_input ct read_sheet attr_items fuel d user, document_input ct read_sheet attr_items fuel d' user with
  | Ok (so, r), Ok (so', r') => r = r' /\ root_element fuel d = Ok (match r with DT i _ => i end) /\
      forall e p, (forall x y, data_of d e = Some (DElement x) -> data_of d' e = Some (DElement y) -> get_attr x "style" = get_attr y "style") -> so e p = so' e p
  | Panic, Panic => True
  | OutOfFuel, OutOfFuel => True
  | _, _ => False
  end.
Proof.
  intros L T H R. unfold document_input. destruct (ua_style_set ct) as [ua| |] eqn:Eu; cbn [bind]; auto.
  assert (A : author_style_set ct read_sheet fuel d' user = author_style_set ct read_sheet fuel d user).
  { unfold author_style_set. rewrite <- (sources_like names d d' L fuel user T). reflexivity. }
  rewrite A. clear A. unfold author_style_set.
  destruct (parse_stylesheets fuel d user) as [src| |] eqn:Es; cbn [bind]; auto. specialize (R src).
  destruct (add_stylesheets ct selector [] (map read_sheet src)) as [ar| |] eqn:Ea; cbn [bind]; auto.
  rewrite <- (root_like names d d' L fuel). destruct (root_element fuel d) as [r| |] eqn:Er; cbn [bind]; auto.
  rewrite <- (subtree_like names d d' L fuel r). destruct (subtree fuel d r) as [t| |] eqn:Et; cbn [bind]; auto.
  split; [reflexivity|]. split.
  { destruct fuel as [|f]; [discriminate|]. cbn [subtree] in Et. destruct (getn d r) as [n| |]; try discriminate. cbn [bind] in Et.
    destruct (following_siblings _ d (n_first n)) as [l| |]; try discriminate. cbn [bind] in Et.
    destruct (mapR _ l) as [ts| |]; try discriminate. cbn [bind] in Et. injection Et as <-. reflexivity. }
  intros e p Hs. unfold style_or_anonymous. destruct (ua_sheets ct ua Eu) as (ur & Hu & ->).
  rewrite (node_style_like names d d' L ct attr_items fuel _ _ e p); auto.
  - intros s b l Hin Hl. destruct (user_agent_reads l (style_set_reads ct _ _ Hu s b l Hin Hl)) as [->| ->]; assumption.
  - intros s b l Hin Hl. exact (R l eq_refl (style_set_reads ct _ _ Ea s b l Hin Hl)).
Qed.

(** Two documents that differ only in attributes other than style, type and hidden that no selector of their style
    sheets looks at are drawn - or fail - in the same way. *)
Theorem C89_unread_attributes : forall ct read_sheet attr_items fuel d d' user names,
  like names d d' -> names "style" -> names "type" -> names "hidden" ->
  (forall sources l, parse_stylesheets fuel d user = Ok sources -> sheets_read l (map read_sheet sources) -> names l) ->
  forall font_of width_of page_size,
  (do (style_of, root) <- document_input ct read_sheet attr_items fuel d user; Ok (drawing_calls font_of width_of style_of d root page_size)) =
  (do (style_of, root) <- document_input ct read_sheet attr_items fuel d' user; Ok (drawing_calls font_of width_of style_of d' root page_size)).
Proof.
  intros ct rs ai fuel d d' user names L Sy T H R font_of width_of page. pose proof (input_like ct rs ai fuel d d' user names L T H R) as X.
  destruct (document_input ct rs ai fuel d user) as [[so r]| |], (document_input ct rs ai fuel d' user) as [[so' r']| |]; cbn [bind]; try contradiction; auto.
  destruct X as (<- & _ & X). unfold drawing_calls. rewrite (construct_like names d d' L so so'); [reflexivity|].
  intros e p. apply X. intros x y Hx Hy. apply get_attr_named. unfold data_of in Hx, Hy. pose proof (like_nth names d d' L e) as N.
  destruct (nth_error (nodes d) e) as [n|]; [|discriminate]. destruct (nth_error (nodes d') e) as [m|]; [|discriminate].
  cbn in Hx, Hy. injection Hx as Hx. injection Hy as Hy. destruct N as (_ & _ & _ & _ & _ & N). rewrite Hx, Hy in N. apply N. exact Sy.
Qed.
Print Assumptions C89_unread_attributes.

(** The style attribute of an element has an effect on the styles of this element and those below it only, as long as
    no selector looks at style attributes: every other node has the same style whatever the attribute says. *)
Theorem C89_style_attribute_is_local : forall ct read_sheet attr_items fuel d d' user sources n style_of style_of' root root',
  restyled n d d' ->
  document_input ct read_sheet attr_items fuel d user = Ok (style_of, root) ->
  document_input ct read_sheet attr_items fuel d' user = Ok (style_of', root') ->
  parse_stylesheets fuel d user = Ok sources -> ~ sheets_read "style" (map read_sheet sources) ->
  root = root' /\
  forall r e st, root_element fuel d = Ok r -> e <> n -> ~ below d n e ->
    (has_style style_of d r e st <-> has_style style_of' d' r e st).
Proof.
  intros ct rs ai fuel d d' user sources n so so' root root' [L C] E E' Es N.
  pose proof (input_like ct rs ai fuel d d' user (fun l => l <> "style") L ltac:(discriminate) ltac:(discriminate)) as X.
  rewrite E, E' in X. destruct X as (<- & _ & X).
  { intros src l Hp Hr ->. apply N. congruence. }
  split; [reflexivity|]. intros r e st Er He Hb.
  assert (S : forall e p, e <> n -> so e p = so' e p).
  { intros a p Ha. apply X. intros x y Hx Hy. unfold data_of in Hx, Hy. rewrite (C a Ha) in Hy. congruence. }
  split; intros H.
  - induction H as [|p e st Hp IH Hk].
    + rewrite (S r None He). constructor.
    + rewrite (S e (Some st) He). apply (Hs_kid so' d' r p e st); [|exact (kid_like _ d d' L p e Hk)]. apply IH.
      * intros ->. apply Hb. apply t_step. exact Hk.
      * intros B. apply Hb. eapply t_trans; [exact B|]. apply t_step. exact Hk.
  - induction H as [|p e st Hp IH Hk].
    + rewrite <- (S r None He). constructor.
    + assert (Hk' : kid d p e) by exact (kid_like _ d' d (like_sym _ _ _ L) p e Hk).
      rewrite <- (S e (Some st) He). apply (Hs_kid so d r p e st); [|exact Hk']. apply IH.
      * intros ->. apply Hb. apply t_step. exact Hk'.
      * intros B. apply Hb. eapply t_trans; [exact B|]. apply t_step. exact Hk'.
Qed.
Print Assumptions C89_style_attribute_is_local.

(* ------------------------------------------------------------------ *)
(** * Examples *)

(** <html><p title=.. style=..>hi</p><div class="c">yo</div><p>bye</p></html> with a sheet whose selectors look at class only *)
Definition attr_ops (p : list attr) : list op :=
  [ OCreateElement (html_name "html") []; OAppend 1 (CNode 2);
    OCreateElement (html_name "p") p; OAppend 2 (CNode 3); OAppend 3 (CText (txt "hi"));
    OCreateElement (html_name "div") [Attr (QName "" "class") "c"]; OAppend 2 (CNode 5); OAppend 5 (CText (txt "yo"));
    OCreateElement (html_name "p") []; OAppend 2 (CNode 7); OAppend 7 (CText (txt "bye")) ].
Definition attr_doc (p : list attr) : doc := match DomModel.run doc_new (attr_ops p) with Ok d => d | _ => doc_new end.
Definition class_sheet (t : text) : list (rule selector) :=
  [RStyle [Selector [SLocal "p" "p"] [(CLaterSibling, [SClass "c"])]] [dcl "font-weight" [TIdent "bold"]]].
Definition hide_items (v : string) : list item := if String.eqb v "none" then [dcl "display" [TIdent "none"]] else [].
Definition attr_texts (p : list attr) : result (list string) :=
  do (style_of, root) <- document_input ex_ct class_sheet hide_items 20 (attr_doc p) (Some (txt ".c~p{font-weight:bold}"));
  Ok (flat_map text_of (fst (drawing_calls ex_font_of ex_width style_of (attr_doc p) root ex_page))).
Definition titled : list attr := [Attr (QName "" "title") "a title"].
Definition hidden_by_style : list attr := [Attr (QName "" "style") "none"].
Lemma class_sheet_reads sources l : sheets_read l (map class_sheet sources) -> l = "class".
Proof.
  intros (sels & items & s & H & Hs & Hl). apply in_concat in H as (rs & H1 & H2). apply in_map_iff in H1 as (t & <- & _).
  destruct H2 as [H2|[]]. injection H2 as <- _. destruct Hs as [<-|[]].
  destruct Hl as [(x & [<-|[]] & Hl)|(k & c & x & [E|[]] & Hx & Hl)]; [destruct Hl|]. injection E as _ <-. destruct Hx as [<-|[]]. exact Hl.
Qed.
Ltac like_tac := split; [|vm_compute; reflexivity]; vm_compute nodes;
  repeat (apply Forall2_cons; [unfold like_node, like_data; cbn [n_parent n_next n_prev n_first n_last n_data]; repeat split; auto; intros l Hl|]); try apply Forall2_nil.
Example C89_unread_case : like (fun l => l <> "title") (attr_doc []) (attr_doc titled) /\ attr_doc [] <> attr_doc titled /\
  (forall sources l, parse_stylesheets 20 (attr_doc []) (Some (txt ".c~p{font-weight:bold}")) = Ok sources ->
     sheets_read l (map class_sheet sources) -> l <> "title") /\
  attr_texts [] = Ok ["hi"; "yo"; "bye"].
Proof.
  split.
  { like_tac. unfold attributes_named. cbn [filter titled e_attrs a_name q_local]. destruct (String.eqb "title" l) eqn:E; [|reflexivity]. apply String.eqb_eq in E. congruence. }
  split; [intros E; apply (f_equal (fun d => nth_error (nodes d) 3)) in E; vm_compute in E; discriminate|].
  split; [|vm_compute; reflexivity]. intros sources l _ H. rewrite (class_sheet_reads _ _ H). discriminate.
Qed.
(** The paragraph gets hidden by its style attribute; the style of the division after it is the same. *)
Example C89_style_case : restyled 3 (attr_doc []) (attr_doc hidden_by_style) /\
  (forall sources, ~ sheets_read "style" (map class_sheet sources)) /\
  attr_texts [] = Ok ["hi"; "yo"; "bye"] /\ attr_texts hidden_by_style = Ok ["yo"; "bye"].
Proof.
  split.
  { split.
    - like_tac. unfold attributes_named. cbn [filter hidden_by_style e_attrs a_name q_local]. destruct (String.eqb "style" l) eqn:E; [|reflexivity]. apply String.eqb_eq in E. congruence.
    - intros i Hi. destruct i as [|[|[|[|[|[|[|[|[|i]]]]]]]]]; try reflexivity. contradiction. }
  split; [intros sources H; pose proof (class_sheet_reads _ _ H); discriminate|]. split; vm_compute; reflexivity.
Qed.

(** Without that condition it is not local: with the rule [style]~div { display: none } the style attribute of the
    paragraph hides the division after it. *)
Definition style_sheet (t : text) : list (rule selector) :=
  [RStyle [Selector [SLocal "div" "div"] [(CLaterSibling, [SAttr (Some "") "style" (fun _ => true)])]] [dcl "display" [TIdent "none"]]].
Example C89_style_condition_needed : restyled 3 (attr_doc []) (attr_doc [Attr (QName "" "style") ""]) /\
  forall p, p = [] \/ p = [Attr (QName "" "style") ""] ->
  (do (style_of, root) <- document_input ex_ct style_sheet hide_items 20 (attr_doc p) (Some (txt "[style]~div{display:none}"));
   Ok (flat_map text_of (fst (drawing_calls ex_font_of ex_width style_of (attr_doc p) root ex_page)))) =
  Ok (match p with [] => ["hi"; "yo"; "bye"] | _ => ["hi"; "bye"] end).
Proof.
  split.
  { split.
    - like_tac. unfold attributes_named. cbn [filter e_attrs a_name q_local]. destruct (String.eqb "style" l) eqn:E; [|reflexivity]. apply String.eqb_eq in E. congruence.
    - intros i Hi. destruct i as [|[|[|[|[|[|[|[|[|i]]]]]]]]]; try reflexivity. contradiction. }
  intros p [->| ->]; vm_compute; reflexivity.
Qed.
