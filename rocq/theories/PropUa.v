(** Properties C71-C73: default styles, and unstyled documents from the document tree to the drawing. *)
From Coq Require Import Permutation.
From Verif Require Import StyleModel StyleSpec StyleFacts StyleExample PropStyle.
From Verif Require Import TreeModel TreeSpec TextSpec PropTree CStrModel GfxModel GfxSpec PaintModel PaintSpec PropText.
From Verif Require Import Base DomModel DomSpec DomFacts DomExample SelModel SelSpec UnsetModel UaModel UaSpec UaProofs UaDoc.
Local Open Scope string_scope.
Local Open Scope list_scope.
Local Open Scope nat_scope.

(** A document and its style sheets: [sources] are the texts of the user's sheet and of the <style> elements (C08);
    [read_sheet] and [attr_items] stand for the tokeniser and selector parser; [style_of] and [root] are what the
    program computes. *)
Definition styled_document (ct : token -> option color) (read_sheet : text -> list (rule selector)) (attr_items : string -> list item)
    (fuel : nat) (d : doc) (user : option text) (sources : list text) (style_of : node_id -> option style -> style) (root : dtree) : Prop :=
  reach d /\ List.length (nodes d) <= fuel /\ parse_stylesheets fuel d user = Ok sources /\
  good_sheets ct (map read_sheet sources) /\ good_attributes ct attr_items d /\
  document_input ct read_sheet attr_items fuel d user = Ok (style_of, root).

(* ------------------------------------------------------------------ *)
(** * C73: the styles of a whole document *)

(** If all selectors and declarations can be read, the styles and the tree of a document are computed, whatever the
    document.  The tree is that below the root element. *)
Theorem C73_styles_and_tree_exist : forall ct read_sheet attr_items fuel d user sources l r, reach d ->
  List.length (nodes d) <= fuel -> parse_stylesheets fuel d user = Ok sources ->
  good_sheets ct (map read_sheet sources) -> good_attributes ct attr_items d ->
  kids d document_node_id l ->
  (forall i, In i l -> exists dt, data_of d i = Some dt /\ match dt with DText _ | DDocument => False | _ => True end) ->
  In r l -> (forall i, In i l -> ((exists x, data_of d i = Some (DElement x)) <-> i = r)) ->
  exists style_of root, document_input ct read_sheet attr_items fuel d user = Ok (style_of, root) /\ arena_tree d r root.
Proof. exact (fun ct rs ai fuel d user sources l r H1 H2 H3 H4 H5 => document_input_ok ct rs ai fuel d user l r sources H1 H2 H3 H4 H5). Qed.
Print Assumptions C73_styles_and_tree_exist.
(** Every element's style is the cascade (C09, C10) of the user agent's sheet, the document's sheets and its style
    attribute, where a rule applies iff its selector holds of the element. *)
Theorem C73_styles : forall ct read_sheet attr_items fuel d user sources style_of root,
  styled_document ct read_sheet attr_items fuel d user sources style_of root ->
  forall e x parent, node_of d e -> data_of d e = Some (DElement x) ->
  exists applies : selector -> bool,
    (forall s, SelSpec.supported (s_subject s) (s_rest s) -> (applies s = true <-> selector_holds d (s_subject s) (s_rest s) e)) /\
    element_style ct specificity applies [user_agent] (map read_sheet sources) (option_map attr_items (inline_style x)) parent
      (style_of e parent).
Proof.
  intros ct rs ai fuel d user sources style_of root (Hd & Hf & Hp & G & GA & H) e x parent He Hx.
  exists (matchb fuel d e). split.
  - intros s Hs. destruct (PropSel.C21_selectors d fuel Hd Hf s e He (ex_intro _ x Hx) Hs) as (m & Em & Hm). unfold matchb. rewrite Em. exact Hm.
  - exact (proj2 (document_input_styles ct rs ai _ _ _ _ _ _ Hd Hf Hp G GA H) e x parent He Hx).
Qed.
Print Assumptions C73_styles.

(* ------------------------------------------------------------------ *)
(** * C71: default styles *)

(** What the author leaves alone has the default of the table (UaSpec.element_default) and otherwise is inherited or
    initial.  MISSING: the table lacks defaults of the HTML standard (C71_refuted). *)
Theorem C71_defaults_partial : forall ct read_sheet attr_items fuel d user sources style_of root,
  styled_document ct read_sheet attr_items fuel d user sources style_of root ->
  forall e x parent l, node_of d e -> data_of d e = Some (DElement x) ->
  not_authored ct d (map read_sheet sources) (option_map attr_items (inline_style x)) e l ->
  let s := style_of e parent in
  (forall dc, element_default x l = Some dc -> decl_longhand dc = l /\
     sv s (decl_longhand dc) = adjusted s (decl_longhand dc) (decl_value (parent_or_initial parent) (sv s Lfont_size) dc)) /\
  (element_default x l = None -> sv s l = adjusted s l (default_value (parent_or_initial parent) l)).
Proof.
  intros ct rs ai fuel d user sources style_of root (Hd & Hf & Hp & G & GA & H) e x parent l He Hx N s.
  pose proof (proj2 (document_input_styles ct rs ai _ _ _ _ _ _ Hd Hf Hp G GA H) e x parent He Hx) as S.
  assert (G' : forall sels items, In (RStyle sels items) (concat (map rs sources)) -> Forall (fun s => SelSpec.supported (s_subject s) (s_rest s)) sels)
    by (intros sels items Hr; apply (G sels items Hr)).
  exact (default_style ct fuel d e x _ _ parent _ Hd Hf He Hx G' S l N).
Qed.
Print Assumptions C71_defaults_partial.
(** The display of an element the author says nothing about. *)
Theorem C71_display_partial : forall ct read_sheet attr_items fuel d user sources style_of root,
  styled_document ct read_sheet attr_items fuel d user sources style_of root ->
  unstyled ct attr_items d (map read_sheet sources) [Ldisplay; Lposition; Lfloat; Lwhite_space] ->
  forall e x parent, node_of d e -> data_of d e = Some (DElement x) -> sv (style_of e parent) Ldisplay = default_display x.
Proof.
  intros ct rs ai fuel d user sources style_of root (Hd & Hf & Hp & G & GA & H) U e x parent He Hx.
  exact (proj1 (proj2 (proj2 (default_box ct rs ai fuel d user sources style_of root Hd Hf Hp G GA H U e x parent He Hx)))).
Qed.
Print Assumptions C71_display_partial.
(** FINDING: headings, lists, sections and the other blocks of the HTML standard are not blocks. *)
Theorem C71_refuted : forall ct read_sheet attr_items fuel d user sources style_of root,
  styled_document ct read_sheet attr_items fuel d user sources style_of root ->
  unstyled ct attr_items d (map read_sheet sources) [Ldisplay; Lposition; Lfloat; Lwhite_space] ->
  forall e x parent, node_of d e -> data_of d e = Some (DElement x) -> In (name_of x) other_html_blocks -> marked_hidden x = false ->
  sv (style_of e parent) Ldisplay = DispBox OInline IFlow.
Proof.
  intros ct rs ai fuel d user sources style_of root S U e x parent He Hx Hb Hh.
  rewrite (C71_display_partial _ _ _ _ _ _ _ _ _ S U e x parent He Hx). unfold default_display. rewrite Hh.
  assert (B : forallb (fun n => negb (String.eqb n "input") && negb (one_of never_shown n) && negb (one_of blocks n)) other_html_blocks = true)
    by (vm_compute; reflexivity).
  rewrite forallb_forall in B. specialize (B _ Hb). apply andb_true_iff in B as [B B3]. apply andb_true_iff in B as [B1 B2].
  unfold hidden_field. apply negb_true_iff in B1, B2, B3. rewrite B1, B2, B3. reflexivity.
Qed.
Print Assumptions C71_refuted.
(** No style sheet and no style attribute can make a <br> collapse, or show an <input type=hidden>. *)
Theorem C71_line_breaks : forall ct read_sheet attr_items fuel d user sources style_of root,
  styled_document ct read_sheet attr_items fuel d user sources style_of root ->
  forall e x parent, node_of d e -> data_of d e = Some (DElement x) -> name_of x = "br" ->
  sv (style_of e parent) Lwhite_space = WSPre.
Proof.
  intros ct rs ai fuel d user sources style_of root (Hd & Hf & Hp & G & GA & H) e x parent He Hx Hn.
  pose proof (proj2 (document_input_styles ct rs ai _ _ _ _ _ _ Hd Hf Hp G GA H) e x parent He Hx) as S.
  exact (fixed_style ct fuel d e x _ _ parent _ _ _ Hd Hf He Hx S ltac:(rewrite Hn; apply br_fixed)).
Qed.
Print Assumptions C71_line_breaks.
Theorem C71_hidden_fields : forall ct read_sheet attr_items fuel d user sources style_of root,
  styled_document ct read_sheet attr_items fuel d user sources style_of root ->
  forall e x parent, node_of d e -> data_of d e = Some (DElement x) -> hidden_field x = true ->
  sv (style_of e parent) Ldisplay = DispNone.
Proof.
  intros ct rs ai fuel d user sources style_of root (Hd & Hf & Hp & G & GA & H) e x parent He Hx Hh.
  pose proof (proj2 (document_input_styles ct rs ai _ _ _ _ _ _ Hd Hf Hp G GA H) e x parent He Hx) as S.
  unfold hidden_field in Hh. apply andb_true_iff in Hh as [Hn Ht]. apply String.eqb_eq in Hn.
  assert (F : ua_fixed ct (name_of x) (marked_hidden x) (type_hidden x) Ldisplay (DVal Ldisplay DispNone))
    by (rewrite Hn; unfold type_hidden; rewrite Ht; apply hidden_field_fixed).
  pose proof (fixed_style ct fuel d e x _ _ parent _ _ _ Hd Hf He Hx S F) as Q. cbn [decl_longhand] in Q. rewrite Q. cbn [adjusted].
  destruct (out_of_flow_dec _); reflexivity.
Qed.
Print Assumptions C71_hidden_fields.

(* ------------------------------------------------------------------ *)
(** * C72: which unstyled documents are rendered *)

(** Full statement: every document without styles of its own is rendered.  It is, exactly if no block stands right
    inside an inline element and no hidden element is the last node of a shown element.
    MISSING: the other documents, among them loose lists (C72_refuted). *)
Theorem C72_exactly_partial : forall ct read_sheet attr_items fuel d user sources style_of root r,
  styled_document ct read_sheet attr_items fuel d user sources style_of root ->
  unstyled ct attr_items d (map read_sheet sources) [Ldisplay; Lposition; Lfloat; Lwhite_space] ->
  root_element fuel d = Ok r -> shown_by_default d r ->
  (exists b, construct_document style_of d root = TreeModel.Done b) <-> renderable_by_default d r.
Proof.
  intros ct rs ai fuel d user sources style_of root r (Hd & Hf & Hp & G & GA & H) U Er Sr.
  destruct (document_input_root ct rs ai fuel d user style_of root Hd Hf H) as (r' & Er' & Nr & Ha).
  assert (r' = r) as -> by congruence.
  exact (default_exactly ct rs ai fuel d user sources style_of root Hd Hf Hp G GA H U r Ha Nr Sr).
Qed.
Print Assumptions C72_exactly_partial.

(** An unstyled document: its styles, boxes and text. *)
Lemma unstyled_document : forall ct read_sheet attr_items fuel d user sources style_of root r,
  styled_document ct read_sheet attr_items fuel d user sources style_of root ->
  unstyled ct attr_items d (map read_sheet sources) [Ldisplay; Lposition; Lfloat; Lwhite_space] ->
  root_element fuel d = Ok r -> shown_by_default d r -> renderable_by_default d r ->
  styles_computed ct style_of /\ (exists b, construct_document style_of d root = TreeModel.Done b) /\
  is_absolutely_positioned (sv (root_style style_of root) Lposition) = false /\
  Forall nothing_absolute (root_kids style_of d root) /\
  document_text (root_style style_of root) (root_kids style_of d root) = default_text d root.
Proof.
  intros ct rs ai fuel d user sources style_of root r S U Er Sr R. pose proof S as (Hd & Hf & Hp & G & GA & H).
  destruct (proj2 (C72_exactly_partial _ _ _ _ _ _ _ _ _ _ S U Er Sr) R) as [b Eb].
  destruct (document_input_root ct rs ai fuel d user style_of root Hd Hf H) as (r' & Er' & Nr & Ha).
  assert (r' = r) as -> by congruence. clear Er'.
  pose proof (proj1 (document_input_styles ct rs ai _ _ _ _ _ _ Hd Hf Hp G GA H)) as C.
  split; [exact C|]. split; [exists b; exact Eb|].
  destruct Sr as (x & Hx & Hn & Ds).
  destruct (default_box ct rs ai fuel d user sources style_of root Hd Hf Hp G GA H U r x None Nr Hx) as (P1 & P2 & P3 & _).
  inversion Ha as [r' l ts Hl F]; subst r' root.
  assert (K : forall t, In t ts -> forall st, unfloated_text (styled style_of d st t) = default_text d t /\ nothing_absolute (styled style_of d st t)).
  { intros t Ht st. destruct (forall2_in_r _ _ _ F t Ht) as (k & Hk & Hkt).
    refine (default_unfloated ct rs ai fuel d user sources style_of (DT r ts) Hd Hf Hp G GA H U t k Hkt _ st).
    eapply kid_node; [exact Hd|exact Hf|]. exists l. split; [exact Hl|exact Hk]. }
  split. { cbn [root_style]. rewrite P1. reflexivity. }
  split. { cbn [root_kids]. apply Forall_forall. intros n Hin. apply in_map_iff in Hin as (t & <- & Ht). apply (K t Ht). }
  unfold document_text. cbn [root_style root_kids]. rewrite P3, P1, P2.
  cbn [default_text]. rewrite Hx. rewrite (proj2 (String.eqb_neq _ _) Hn).
  assert (T : flat_map unfloated_text (map (styled style_of d (style_of r None)) ts) = flat_map (default_text d) ts).
  { clear - K. induction ts as [|t ts IH]; [reflexivity|]. cbn [map flat_map]. rewrite (proj1 (K t (or_introl eq_refl) _)).
    rewrite IH; [reflexivity|]. intros t' Ht'. apply K. right. exact Ht'. }
  destruct (default_display x); [contradiction|exact T..].
Qed.
(** All the visible text of such a document is drawn, in document order.
    MISSING: hyphens at the end of a line (C35_hyphen_lost_refuted) and the documents above. *)
Theorem C73_unstyled_text_partial : forall font_of width_of page_size ct read_sheet attr_items fuel d user sources style_of root r,
  styled_document ct read_sheet attr_items fuel d user sources style_of root ->
  unstyled ct attr_items d (map read_sheet sources) [Ldisplay; Lposition; Lfloat; Lwhite_space] ->
  root_element fuel d = Ok r -> shown_by_default d r -> renderable_by_default d r ->
  exists pieces, flat_map text_of (fst (drawing_calls font_of width_of style_of d root page_size)) = map label_of pieces /\
    ink (concat pieces) = ink (default_text d root).
Proof.
  intros font_of width_of page ct rs ai fuel d user sources style_of root r S U Er Sr R.
  destruct (unstyled_document _ _ _ _ _ _ _ _ _ _ S U Er Sr R) as (C & (b & Eb) & P & A & T).
  rewrite <- T. exact (C65_in_order_partial font_of width_of ct style_of d root page b C Eb P A).
Qed.
Print Assumptions C73_unstyled_text_partial.

(* ------------------------------------------------------------------ *)
(** * Examples *)

(** Documents as html5ever builds them from Markdown:
    "Hello *big* world"  and  "- a" with a blank line after it and "- b" (a loose list). *)
Definition head_body : list op :=
  [ OCreateElement (html_name "html") []; OAppend 1 (CNode 2); OCreateElement (html_name "head") []; OAppend 2 (CNode 3);
    OCreateElement (html_name "body") []; OAppend 2 (CNode 4) ].
Definition paragraph_ops : list op := head_body ++
  [ OCreateElement (html_name "p") []; OAppend 4 (CNode 5); OAppend 5 (CText (txt "Hello "));
    OCreateElement (html_name "em") []; OAppend 5 (CNode 7); OAppend 7 (CText (txt "big")); OAppend 5 (CText (txt " world")) ].
Definition paragraph_doc : doc := match DomModel.run doc_new paragraph_ops with Ok d => d | _ => doc_new end.
Definition loose_list_ops : list op := head_body ++
  [ OCreateElement (html_name "ul") []; OAppend 4 (CNode 5);
    OCreateElement (html_name "li") []; OAppend 5 (CNode 6); OCreateElement (html_name "p") []; OAppend 6 (CNode 7); OAppend 7 (CText (txt "a"));
    OCreateElement (html_name "li") []; OAppend 5 (CNode 9); OCreateElement (html_name "p") []; OAppend 9 (CNode 10); OAppend 10 (CText (txt "b")) ].
Definition loose_list_doc : doc := match DomModel.run doc_new loose_list_ops with Ok d => d | _ => doc_new end.
Definition no_items (_ : string) : list item := [].
Definition no_rules (_ : text) : list (rule selector) := [].
Definition is_ok {A} (r : result A) : bool := match r with Ok _ => true | _ => false end.

Lemma bare_document d fuel : reach d -> List.length (nodes d) <= fuel -> parse_stylesheets fuel d None = Ok [] ->
  is_ok (document_input ex_ct no_rules no_items fuel d None) = true ->
  exists style_of root, styled_document ex_ct no_rules no_items fuel d None [] style_of root /\
    unstyled ex_ct no_items d (map no_rules []) [Ldisplay; Lposition; Lfloat; Lwhite_space].
Proof.
  intros Hd Hf Hp Ho. destruct (document_input ex_ct no_rules no_items fuel d None) as [[style_of root]| |] eqn:E; try discriminate.
  exists style_of, root. split.
  - split; [exact Hd|]. split; [exact Hf|]. split; [exact Hp|]. split; [intros sels items []|]. split; [|exact E].
    intros e x v i _ _ [].
  - intros e x l _ _. split; [intros s items dc i []|]. intros items dc i Hi Hin. destruct (inline_style x); [|discriminate].
    cbn in Hi. injection Hi as <-. destruct Hin.
Qed.
Lemma paragraph_reach : reach paragraph_doc.
Proof. apply (okrun_reach paragraph_ops doc_new); [apply reach_new|vm_compute; reflexivity|vm_compute; reflexivity]. Qed.
Lemma loose_list_reach : reach loose_list_doc.
Proof. apply (okrun_reach loose_list_ops doc_new); [apply reach_new|vm_compute; reflexivity|vm_compute; reflexivity]. Qed.
Lemma loose_list_styled : exists style_of root, styled_document ex_ct no_rules no_items 20 loose_list_doc None [] style_of root /\
    unstyled ex_ct no_items loose_list_doc (map no_rules []) [Ldisplay; Lposition; Lfloat; Lwhite_space].
Proof. apply bare_document; [exact loose_list_reach|vm_compute; lia|vm_compute; reflexivity|vm_compute; reflexivity]. Qed.
Lemma paragraph_styled : exists style_of root, styled_document ex_ct no_rules no_items 20 paragraph_doc None [] style_of root /\
    unstyled ex_ct no_items paragraph_doc (map no_rules []) [Ldisplay; Lposition; Lfloat; Lwhite_space].
Proof. apply bare_document; [exact paragraph_reach|vm_compute; lia|vm_compute; reflexivity|vm_compute; reflexivity]. Qed.
Lemma kid_of d p k n l : nth_error (nodes d) p = Some n -> following_siblings (List.length (nodes d)) d (n_first n) = Ok l -> In k l -> kid d p k.
Proof. intros Hn Hl Hk. exists l. split; [exists n; split; [exact Hn|exact (following_chain _ _ _ _ Hl)]|exact Hk]. Qed.
Ltac kid_tac := eapply kid_of; [vm_compute; reflexivity|vm_compute; reflexivity|cbn; tauto].
Ltac by_default_tac := eexists; split; [vm_compute; reflexivity|]; split; [vm_compute; discriminate|vm_compute; try reflexivity; try discriminate].

(** FINDING: a loose Markdown list is never rendered. *)
Theorem C72_refuted : exists ct read_sheet attr_items style_of root,
  styled_document ct read_sheet attr_items 20 loose_list_doc None [] style_of root /\
  unstyled ct attr_items loose_list_doc [] [Ldisplay; Lposition; Lfloat; Lwhite_space] /\
  default_text loose_list_doc root = txt "ab" /\
  forall b, construct_document style_of loose_list_doc root <> TreeModel.Done b.
Proof.
  destruct loose_list_styled as (style_of & root & S & U). exists ex_ct, no_rules, no_items, style_of, root.
  split; [exact S|]. split; [exact U|]. pose proof S as (Hd & Hf & Hp & G & GA & H).
  split.
  - assert (T : match document_input ex_ct no_rules no_items 20 loose_list_doc None with Ok (_, t) => default_text loose_list_doc t | _ => [] end = txt "ab")
      by (vm_compute; reflexivity).
    rewrite H in T. exact T.
  - intros b E.
    assert (Er : root_element 20 loose_list_doc = Ok 2) by (vm_compute; reflexivity).
    assert (Sr : shown_by_default loose_list_doc 2) by by_default_tac.
    destruct (proj1 (C72_exactly_partial _ _ _ _ _ _ _ _ _ 2 S U Er Sr) (ex_intro _ b E)) as [R _].
    apply (R 6 7); [|by_default_tac|kid_tac|by_default_tac].
    apply Su_below with (k := 4); [kid_tac|by_default_tac|]. apply Su_below with (k := 5); [kid_tac|by_default_tac|]. constructor. kid_tac.
Qed.
Print Assumptions C72_refuted.

(** The hypotheses of C71, C72 and C73 are met by the paragraph. *)
Example C72_case : exists style_of root, styled_document ex_ct no_rules no_items 20 paragraph_doc None [] style_of root /\
  unstyled ex_ct no_items paragraph_doc [] [Ldisplay; Lposition; Lfloat; Lwhite_space] /\
  root_element 20 paragraph_doc = Ok 2 /\ shown_by_default paragraph_doc 2 /\ renderable_by_default paragraph_doc 2 /\
  default_text paragraph_doc root = txt "Hello big world".
Proof.
  destruct paragraph_styled as (style_of & root & S & U). exists style_of, root.
  split; [exact S|]. split; [exact U|]. pose proof S as (Hd & Hf & Hp & G & GA & H).
  assert (Er : root_element 20 paragraph_doc = Ok 2) by (vm_compute; reflexivity).
  assert (Sr : shown_by_default paragraph_doc 2) by by_default_tac.
  split; [exact Er|]. split; [exact Sr|]. split.
  - apply (proj1 (C72_exactly_partial _ _ _ _ _ _ _ _ _ 2 S U Er Sr)).
    assert (T : match document_input ex_ct no_rules no_items 20 paragraph_doc None with
       | Ok (so, t) => match construct_document so paragraph_doc t with TreeModel.Done _ => true | _ => false end | _ => false end = true)
      by (vm_compute; reflexivity).
    rewrite H in T. destruct (construct_document style_of paragraph_doc root) as [b| |]; [exists b; reflexivity|discriminate..].
  - assert (T : match document_input ex_ct no_rules no_items 20 paragraph_doc None with Ok (_, t) => default_text paragraph_doc t | _ => [] end = txt "Hello big world")
      by (vm_compute; reflexivity).
    rewrite H in T. exact T.
Qed.
(** The emphasised word is in italics. *)
Definition em_elem : elem := match data_of paragraph_doc 7 with Some (DElement x) => x | _ => Elem (html_name "") [] end.
Example C71_case : exists style_of root, styled_document ex_ct no_rules no_items 20 paragraph_doc None [] style_of root /\
  node_of paragraph_doc 7 /\ data_of paragraph_doc 7 = Some (DElement em_elem) /\
  not_authored ex_ct paragraph_doc [] (option_map no_items (inline_style em_elem)) 7 Lfont_style /\
  element_default em_elem Lfont_style = Some (DVal Lfont_style FSItalic).
Proof.
  destruct paragraph_styled as (style_of & root & S & U). exists style_of, root.
  split; [exact S|]. split; [split; vm_compute; lia|]. split; [vm_compute; reflexivity|]. split; [|vm_compute; reflexivity].
  assert (E : inline_style em_elem = None) by (vm_compute; reflexivity). rewrite E.
  split; [intros s items dc i []|]. intros items dc i Hi Hin. discriminate.
Qed.
