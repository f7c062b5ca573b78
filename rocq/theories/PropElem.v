(** Element names that nobody looks at (C105). *)
From Verif Require Import StyleModel StyleSpec StyleExample GeomModel BlockModel TreeModel TreeSpec PropTree PaintModel PaintSpec PropPaint PropText.
From Verif Require Import Base DomModel DomSpec DomFacts DomExample PropDom SelModel SelSpec UnsetModel UaModel UaSpec UaProofs UaDoc PropUa AttrSpec AttrProofs PropAttr.
From Verif Require Import ElemSpec ElemProofs.
Local Open Scope string_scope.
Local Open Scope list_scope.
Local Open Scope nat_scope.
Local Open Scope result_scope.

Lemma user_agent_names l : sheets_name l [user_agent] -> In l special_elements.
Proof.
  intros (sels & items & s & Hr & Hs & Hl). cbn [concat] in Hr. rewrite app_nil_r in Hr.
  assert (H : forallb (fun r => match r with
     | RStyle sels _ => forallb (fun s => match s_rest s with [] => true | _ => false end && forallb (fun x => match x with
         | SLocal a b => one_of special_elements a && one_of special_elements b | SNot _ => false | _ => true end) (s_subject s)) sels
     | _ => true end)%bool user_agent = true) by (vm_compute; reflexivity).
  rewrite forallb_forall in H. specialize (H _ Hr). cbn beta iota in H. rewrite forallb_forall in H. specialize (H _ Hs).
  apply andb_true_iff in H as [H0 H]. rewrite forallb_forall in H.
  destruct Hl as [(x & Hx & Hl)|(k & c & x & Hk & _)]; [|destruct (s_rest s); [destruct Hk|discriminate]].
  specialize (H x Hx). destruct x; cbn [simple_names] in Hl; try contradiction; [|discriminate].
  apply andb_true_iff in H as [Ha Hb]. unfold one_of in Ha, Hb. apply existsb_exists in Ha as (a & Ia & Ea), Hb as (b & Ib & Eb).
  apply String.eqb_eq in Ea, Eb. destruct Hl as [->| ->]; congruence.
Qed.
Lemma input_renamed ct read_sheet attr_items fuel d d' user names : renamed names d d' ->
  (forall l, sheets_name l [user_agent] -> names l) ->
  (forall sources l, parse_stylesheets fuel d user = Ok sources -> sheets_name l (map read_sheet sources) -> names l) ->
  match document_input ct read_sheet attr_items fuel d user, document_input ct read_sheet attr_items fuel d' user with
  | Ok (so, r), Ok (so', r') => r = r' /\ forall e p, so e p = so' e p
  | Panic, Panic => True
  | OutOfFuel, OutOfFuel => True
  | _, _ => False
  end.
Proof.
  intros L U R. unfold document_input. destruct (ua_style_set ct) as [ua| |] eqn:Eu; cbn [bind]; auto.
  assert (A : author_style_set ct read_sheet fuel d' user = author_style_set ct read_sheet fuel d user).
  { unfold author_style_set. rewrite <- (sources_renamed names d d' L fuel user). reflexivity. }
  rewrite A. clear A. unfold author_style_set.
  destruct (parse_stylesheets fuel d user) as [src| |] eqn:Es; cbn [bind]; auto. specialize (R src).
  destruct (add_stylesheets ct selector [] (map read_sheet src)) as [ar| |] eqn:Ea; cbn [bind]; auto.
  rewrite <- (root_renamed names d d' L fuel). destruct (root_element fuel d) as [r| |] eqn:Er; cbn [bind]; auto.
  rewrite <- (subtree_renamed names d d' L fuel r). destruct (subtree fuel d r) as [t| |] eqn:Et; cbn [bind]; auto.
  split; [reflexivity|].
  intros e p. unfold style_or_anonymous. destruct (ua_sheets ct ua Eu) as (ur & Hu & ->).
  rewrite (node_style_renamed names d d' L ct attr_items fuel _ _ e p); auto.
  - intros s b l Hin Hl. exact (U l (style_set_names ct _ _ Hu s b l Hin Hl)).
  - intros s b l Hin Hl. exact (R l eq_refl (style_set_names ct _ _ Ea s b l Hin Hl)).
Qed.

(** Two documents that differ only in the names of elements, where neither the old nor the new name is one of the
    special ones or mentioned in a selector of their style sheets, are drawn, or fail, in the same way. *)
Theorem C105_unread_names : forall ct read_sheet attr_items fuel d d' user names,
  renamed names d d' ->
  (forall l, In l special_elements -> names l) ->
  (forall sources l, parse_stylesheets fuel d user = Ok sources -> sheets_name l (map read_sheet sources) -> names l) ->
  forall font_of width_of page_size,
  (do (style_of, root) <- document_input ct read_sheet attr_items fuel d user; Ok (drawing_calls font_of width_of style_of d root page_size)) =
  (do (style_of, root) <- document_input ct read_sheet attr_items fuel d' user; Ok (drawing_calls font_of width_of style_of d' root page_size)).
Proof.
  intros ct rs ai fuel d d' user names L U R font_of width_of page.
  pose proof (input_renamed ct rs ai fuel d d' user names L (fun l H => U l (user_agent_names l H)) R) as X.
  assert (B : names "br") by (apply U; vm_compute; tauto).
  destruct (document_input ct rs ai fuel d user) as [[so r]| |], (document_input ct rs ai fuel d' user) as [[so' r']| |]; cbn [bind]; try contradiction; auto.
  destruct X as (<- & X). unfold drawing_calls. rewrite (construct_renamed names d d' L so so' B X). reflexivity.
Qed.
Print Assumptions C105_unread_names.

(** The special elements are indeed special: each of them may be told from a <span> without any style sheet, by its
    name alone or together with one of the attributes hidden and type=hidden. *)
Definition differs (n : string) : Prop :=
  n = "br" \/ exists hidden l, html_default n hidden (String.eqb n "input") l <> html_default "span" hidden false l.
Theorem C105_special : forall n, In n special_elements -> differs n.
Proof.
  intros n H. assert (F : Forall differs special_elements); [|exact (proj1 (Forall_forall _ _) F n H)]. clear n H. unfold special_elements, never_shown, blocks. cbn [app].
  repeat apply Forall_cons; try apply Forall_nil;
    try (left; reflexivity);
    try (right; exists false, Ldisplay; vm_compute; discriminate);
    try (right; exists true, Lwidth; vm_compute; discriminate);
    try (right; exists false, Lfont_style; vm_compute; discriminate);
    try (right; exists false, Lfont_weight; vm_compute; discriminate);
    try (right; exists false, Lfont_family; vm_compute; discriminate);
    try (right; exists false, Lvertical_align; vm_compute; discriminate).
Qed.
Print Assumptions C105_special.

(* ------------------------------------------------------------------ *)
(** * Examples *)

(** <html><A>hi</A><p class="c">yo</p><B>bye</B></html> with a sheet whose selectors name <p> only: headings, items of
    lists and elements that do not exist are all the same. *)
Definition elem_ops (a b : string) : list op :=
  [ OCreateElement (html_name "html") []; OAppend 1 (CNode 2);
    OCreateElement (html_name a) []; OAppend 2 (CNode 3); OAppend 3 (CText (txt "hi"));
    OCreateElement (html_name "p") [Attr (QName "" "class") "c"]; OAppend 2 (CNode 5); OAppend 5 (CText (txt "yo"));
    OCreateElement (html_name b) []; OAppend 2 (CNode 7); OAppend 7 (CText (txt "bye")) ].
Definition elem_doc (a b : string) : doc := match DomModel.run doc_new (elem_ops a b) with Ok d => d | _ => doc_new end.
Definition elem_sheet (t : text) : list (rule selector) :=
  [RStyle [Selector [SLocal "p" "p"] [(CLaterSibling, [SNot [SLocal "P" "p"]])]] [dcl "font-weight" [TIdent "bold"]]].
Definition elem_calls (a b : string) : result (list dcall * PaintModel.ending) :=
  do (style_of, root) <- document_input ex_ct elem_sheet hide_items 20 (elem_doc a b) (Some (txt ":not(P)~p{font-weight:bold}"));
  Ok (drawing_calls ex_font_of ex_width style_of (elem_doc a b) root ex_page).
Definition looked_at (l : string) : Prop := In l ("P" :: special_elements).
Lemma not_looked_at n : one_of ("P" :: special_elements) n = false -> ~ looked_at n.
Proof.
  intros E H. unfold one_of in E. assert (X : existsb (String.eqb n) ("P" :: special_elements) = true); [|congruence].
  apply existsb_exists. exists n. split; [exact H|apply String.eqb_refl].
Qed.
Lemma elem_sheet_names sources l : sheets_name l (map elem_sheet sources) -> looked_at l.
Proof.
  intros (sels & items & s & H & Hs & Hl). apply in_concat in H as (rs & H1 & H2). apply in_map_iff in H1 as (t & <- & _).
  destruct H2 as [H2|[]]. injection H2 as <- _. destruct Hs as [<-|[]]. assert (P : In "p" special_elements) by (vm_compute; tauto).
  destruct Hl as [(x & [<-|[]] & Hl)|(k & c & x & [E|[]] & Hx & Hl)].
  - destruct Hl as [->| ->]; right; exact P.
  - injection E as _ <-. destruct Hx as [<-|[]]. destruct Hl as [[->| ->]|[]]; [left; reflexivity|right; exact P].
Qed.
Example C105_case : renamed looked_at (elem_doc "h1" "li") (elem_doc "span" "b") /\ elem_doc "h1" "li" <> elem_doc "span" "b" /\
  (forall l, In l special_elements -> looked_at l) /\
  (forall sources l, parse_stylesheets 20 (elem_doc "h1" "li") (Some (txt ":not(P)~p{font-weight:bold}")) = Ok sources ->
     sheets_name l (map elem_sheet sources) -> looked_at l) /\
  match elem_calls "h1" "li" with Ok (calls, e) => flat_map text_of calls = ["hi"; "yo"; "bye"] | _ => False end.
Proof.
  split.
  { split; [|vm_compute; reflexivity]. vm_compute nodes.
    repeat apply Forall2_cons; try apply Forall2_nil; (do 5 (split; [reflexivity|])); cbn [renamed_data n_data e_name e_attrs q_ns q_local]; try reflexivity;
      (split; [reflexivity|]); (split; [reflexivity|]); intros l Hl; try tauto;
      split; intros <-; exfalso; revert Hl; apply not_looked_at; vm_compute; reflexivity. }
  split; [intros E; apply (f_equal (fun d => nth_error (nodes d) 3)) in E; vm_compute in E; discriminate|].
  split; [intros l H; right; exact H|]. split; [|vm_compute; reflexivity]. intros sources l _ H. exact (elem_sheet_names _ _ H).
Qed.
(** A special name does make a difference: a division in place of the heading. *)
Example C105_condition_needed : ~ (elem_calls "div" "li" = elem_calls "h1" "li").
Proof. intros E. apply (f_equal (fun r => match r with Ok (c, _) => length c | _ => 0 end)) in E. vm_compute in E. discriminate. Qed.
