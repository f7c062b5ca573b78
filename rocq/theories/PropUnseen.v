(** What is not displayed does not matter (C106). *)
From Verif Require Import StyleModel StyleSpec StyleExample GeomModel BlockModel TreeModel TreeSpec PropTree PaintModel PaintSpec PropPaint PropText.
From Verif Require Import Base DomModel DomSpec DomExample UnsetModel UaModel UnseenSpec.
Local Open Scope string_scope.
Local Open Scope list_scope.
Local Open Scope nat_scope.

Section Any.
Context {ar : Len.Arith}.
Lemma not_displayed_does_nothing n ps b : not_displayed n -> handle_node ps n true b = Done b.
Proof. destruct n as [t| |[|] st k]; cbn [not_displayed]; intros H; try contradiction. cbn [handle_node]. rewrite H. reflexivity. Qed.
Lemma unseen_traverse l l' : differ_in_unseen l l' -> forall ps b, traverse_with (handle_node ps) l b = traverse_with (handle_node ps) l' b.
Proof.
  induction 1 as [|t l l' _ IH|st k k' l l' _ IH|st k k' l l' D _ IHk _ IH|l l' _ IH|l l' _ IH|n l l' N L _ IH|n l l' N L _ IH|n n' N N']; intros ps b.
  - reflexivity.
  - cbn [traverse_with handle_node]. destruct (handle_text t ps b); cbn [obind]; auto.
  - cbn [traverse_with handle_node]. destruct (handle_text [nl] st b); cbn [obind]; auto.
  - cbn [traverse_with].
    assert (E : forall h h' x, handle_node ps (SElem false st k) h x = handle_node ps (SElem false st k') h' x).
    { intros h h' x. cbn [handle_node]. destruct (sv st Ldisplay) as [| |]; [congruence| |]; rewrite !IHk; reflexivity. }
    rewrite (E _ (match l' with [] => false | _ => true end) b). destruct (handle_node ps (SElem false st k') _ b); cbn [obind]; auto.
  - cbn [traverse_with handle_node obind]. apply IH.
  - cbn [traverse_with handle_node obind]. apply IH.
  - destruct l as [|m l]; [contradiction|]. rewrite <- IH. cbn [traverse_with]. rewrite (not_displayed_does_nothing n ps b N). reflexivity.
  - destruct l' as [|m l']; [contradiction|]. rewrite IH. cbn [traverse_with]. rewrite (not_displayed_does_nothing n ps b N). reflexivity.
  - destruct n as [t| |[|] st k]; cbn [not_displayed] in N; try contradiction. destruct n' as [t'| |[|] st' k']; cbn [not_displayed] in N'; try contradiction.
    cbn [traverse_with handle_node]. rewrite N, N'. reflexivity.
Qed.
End Any.

(** Two documents whose trees differ only in what is not displayed are drawn - or fail - in the same way, in any
    arithmetic. *)
Theorem C106_unseen {ar : Len.Arith} : forall font_of width_of style_of style_of' d d' i ts i' ts' page_size,
  style_of i None = style_of' i' None ->
  differ_in_unseen (map (styled style_of d (style_of i None)) ts) (map (styled style_of' d' (style_of i None)) ts') ->
  drawing_calls font_of width_of style_of d (DT i ts) page_size = drawing_calls font_of width_of style_of' d' (DT i' ts') page_size.
Proof.
  intros font_of width_of so so' d d' i ts i' ts' page E H. unfold drawing_calls, construct_document. rewrite <- E.
  unfold construct_root, construct_bfc, construct_container, traverse. rewrite (unseen_traverse _ _ H). reflexivity.
Qed.
Print Assumptions C106_unseen.
(** If the root is not displayed, nothing else counts. *)
Theorem C106_unseen_root {ar : Len.Arith} : forall font_of width_of style_of style_of' d d' i ts i' ts' page_size,
  sv (style_of i None) Ldisplay = DispNone -> sv (style_of' i' None) Ldisplay = DispNone ->
  drawing_calls font_of width_of style_of d (DT i ts) page_size = drawing_calls font_of width_of style_of' d' (DT i' ts') page_size.
Proof.
  intros font_of width_of so so' d d' i ts i' ts' page H H'. unfold drawing_calls, construct_document, construct_root. rewrite H, H'. reflexivity.
Qed.
Print Assumptions C106_unseen_root.

(* ------------------------------------------------------------------ *)
(** * Examples *)

(** <html>one<div><p>..</p></div><!-- --><p>two<span>..</span></p></html>, where <div> is not displayed, and the same
    without <div> and the comment, numbered differently. *)
Definition shown_ops : list op :=
  [ OCreateElement (html_name "html") []; OAppend 1 (CNode 2); OAppend 2 (CText (txt "one"));
    OCreateElement (html_name "div") []; OAppend 2 (CNode 4);
    OCreateElement (html_name "p") []; OAppend 4 (CNode 5); OAppend 5 (CText (txt "unseen"));
    OCreateComment; OAppend 2 (CNode 7);
    OCreateElement (html_name "p") []; OAppend 2 (CNode 8); OAppend 8 (CText (txt "two")) ].
Definition bare_ops : list op :=
  [ OCreateElement (html_name "html") []; OAppend 1 (CNode 2); OAppend 2 (CText (txt "one"));
    OCreateElement (html_name "p") []; OAppend 2 (CNode 4); OAppend 4 (CText (txt "two")) ].
Definition made (ops : list op) : doc := match DomModel.run doc_new ops with Ok d => d | _ => doc_new end.
Definition shown_kids : list dtree := [DT 3 []; DT 4 [DT 5 [DT 6 []]]; DT 7 []; DT 8 [DT 9 []]].
Definition bare_kids : list dtree := [DT 3 []; DT 4 [DT 5 []]].
Definition shown_style (i : node_id) (parent : option style) : style :=
  if (i =? 4)%nat then css parent [prop "display" "none"] else css parent [prop "display" "block"].
Definition bare_style (i : node_id) (parent : option style) : style := css parent [prop "display" "block"].
Example C106_case :
  subtree 20 (made shown_ops) 2 = Ok (DT 2 shown_kids) /\ subtree 20 (made bare_ops) 2 = Ok (DT 2 bare_kids) /\
  shown_style 2 None = bare_style 2 None /\
  differ_in_unseen (map (styled shown_style (made shown_ops) (shown_style 2 None)) shown_kids)
    (map (styled bare_style (made bare_ops) (shown_style 2 None)) bare_kids) /\
  flat_map text_of (fst (drawing_calls ex_font_of ex_width shown_style (made shown_ops) (DT 2 shown_kids) ex_page)) = ["one"; "two"].
Proof.
  split; [vm_compute; reflexivity|]. split; [vm_compute; reflexivity|]. split; [reflexivity|]. split; [|vm_compute; reflexivity].
  assert (R : shown_style 2 None = css None [prop "display" "block"]) by reflexivity. rewrite R. clear R.
  set (d := made shown_ops). set (d' := made bare_ops). unfold shown_kids, bare_kids. cbn [map styled].
  assert (A3 : data_of d 3 = Some (DText (txt "one"))) by (vm_compute; reflexivity).
  assert (A4 : data_of d 4 = Some (DElement (Elem (html_name "div") []))) by (vm_compute; reflexivity).
  assert (A7 : data_of d 7 = Some DComment) by (vm_compute; reflexivity).
  assert (A8 : data_of d 8 = Some (DElement (Elem (html_name "p") []))) by (vm_compute; reflexivity).
  assert (A9 : data_of d 9 = Some (DText (txt "two"))) by (vm_compute; reflexivity).
  assert (B3 : data_of d' 3 = Some (DText (txt "one"))) by (vm_compute; reflexivity).
  assert (B4 : data_of d' 4 = Some (DElement (Elem (html_name "p") []))) by (vm_compute; reflexivity).
  assert (B5 : data_of d' 5 = Some (DText (txt "two"))) by (vm_compute; reflexivity).
  rewrite A3, A4, A7, A8, A9, B3, B4, B5. cbn iota beta. apply Du_text.
  apply Du_hidden_before; [vm_compute; reflexivity|discriminate|]. apply Du_comment_before.
  apply Du_element; [vm_compute; discriminate| |apply Du_nil]. apply Du_text. apply Du_nil.
Qed.
(** An element that is not displayed and the last of its parent may not come: it makes the rendering hang (C43). *)
Example C106_condition_needed :
  snd (drawing_calls ex_font_of ex_width shown_style (made shown_ops) (DT 2 [DT 3 []]) ex_page) = Finished /\
  snd (drawing_calls ex_font_of ex_width shown_style (made shown_ops) (DT 2 [DT 3 []; DT 4 []]) ex_page) = Killed.
Proof. split; vm_compute; reflexivity. Qed.
