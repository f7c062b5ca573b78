(** What is drawn depends on the document tree and the texts of its style sheets only (C86). *)
From Verif Require Import StyleModel StyleSpec StyleExample GeomModel BlockModel TreeModel TreeSpec PropTree PaintModel PaintSpec PropPaint PropText.
From Verif Require Import Base DomModel DomSpec DomFacts DomExample PropDom SelModel SelSpec UnsetModel UaModel UaSpec UaProofs UaDoc PropUa IsoSpec IsoProofs.
Local Open Scope string_scope.
Local Open Scope list_scope.
Local Open Scope nat_scope.

(** Two documents that are the same tree, with the same style sheet texts, are drawn - or fail - in the same way,
    however they were built.
    MISSING: that the style sheet texts are those of the tree (C86_refuted). *)
Theorem C86_same_drawing_partial : forall ct read_sheet attr_items fuel fuel' d d' user user' sources style_of style_of' root root',
  styled_document ct read_sheet attr_items fuel d user sources style_of root ->
  styled_document ct read_sheet attr_items fuel' d' user' sources style_of' root' ->
  same_tree d d' document_node_id document_node_id ->
  forall font_of width_of page_size,
  drawing_calls font_of width_of style_of d root page_size = drawing_calls font_of width_of style_of' d' root' page_size.
Proof.
  intros ct rs ai fuel fuel' d d' user user' sources style_of style_of' root root' S S' HS font_of width_of page.
  destruct S as (Hd & Hf & Hp & G & _ & H), S' as (Hd' & Hf' & Hp' & _ & _ & H').
  destruct (document_input_root ct rs ai fuel d user style_of root Hd Hf H) as (r & Er & Nr & Ar).
  destruct (document_input_root ct rs ai fuel' d' user' style_of' root' Hd' Hf' H') as (r' & Er' & Nr' & Ar').
  assert (Hr : at_same d d' r r').
  { destruct (at_same_kids d d' HS _ _ (As_root d d')) as (l & l' & K & K' & F).
    destruct (proj1 (C07_root_element d r fuel l Hd K Hf) Er) as (_ & R1 & R2).
    destruct (proj1 (C07_root_element d' r' fuel' l' Hd' K' Hf') Er') as (_ & R1' & R2').
    destruct (at_same_in d d' l l' r F R1) as (j & Hj & Hs). destruct (proj2 (R2 r R1) eq_refl) as [x Hx].
    rewrite (at_same_data d d' HS _ _ Hs) in Hx. rewrite (proj1 (R2' j Hj) (ex_intro _ x Hx)) in Hs. exact Hs. }
  assert (St : forall e e' p, at_same d d' e e' -> style_of e p = style_of' e' p).
  { unfold document_input in H, H'.
    destruct (ua_style_set ct) as [ua| |] eqn:Eu; try discriminate. cbn [bind] in H, H'.
    destruct (author_style_set ct rs fuel d user) as [au| |] eqn:Ea; try discriminate. cbn [bind] in H.
    destruct (author_style_set ct rs fuel' d' user') as [au'| |] eqn:Ea'; try discriminate. cbn [bind] in H'.
    rewrite Er in H. rewrite Er' in H'. cbn [bind] in H, H'.
    destruct (subtree fuel d r) as [t| |]; try discriminate. destruct (subtree fuel' d' r') as [t'| |]; try discriminate.
    cbn [bind] in H, H'. injection H as <- _. injection H' as <- _.
    destruct (ua_sheets ct ua Eu) as (ur & Hu & ->).
    destruct (author_sheets ct rs fuel d user au Ea) as (src & ar & Hs & Ha & ->).
    destruct (author_sheets ct rs fuel' d' user' au' Ea') as (src' & ar' & Hs' & Ha' & ->).
    assert (src = sources) as -> by congruence. assert (src' = sources) as -> by congruence. assert (ar' = ar) as -> by congruence.
    intros e e' p He. apply node_style_same; auto.
    - intros s b. exact (rules_supported ct _ _ (user_agent_good ct) Hu s b).
    - intros s b. exact (rules_supported ct _ _ G Ha s b). }
  assert (C : construct_document style_of d root = construct_document style_of' d' root').
  { destruct root as [j ts], root' as [j' ts']. destruct (arena_same d d' Hd Hd' HS _ _ _ _ Hr Ar Ar') as (-> & -> & l & l' & _ & _ & Gk & F & F').
    cbn [construct_document]. rewrite (St r r' None Hr). f_equal. set (st := style_of' r' None). clearbody st. clear Ar Ar' H H'.
    revert ts ts' F F'. induction Gk as [|a b l l' Hs _ IHl]; intros ts ts' F F';
      inversion F as [|? u ? us Hu Fu]; subst; inversion F' as [|? v ? vs Hv Fv]; subst; [reflexivity|].
    cbn [map]. f_equal; [exact (styled_same d d' style_of style_of' Hd Hd' HS St u a b v st Hs Hu Hv)|exact (IHl _ _ Fu Fv)]. }
  unfold drawing_calls. rewrite C. reflexivity.
Qed.
Print Assumptions C86_same_drawing_partial.

(** Then the style sheet texts are those of the tree, too. *)
Theorem C86_same_sources : forall d d' fuel fuel' user, reach d -> reach d' -> List.length (nodes d) <= fuel -> List.length (nodes d') <= fuel' ->
  same_tree d d' document_node_id document_node_id -> in_tree_order d -> in_tree_order d' ->
  parse_stylesheets fuel d user = parse_stylesheets fuel' d' user.
Proof.
  intros d d' fuel fuel' user Hd Hd' Hf Hf' HS (t & At & E) (t' & At' & E').
  destruct (C08_stylesheets d user fuel Hd Hf) as (srcs & -> & F). destruct (C08_stylesheets d' user fuel' Hd' Hf') as (srcs' & -> & F').
  do 2 f_equal. rewrite E in F. rewrite E' in F'. clear E E'.
  pose proof (preorder_same d d' Hd Hd' HS t _ _ t' (As_root d d') At At') as P. clear At At'. revert srcs srcs' F F'.
  induction P as [|a b l l' Hs _ IH]; intros srcs srcs' F F'; cbn [filter] in *; [inversion F; inversion F'; reflexivity|].
  assert (X : style_element d a = style_element d' b) by (unfold style_element; rewrite (at_same_data d d' HS a b Hs); reflexivity).
  rewrite <- X in F'. destruct (style_element d a); [|exact (IH _ _ F F')]. cbn [filter] in *.
  assert (Y : css_type d a = css_type d' b) by (unfold css_type; rewrite (at_same_data d d' HS a b Hs); reflexivity).
  rewrite <- Y in F'. destruct (css_type d a); [|exact (IH _ _ F F')].
  inversion F as [|? u ? us Hu Fu]; subst. inversion F' as [|? v ? vs Hv Fv]; subst. f_equal; [|exact (IH _ _ Fu Fv)].
  destruct Hu as (k & K & ->), Hv as (k' & K' & ->). destruct (at_same_kids d d' HS a b Hs) as (m & m' & M & M' & Fm).
  rewrite (kids_fun _ _ _ _ M K) in Fm. rewrite (kids_fun _ _ _ _ M' K') in Fm. clear - Fm HS Hd Hd'.
  induction Fm as [|x y k k' Hx _ IHk]; [reflexivity|]. cbn [flat_map]. unfold own_text at 1 3. rewrite (at_same_data d d' HS x y Hx), IHk. reflexivity.
Qed.
Print Assumptions C86_same_sources.

(* ------------------------------------------------------------------ *)
(** * A style sheet that is no longer in the document *)

(** <html><p>hi</p><div>yo</div></html>, and the same after a <style> was put in and taken out again *)
Definition two_ops : list op :=
  [ OCreateElement (html_name "html") []; OAppend 1 (CNode 2);
    OCreateElement (html_name "p") []; OAppend 2 (CNode 3); OAppend 3 (CText (txt "hi"));
    OCreateElement (html_name "div") []; OAppend 2 (CNode 5); OAppend 5 (CText (txt "yo")) ].
Definition two_doc : doc := match DomModel.run doc_new two_ops with Ok d => d | _ => doc_new end.
Definition removed_ops : list op :=
  two_ops ++ [ OCreateElement (html_name "style") []; OAppend 2 (CNode 7); OAppend 7 (CText (txt "p{display:none}")); ORemove 7 ].
Definition removed_doc : doc := match DomModel.run doc_new removed_ops with Ok d => d | _ => doc_new end.
(** The same tree built in another order. *)
Definition other_ops : list op :=
  [ OCreateElement (html_name "div") []; OCreateElement (html_name "html") []; OAppend 1 (CNode 3);
    OAppend 3 (CNode 2); OAppend 2 (CText (txt "y")); OAppend 2 (CText (txt "o"));
    OCreateElement (html_name "p") []; OAppendBefore 2 (CNode 5); OAppend 5 (CText (txt "hi")) ].
Definition other_doc : doc := match DomModel.run doc_new other_ops with Ok d => d | _ => doc_new end.
Lemma two_reach : reach two_doc.
Proof. apply (okrun_reach two_ops doc_new); [apply reach_new|vm_compute; reflexivity|vm_compute; reflexivity]. Qed.
Lemma removed_reach : reach removed_doc.
Proof. apply (okrun_reach removed_ops doc_new); [apply reach_new|vm_compute; reflexivity|vm_compute; reflexivity]. Qed.
Lemma other_reach : reach other_doc.
Proof. apply (okrun_reach other_ops doc_new); [apply reach_new|vm_compute; reflexivity|vm_compute; reflexivity]. Qed.
Lemma kids_read d p n l : nth_error (nodes d) p = Some n -> following_siblings (List.length (nodes d)) d (n_first n) = Ok l -> kids d p l.
Proof. intros Hn Hl. exists n. split; [exact Hn|exact (following_chain _ _ _ _ Hl)]. Qed.
Ltac same_tac := eapply Same; [vm_compute; reflexivity|eapply kids_read; vm_compute; reflexivity|eapply kids_read; vm_compute; reflexivity|repeat (constructor; [same_tac|]); constructor].
Ltac arena_tac := eapply arena_tree_intro; [eapply kids_read; vm_compute; reflexivity|repeat (constructor; [arena_tac|]); constructor].
Lemma removed_same : same_tree two_doc removed_doc document_node_id document_node_id.
Proof. same_tac. Qed.
Lemma other_same : same_tree two_doc other_doc document_node_id document_node_id.
Proof. same_tac. Qed.
Definition hiding (t : text) : list (rule selector) := [RStyle [tag "p"] [dcl "display" [TIdent "none"]]].
Definition no_items (_ : string) : list item := [].
Lemma good_hiding l : good_sheets ex_ct (map hiding l).
Proof.
  intros sels items H. apply in_concat in H as (rs & H1 & H2). apply in_map_iff in H1 as (t & <- & _). destruct H2 as [H2|[]]. injection H2 as <- <-. split.
  - constructor; [|constructor]. vm_compute. repeat constructor.
  - intros i Hi L. assert (P : parse_block ex_ct [dcl "display" [TIdent "none"]] = Panic) by (apply PropStyle.C17_leftover_aborts; exists i; auto).
    apply (f_equal (fun o => match o with Panic => true | _ => false end)) in P. vm_compute in P. discriminate.
Qed.
Lemma hiding_styled d sources : reach d -> List.length (nodes d) <= 20 -> parse_stylesheets 20 d None = Ok sources ->
  match document_input ex_ct hiding no_items 20 d None with Ok _ => true | _ => false end = true ->
  exists style_of root, styled_document ex_ct hiding no_items 20 d None sources style_of root.
Proof.
  intros Hd Hf Hp H. destruct (document_input ex_ct hiding no_items 20 d None) as [[so t]| |] eqn:E; try discriminate. exists so, t.
  split; [exact Hd|]. split; [exact Hf|]. split; [exact Hp|]. split; [apply good_hiding|]. split; [|exact E]. intros e x v i _ _ [].
Qed.

(** FINDING: a <style> element that is no longer - or not yet, or never - in the document still applies.  These two
    documents are the same tree; in one of them a paragraph is hidden. *)
Theorem C86_refuted : reach two_doc /\ reach removed_doc /\ same_tree two_doc removed_doc document_node_id document_node_id /\
  exists style_of root style_of' root',
    styled_document ex_ct hiding no_items 20 two_doc None [] style_of root /\
    styled_document ex_ct hiding no_items 20 removed_doc None [txt "p{display:none}"] style_of' root' /\
    flat_map text_of (fst (drawing_calls ex_font_of ex_width style_of two_doc root ex_page)) = ["hi"; "yo"] /\
    flat_map text_of (fst (drawing_calls ex_font_of ex_width style_of' removed_doc root' ex_page)) = ["yo"].
Proof.
  split; [exact two_reach|]. split; [exact removed_reach|]. split; [exact removed_same|].
  destruct (hiding_styled two_doc [] two_reach) as (s & r & H); [vm_compute; lia|vm_compute; reflexivity|vm_compute; reflexivity|].
  destruct (hiding_styled removed_doc [txt "p{display:none}"] removed_reach) as (s' & r' & H'); [vm_compute; lia|vm_compute; reflexivity|vm_compute; reflexivity|].
  exists s, r, s', r'. split; [exact H|]. split; [exact H'|]. destruct H as (_ & _ & _ & _ & _ & H), H' as (_ & _ & _ & _ & _ & H'). split.
  - assert (T : match document_input ex_ct hiding no_items 20 two_doc None with
      | Ok (s, r) => flat_map text_of (fst (drawing_calls ex_font_of ex_width s two_doc r ex_page)) | _ => [] end = ["hi"; "yo"]) by (vm_compute; reflexivity).
    rewrite H in T. exact T.
  - assert (T : match document_input ex_ct hiding no_items 20 removed_doc None with
      | Ok (s, r) => flat_map text_of (fst (drawing_calls ex_font_of ex_width s removed_doc r ex_page)) | _ => [] end = ["yo"]) by (vm_compute; reflexivity).
    rewrite H' in T. exact T.
Qed.
Print Assumptions C86_refuted.

(** The hypotheses are met by two documents built in different orders. *)
Example C86_case : two_doc <> other_doc /\ in_tree_order two_doc /\ in_tree_order other_doc /\
  same_tree two_doc other_doc document_node_id document_node_id /\
  exists style_of root style_of' root',
    styled_document ex_ct hiding no_items 20 two_doc None [] style_of root /\
    styled_document ex_ct hiding no_items 20 other_doc None [] style_of' root' /\
    flat_map text_of (fst (drawing_calls ex_font_of ex_width style_of two_doc root ex_page)) = ["hi"; "yo"].
Proof.
  split; [intros E; apply (f_equal (fun d => nth_error (nodes d) 2)) in E; vm_compute in E; discriminate|].
  split; [eexists; split; [arena_tac|vm_compute; reflexivity]|]. split; [eexists; split; [arena_tac|vm_compute; reflexivity]|]. split; [exact other_same|].
  destruct (hiding_styled two_doc [] two_reach) as (s & r & H); [vm_compute; lia|vm_compute; reflexivity|vm_compute; reflexivity|].
  destruct (hiding_styled other_doc [] other_reach) as (s' & r' & H'); [vm_compute; lia|vm_compute; reflexivity|vm_compute; reflexivity|].
  exists s, r, s', r'. split; [exact H|]. split; [exact H'|]. destruct H as (_ & _ & _ & _ & _ & H).
  assert (T : match document_input ex_ct hiding no_items 20 two_doc None with
      | Ok (s, r) => flat_map text_of (fst (drawing_calls ex_font_of ex_width s two_doc r ex_page)) | _ => [] end = ["hi"; "yo"]) by (vm_compute; reflexivity).
  rewrite H in T. exact T.
Qed.
