(** The styles of a document under two user style sheets that differ in some properties only (C103, C104). *)
From Verif Require Import StyleModel StyleSpec StyleExample GeomModel InlineModel BlockModel TreeModel TreeSpec StyleFacts PropStyle PropTree PaintModel PaintSpec PropPaint PropText PropAppend.
From Verif Require Import Base DomModel DomSpec SelModel SelSpec UnsetModel UaModel UaSpec UaProofs GfxModel PropAttr PropRecolor ExceptSpec ExceptStyle LevelSpec.
Local Open Scope string_scope.
Local Open Scope list_scope.
Local Open Scope result_scope.


Section Except.
Variable x : longhand -> bool.
Hypothesis Hx : self_contained x.
Lemma but_anonymous {ar : Arith} p p' : parent_but x p p' -> same_but x (anonymous_inheriting_from p) (anonymous_inheriting_from p').
Proof.
  intros H. destruct p as [s|], p' as [s'|]; cbn in H; try contradiction; unfold anonymous_inheriting_from, style_new; (split; [|reflexivity]); intros l Hl; [|reflexivity].
  destruct H as [H _]. destruct l; cbn; first [reflexivity | exact (H _ Hl)].
Qed.
Lemma but_styles {ar : Arith} : forall sel ct (sp : sel -> N) m ua author attr parent s ua' author' attr' parent' s',
  element_style ct sp m ua author attr parent s -> element_style ct sp m ua' author' attr' parent' s' ->
  sheets_but x ct ua ua' -> sheets_but x ct author author' -> attr_but x ct attr attr' ->
  parent_but x parent parent' -> same_but x s s'.
Proof.
  intros sel ct sp m ua au at_ p s ua' au' at_' p' s' H H' U A T P. eapply rv_style; [exact Hx|exact H|exact H'| |exact P].
  apply winners_alike; [apply candidates_alike; assumption|apply candidates_ordered|apply candidates_ordered|].
  intros l. destruct (proj1 (C09_winner_exists_and_is_unique _ _ _ _ _ _ _ _ _ H) l) as [X|X]; [right|left]; exact X.
Qed.
Lemma sheets_same {ar : Arith} ct s s' r r' : sheets_but x ct s s' -> add_stylesheets ct selector [] s = Ok r -> add_stylesheets ct selector [] s' = Ok r' ->
  same_selectors r r'.
Proof.
  intros R E E'. destruct (add_sheets_parses _ _ _ _ _ E) as (l & -> & F). destruct (add_sheets_parses _ _ _ _ _ E') as (l' & -> & F').
  clear E E'. cbn. pose proof (rules_of_but x ct s s' R) as G. clear R. revert l l' F F'. induction G as [|a b u v [G1 _] _ IH]; intros l l' F F'; inversion F; inversion F'; subst; constructor.
  - repeat match goal with H : parses_to _ _ _ _ |- _ => destruct H as [? _] end. congruence.
  - apply IH; assumption.
Qed.

Lemma but_document : forall ct read_sheet attr_items fuel d user user' sources sources' style_of root style_of' root',
  document_input ct read_sheet attr_items fuel d user = Ok (style_of, root) ->
  document_input ct read_sheet attr_items fuel d user' = Ok (style_of', root') ->
  parse_stylesheets fuel d user = Ok sources -> parse_stylesheets fuel d user' = Ok sources' ->
  sheets_but x ct (map read_sheet sources) (map read_sheet sources') ->
  root' = root /\ styles_but x style_of style_of'.
Proof.
  intros ct rs ai fuel d user user' src src' so root so' root' E E' Es Es' R. unfold document_input in E, E'.
  destruct (ua_style_set ct) as [ua| |] eqn:Eu; try discriminate. cbn [bind] in E, E'.
  destruct (author_style_set ct rs fuel d user) as [au| |] eqn:Ea; try discriminate. destruct (author_style_set ct rs fuel d user') as [au'| |] eqn:Ea'; try discriminate.
  cbn [bind] in E, E'. destruct (root_element fuel d) as [r| |]; try discriminate. cbn [bind] in E, E'.
  destruct (subtree fuel d r) as [t| |]; try discriminate. cbn [bind] in E, E'. injection E as <- <-. injection E' as <- <-. split; [reflexivity|].
  destruct (ua_sheets ct ua Eu) as (ur & Hu & Ueq). destruct (author_sheets ct rs fuel d user au Ea) as (s1 & ar & H1 & Har & Aeq).
  destruct (author_sheets ct rs fuel d user' au' Ea') as (s1' & ar' & H1' & Har' & Aeq').
  assert (s1 = src) by congruence. assert (s1' = src') by congruence. subst s1 s1'.
  assert (S : same_selectors au au') by (subst; apply finish_same; exact (sheets_same ct _ _ _ _ R Har Har')).
  assert (K : forall i p p', parent_but x p p' -> same_but x (style_or_anonymous ct ai fuel ua au d i p) (style_or_anonymous ct ai fuel ua au' d i p')).
  { intros i p p' P. unfold style_or_anonymous.
    destruct (data_of d i) as [dt|] eqn:Ed.
    - destruct dt as [ | | | | e |];
        try (unfold node_style, getn, data_of in *; destruct (nth_error (nodes d) i) as [n|]; [|discriminate Ed]; cbn [option_map bind] in *; injection Ed as ->; exact (but_anonymous p p' P)).
      pose proof (push_same fuel d i au au' S) as Q.
      destruct (node_style ct ai fuel ua au d i p) as [s| |] eqn:N, (node_style ct ai fuel ua au' d i p') as [s'| |] eqn:N'; try exact (but_anonymous p p' P).
      + eapply (but_styles _ ct specificity (matchb fuel d i) [user_agent] (map rs src) (option_map ai (inline_style e)) p s [user_agent] (map rs src') (option_map ai (inline_style e)) p' s').
        * exact (node_style_element ct ai fuel ua au d i p s e ur ar (map rs src) Hu Ueq Har Aeq Ed N).
        * exact (node_style_element ct ai fuel ua au' d i p' s' e ur ar' (map rs src') Hu Ueq Har' Aeq' Ed N').
        * repeat constructor; reflexivity.
        * exact R.
        * destruct (inline_style e); cbn; [reflexivity|exact I].
        * exact P.
      + exfalso. revert N N'. unfold node_style, getn, data_of in *. destruct (nth_error (nodes d) i) as [n|]; [|discriminate]. cbn [option_map bind] in *. injection Ed as ->.
        destruct (push_matching_in fuel d i ua); cbn [bind]; try discriminate. destruct (push_matching_in fuel d i au), (push_matching_in fuel d i au'); cbn [bind]; try contradiction; try discriminate.
        destruct (style_attribute e); [|discriminate]. destruct (parse_block ct (ai s0)); cbn; discriminate.
      + exfalso. revert N N'. unfold node_style, getn, data_of in *. destruct (nth_error (nodes d) i) as [n|]; [|discriminate]. cbn [option_map bind] in *. injection Ed as ->.
        destruct (push_matching_in fuel d i ua); cbn [bind]; try discriminate. destruct (push_matching_in fuel d i au), (push_matching_in fuel d i au'); cbn [bind]; try contradiction; try discriminate.
        destruct (style_attribute e); [|discriminate]. destruct (parse_block ct (ai s0)); cbn; discriminate.
      + exfalso. revert N N'. unfold node_style, getn, data_of in *. destruct (nth_error (nodes d) i) as [n|]; [|discriminate]. cbn [option_map bind] in *. injection Ed as ->.
        destruct (push_matching_in fuel d i ua); cbn [bind]; try discriminate. destruct (push_matching_in fuel d i au), (push_matching_in fuel d i au'); cbn [bind]; try contradiction; try discriminate.
        destruct (style_attribute e); [|discriminate]. destruct (parse_block ct (ai s)); cbn; discriminate.
      + exfalso. revert N N'. unfold node_style, getn, data_of in *. destruct (nth_error (nodes d) i) as [n|]; [|discriminate]. cbn [option_map bind] in *. injection Ed as ->.
        destruct (push_matching_in fuel d i ua); cbn [bind]; try discriminate. destruct (push_matching_in fuel d i au), (push_matching_in fuel d i au'); cbn [bind]; try contradiction; try discriminate.
        destruct (style_attribute e); [|discriminate]. destruct (parse_block ct (ai s)); cbn; discriminate.
    - unfold node_style, getn, data_of in *. destruct (nth_error (nodes d) i); [discriminate Ed|]. exact (but_anonymous p p' P). }
  intros i. split; [apply K; exact I|]. intros p p' P. apply K. exact P.
Qed.

End Except.
