(** Aligning text moves it only sideways (C102). *)
From Verif Require Import StyleModel StyleSpec StyleExample GeomModel InlineModel BlockModel TreeModel TreeSpec StyleFacts PropStyle PropTree PaintModel PaintSpec PropPaint PropText PropAppend.
From Verif Require Import Base DomModel DomSpec SelModel SelSpec UnsetModel UaModel UaSpec UaProofs GfxModel EdgesSpec WrapSpec PropAttr PropRecolor AlignSpec AlignStyle AlignPaint.
Local Open Scope string_scope.
Local Open Scope list_scope.
Local Open Scope result_scope.

(** Change the alignment of text in the styles of a document: the same calls are made in the same order - the same texts
    in the same fonts and colours, with the same line breaks, the same lines, rectangles and boxes, of the same size and at
    the same height - and each of them at most further to the left or the right; and the rendering ends in the same way. *)
Theorem C102_only_sideways : forall style_of style_of' font_of width_of,
  realigned_styles style_of style_of' -> looks_at_font font_of -> looks_at_font width_of ->
  forall d root page,
  Forall2 sideways (fst (drawing_calls font_of width_of style_of d root page)) (fst (drawing_calls font_of width_of style_of' d root page)) /\
  snd (drawing_calls font_of width_of style_of' d root page) = snd (drawing_calls font_of width_of style_of d root page).
Proof. intros so so' fo wo Hs Hf Hw d root page. exact (z_drawing so so' fo wo d root page Hs Hf Hw). Qed.
Print Assumptions C102_only_sideways.

Lemma parent_anonymous {ar : Arith} p p' : realigned_parent p p' -> realigned (anonymous_inheriting_from p) (anonymous_inheriting_from p').
Proof.
  intros H. destruct p as [s|], p' as [s'|]; cbn in H; try contradiction; unfold anonymous_inheriting_from, style_new; (split; [|reflexivity]); intros l Hl; [|reflexivity].
  destruct H as [H _]. destruct l; try discriminate Hl; cbn; rewrite ?H by reflexivity; reflexivity.
Qed.
(** The styles differ in the alignment of text only when the style sheets and the style attribute do and the parent's
    style does. *)
Theorem C102_styles {ar : Arith} : forall sel ct (sp : sel -> N) m ua author attr parent s ua' author' attr' parent' s',
  element_style ct sp m ua author attr parent s -> element_style ct sp m ua' author' attr' parent' s' ->
  realigned_sheets ct ua ua' -> realigned_sheets ct author author' -> realigned_attr ct attr attr' ->
  realigned_parent parent parent' -> realigned s s'.
Proof.
  intros sel ct sp m ua au at_ p s ua' au' at_' p' s' H H' U A T P. eapply rv_style; [exact H|exact H'| |exact P].
  apply winners_realigned; [apply candidates_alike; assumption|apply candidates_ordered|apply candidates_ordered|].
  intros l. destruct (proj1 (C09_winner_exists_and_is_unique _ _ _ _ _ _ _ _ _ H) l) as [X|X]; [right|left]; exact X.
Qed.
Print Assumptions C102_styles.

Lemma sheets_same {ar : Arith} ct s s' r r' : realigned_sheets ct s s' -> add_stylesheets ct selector [] s = Ok r -> add_stylesheets ct selector [] s' = Ok r' ->
  same_selectors r r'.
Proof.
  intros R E E'. destruct (add_sheets_parses _ _ _ _ _ E) as (l & -> & F). destruct (add_sheets_parses _ _ _ _ _ E') as (l' & -> & F').
  clear E E'. cbn. pose proof (rules_of_realigned ct s s' R) as G. clear R. revert l l' F F'. induction G as [|a b x y [G1 _] _ IH]; intros l l' F F'; inversion F; inversion F'; subst; constructor.
  - repeat match goal with H : parses_to _ _ _ _ |- _ => destruct H as [? _] end. congruence.
  - apply IH; assumption.
Qed.

Lemma realigned_document : forall ct read_sheet attr_items fuel d user user' sources sources' style_of root style_of' root',
  document_input ct read_sheet attr_items fuel d user = Ok (style_of, root) ->
  document_input ct read_sheet attr_items fuel d user' = Ok (style_of', root') ->
  parse_stylesheets fuel d user = Ok sources -> parse_stylesheets fuel d user' = Ok sources' ->
  realigned_sheets ct (map read_sheet sources) (map read_sheet sources') ->
  root' = root /\ realigned_styles style_of style_of'.
Proof.
  intros ct rs ai fuel d user user' src src' so root so' root' E E' Es Es' R. unfold document_input in E, E'.
  destruct (ua_style_set ct) as [ua| |] eqn:Eu; try discriminate. cbn [bind] in E, E'.
  destruct (author_style_set ct rs fuel d user) as [au| |] eqn:Ea; try discriminate. destruct (author_style_set ct rs fuel d user') as [au'| |] eqn:Ea'; try discriminate.
  cbn [bind] in E, E'. destruct (root_element fuel d) as [r| |]; try discriminate. cbn [bind] in E, E'.
  destruct (subtree fuel d r) as [t| |]; try discriminate. cbn [bind] in E, E'. injection E as <- <-. injection E' as <- <-. split; [reflexivity|].
  destruct (ua_sheets ct ua Eu) as (ur & Hu & Ueq). destruct (author_sheets ct rs fuel d user au Ea) as (s1 & ar & H1 & Har & Aeq).
  destruct (author_sheets ct rs fuel d user' au' Ea') as (s1' & ar' & H1' & Har' & Aeq').
  assert (s1 = src) by congruence. assert (s1' = src') by congruence. subst s1 s1'.
  assert (S : same_selectors au au') by (subst; apply finish_same; exact (sheets_same ct _ _ _ _ R Har Har')).
  assert (K : forall i p p', realigned_parent p p' -> realigned (style_or_anonymous ct ai fuel ua au d i p) (style_or_anonymous ct ai fuel ua au' d i p')).
  { intros i p p' P. unfold style_or_anonymous.
    destruct (data_of d i) as [dt|] eqn:Ed.
    - destruct dt as [ | | | | x |];
        try (unfold node_style, getn, data_of in *; destruct (nth_error (nodes d) i) as [n|]; [|discriminate Ed]; cbn [option_map bind] in *; injection Ed as ->; exact (parent_anonymous p p' P)).
      pose proof (push_same fuel d i au au' S) as Q.
      destruct (node_style ct ai fuel ua au d i p) as [s| |] eqn:N, (node_style ct ai fuel ua au' d i p') as [s'| |] eqn:N'; try exact (parent_anonymous p p' P).
      + eapply (C102_styles _ ct specificity (matchb fuel d i) [user_agent] (map rs src) (option_map ai (inline_style x)) p s [user_agent] (map rs src') (option_map ai (inline_style x)) p' s').
        * exact (node_style_element ct ai fuel ua au d i p s x ur ar (map rs src) Hu Ueq Har Aeq Ed N).
        * exact (node_style_element ct ai fuel ua au' d i p' s' x ur ar' (map rs src') Hu Ueq Har' Aeq' Ed N').
        * repeat constructor; reflexivity.
        * exact R.
        * destruct (inline_style x); cbn; [reflexivity|exact I].
        * exact P.
      + exfalso. revert N N'. unfold node_style, getn, data_of in *. destruct (nth_error (nodes d) i) as [n|]; [|discriminate]. cbn [option_map bind] in *. injection Ed as ->.
        destruct (push_matching_in fuel d i ua); cbn [bind]; try discriminate. destruct (push_matching_in fuel d i au), (push_matching_in fuel d i au'); cbn [bind]; try contradiction; try discriminate.
        destruct (style_attribute x); [|discriminate]. destruct (parse_block ct (ai s0)); cbn; discriminate.
      + exfalso. revert N N'. unfold node_style, getn, data_of in *. destruct (nth_error (nodes d) i) as [n|]; [|discriminate]. cbn [option_map bind] in *. injection Ed as ->.
        destruct (push_matching_in fuel d i ua); cbn [bind]; try discriminate. destruct (push_matching_in fuel d i au), (push_matching_in fuel d i au'); cbn [bind]; try contradiction; try discriminate.
        destruct (style_attribute x); [|discriminate]. destruct (parse_block ct (ai s0)); cbn; discriminate.
      + exfalso. revert N N'. unfold node_style, getn, data_of in *. destruct (nth_error (nodes d) i) as [n|]; [|discriminate]. cbn [option_map bind] in *. injection Ed as ->.
        destruct (push_matching_in fuel d i ua); cbn [bind]; try discriminate. destruct (push_matching_in fuel d i au), (push_matching_in fuel d i au'); cbn [bind]; try contradiction; try discriminate.
        destruct (style_attribute x); [|discriminate]. destruct (parse_block ct (ai s)); cbn; discriminate.
      + exfalso. revert N N'. unfold node_style, getn, data_of in *. destruct (nth_error (nodes d) i) as [n|]; [|discriminate]. cbn [option_map bind] in *. injection Ed as ->.
        destruct (push_matching_in fuel d i ua); cbn [bind]; try discriminate. destruct (push_matching_in fuel d i au), (push_matching_in fuel d i au'); cbn [bind]; try contradiction; try discriminate.
        destruct (style_attribute x); [|discriminate]. destruct (parse_block ct (ai s)); cbn; discriminate.
    - unfold node_style, getn, data_of in *. destruct (nth_error (nodes d) i); [discriminate Ed|]. exact (parent_anonymous p p' P). }
  intros i. split; [apply K; exact I|]. intros p p' P. apply K. exact P.
Qed.

(** A document with two user style sheets that differ in declarations of text-align only. *)
Theorem C102_document : forall ct read_sheet attr_items fuel d user user' sources sources' style_of root style_of' root' font_of width_of page,
  document_input ct read_sheet attr_items fuel d user = Ok (style_of, root) ->
  document_input ct read_sheet attr_items fuel d user' = Ok (style_of', root') ->
  parse_stylesheets fuel d user = Ok sources -> parse_stylesheets fuel d user' = Ok sources' ->
  realigned_sheets ct (map read_sheet sources) (map read_sheet sources') ->
  looks_at_font font_of -> looks_at_font width_of ->
  Forall2 sideways (fst (drawing_calls font_of width_of style_of d root page)) (fst (drawing_calls font_of width_of style_of' d root' page)) /\
  snd (drawing_calls font_of width_of style_of' d root' page) = snd (drawing_calls font_of width_of style_of d root page).
Proof.
  intros ct rs ai fuel d user user' src src' so root so' root' fo wo page E E' Es Es' R Hf Hw.
  destruct (realigned_document _ _ _ _ _ _ _ _ _ _ _ _ _ E E' Es Es' R) as [-> Hs]. apply C102_only_sideways; assumption.
Qed.
Print Assumptions C102_document.

(** The document of C89 with the user sheet `div { text-align: left; border-top-style: solid }`, or right *)
Definition align_sheet (t : text) : list (rule selector) :=
  [RStyle [Selector [SLocal "div" "div"] []]
     [dcl "border-top-style" [TIdent "solid"]; dcl "text-align" [TIdent (if list_eq_dec N.eq_dec t (txt "left") then "left" else "right")]]].
Definition align_drawing (user : string) : result (list (string * Q * Q)) :=
  do (style_of, root) <- document_input ex_ct align_sheet hide_items 20 (attr_doc []) (Some (txt user));
  Ok (places (fst (drawing_calls ex_font_of ex_width style_of (attr_doc []) root ex_page))).
Example C102_case :
  looks_at_font (@ex_font_of Exact) /\ looks_at_font (@ex_width Exact) /\
  realigned_sheets ex_ct (map align_sheet [txt "left"]) (map align_sheet [txt "right"]) /\
  parse_stylesheets 20 (attr_doc []) (Some (txt "left")) = Ok [txt "left"] /\
  parse_stylesheets 20 (attr_doc []) (Some (txt "right")) = Ok [txt "right"] /\
  align_drawing "left" = Ok [("hi", 0, 68#5); ("yo", 0, 179#5); ("bye", 0, 55)]%Q /\
  align_drawing "right" = Ok [("hi", 0, 68#5); ("yo", 24, 179#5); ("bye", 0, 55)]%Q.
Proof.
  split; [intros s s' H1 H2 H3 H4; unfold ex_font_of; try rewrite !H4; try rewrite !H3; try rewrite H2; try rewrite H1; reflexivity|].
  split; [intros s s' H1 H2 H3 H4; reflexivity|].
  split; [constructor; [|constructor]; constructor; [|constructor]; constructor; vm_compute; reflexivity|].
  split; [vm_compute; reflexivity|]. split; [vm_compute; reflexivity|]. split; vm_compute; reflexivity.
Qed.
(** Other properties do more: with a declaration of font-weight it is not a realignment. *)
Example C102_not_every_change : ~ realigned (css None [prop "text-align" "left"]) (css None [prop "text-align" "right"; prop "font-weight" "bold"]).
Proof. intros [H _]. specialize (H Lfont_weight eq_refl). vm_compute in H. discriminate H. Qed.
