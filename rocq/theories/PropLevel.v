(** Vertical properties change nothing across the page (C103). *)
From Verif Require Import StyleModel StyleSpec StyleExample GeomModel InlineModel BlockModel TreeModel TreeSpec StyleFacts PropStyle PropTree PaintModel PaintSpec PropPaint PropText PropAppend.
From Verif Require Import Base DomModel DomSpec SelModel SelSpec UnsetModel UaModel UaSpec UaProofs GfxModel PropAttr PropRecolor ExceptSpec ExceptStyle LevelSpec LevelPaint.
Local Open Scope string_scope.
Local Open Scope list_scope.
Local Open Scope result_scope.

(** Change the heights, the margins, borders and paddings at the top and the bottom, the line heights, the vertical
    alignments and the offsets from the top and the bottom in the styles of a document, and the height of the page: the same
    texts in the same fonts and colours are drawn in the same order from the same places on the line, with the same line
    breaks, and the backgrounds and boxes are at the same places and as wide - to the last bit, in any arithmetic.
    Missing: elements absolutely positioned by their distance from the right edge only (see [C103_refuted]). *)
Theorem C103_nothing_across_partial {ar : Arith} : forall style_of style_of' font_of width_of,
  styles_but is_vertical style_of style_of' -> by_font font_of -> by_font width_of ->
  forall d root page page', v_inline page' = v_inline page ->
  not_from_right (root_style style_of root) -> Forall (boxes_styled not_from_right) (root_kids style_of d root) ->
  snd (drawing_calls font_of width_of style_of d root page) = Finished ->
  snd (drawing_calls font_of width_of style_of' d root page') = Finished ->
  flat_map across_of (fst (drawing_calls font_of width_of style_of' d root page')) =
  flat_map across_of (fst (drawing_calls font_of width_of style_of d root page)).
Proof. intros so so' fo wo Hs Hf Hw d root page page' E N NK. destruct root as [i ts]. exact (z_drawing so so' fo wo Hs Hf Hw d (DT i ts) N NK page page' E). Qed.
Print Assumptions C103_nothing_across_partial.

(** And the one is drawn if the other is. *)
Theorem C103_ending {ar : Arith} {Z : ZeroLaws ar} : forall ct style_of style_of' font_of width_of,
  styles_but is_vertical style_of style_of' -> styles_computed ct style_of -> styles_computed ct style_of' ->
  forall d root page page',
  not_from_right (root_style style_of root) -> Forall (boxes_styled not_from_right) (root_kids style_of d root) ->
  snd (drawing_calls font_of width_of style_of' d root page') = snd (drawing_calls font_of width_of style_of d root page).
Proof.
  intros ct so so' fo wo Hs C C' d root page page' N NK.
  assert (B : LevelProofs.zout (LevelProofs.zbfc (same_but is_vertical)) (construct_document so d root) (construct_document so' d root)) by (destruct root as [i ts]; exact (z_built so so' Hs d (DT i ts) N NK)).
  destruct (construct_document so d root) as [bx| |] eqn:E, (construct_document so' d root) as [bx'| |] eqn:E'; try (exfalso; exact B).
  - destruct (drawn_texts fo wo ct so d root page bx C E) as (? & ? & _ & -> & _). destruct (drawn_texts fo wo ct so' d root page' bx' C' E') as (? & ? & _ & -> & _). reflexivity.
  - unfold drawing_calls. rewrite E, E'. reflexivity.
  - unfold drawing_calls. rewrite E, E'. reflexivity.
Qed.
Print Assumptions C103_ending.

Lemma parent_anonymous {ar : Arith} p p' : parent_but is_vertical p p' -> same_but is_vertical (anonymous_inheriting_from p) (anonymous_inheriting_from p').
Proof.
  intros H. destruct p as [s|], p' as [s'|]; cbn in H; try contradiction; unfold anonymous_inheriting_from, style_new; (split; [|reflexivity]); intros l Hl; [|reflexivity].
  destruct H as [H _]. destruct l; try discriminate Hl; cbn; rewrite ?H by reflexivity; reflexivity.
Qed.
Lemma vertical_self_contained : self_contained is_vertical.
Proof. unfold self_contained. cbn. tauto. Qed.
(** Styles differ in vertical properties only when the style sheets and the style attribute do and the parent's style does. *)
Theorem C103_styles {ar : Arith} : forall sel ct (sp : sel -> N) m ua author attr parent s ua' author' attr' parent' s',
  element_style ct sp m ua author attr parent s -> element_style ct sp m ua' author' attr' parent' s' ->
  sheets_but is_vertical ct ua ua' -> sheets_but is_vertical ct author author' -> attr_but is_vertical ct attr attr' ->
  parent_but is_vertical parent parent' -> same_but is_vertical s s'.
Proof.
  intros sel ct sp m ua au at_ p s ua' au' at_' p' s' H H' U A T P. eapply rv_style; [exact vertical_self_contained|exact H|exact H'| |exact P].
  apply winners_alike; [apply candidates_alike; assumption|apply candidates_ordered|apply candidates_ordered|].
  intros l. destruct (proj1 (C09_winner_exists_and_is_unique _ _ _ _ _ _ _ _ _ H) l) as [X|X]; [right|left]; exact X.
Qed.
Print Assumptions C103_styles.

Lemma sheets_same {ar : Arith} ct s s' r r' : sheets_but is_vertical ct s s' -> add_stylesheets ct selector [] s = Ok r -> add_stylesheets ct selector [] s' = Ok r' ->
  same_selectors r r'.
Proof.
  intros R E E'. destruct (add_sheets_parses _ _ _ _ _ E) as (l & -> & F). destruct (add_sheets_parses _ _ _ _ _ E') as (l' & -> & F').
  clear E E'. cbn. pose proof (rules_of_but is_vertical ct s s' R) as G. clear R. revert l l' F F'. induction G as [|a b x y [G1 _] _ IH]; intros l l' F F'; inversion F; inversion F'; subst; constructor.
  - repeat match goal with H : parses_to _ _ _ _ |- _ => destruct H as [? _] end. congruence.
  - apply IH; assumption.
Qed.

Lemma vertical_document : forall ct read_sheet attr_items fuel d user user' sources sources' style_of root style_of' root',
  document_input ct read_sheet attr_items fuel d user = Ok (style_of, root) ->
  document_input ct read_sheet attr_items fuel d user' = Ok (style_of', root') ->
  parse_stylesheets fuel d user = Ok sources -> parse_stylesheets fuel d user' = Ok sources' ->
  sheets_but is_vertical ct (map read_sheet sources) (map read_sheet sources') ->
  root' = root /\ styles_but is_vertical style_of style_of'.
Proof.
  intros ct rs ai fuel d user user' src src' so root so' root' E E' Es Es' R. unfold document_input in E, E'.
  destruct (ua_style_set ct) as [ua| |] eqn:Eu; try discriminate. cbn [bind] in E, E'.
  destruct (author_style_set ct rs fuel d user) as [au| |] eqn:Ea; try discriminate. destruct (author_style_set ct rs fuel d user') as [au'| |] eqn:Ea'; try discriminate.
  cbn [bind] in E, E'. destruct (root_element fuel d) as [r| |]; try discriminate. cbn [bind] in E, E'.
  destruct (subtree fuel d r) as [t| |]; try discriminate. cbn [bind] in E, E'. injection E as <- <-. injection E' as <- <-. split; [reflexivity|].
  destruct (ua_sheets ct ua Eu) as (ur & Hu & Ueq). destruct (author_sheets ct rs fuel d user au Ea) as (s1 & ar & H1 & Har & Aeq).
  destruct (author_sheets ct rs fuel d user' au' Ea') as (s1' & ar' & H1' & Har' & Aeq').
  assert (s1 = src) by congruence. assert (s1' = src') by congruence. subst s1 s1'.
  assert (S : same_selectors au au') by (subst; apply finish_same; exact (sheets_same ct _ _ _ _ R Har Har')).
  assert (K : forall i p p', parent_but is_vertical p p' -> same_but is_vertical (style_or_anonymous ct ai fuel ua au d i p) (style_or_anonymous ct ai fuel ua au' d i p')).
  { intros i p p' P. unfold style_or_anonymous.
    destruct (data_of d i) as [dt|] eqn:Ed.
    - destruct dt as [ | | | | x |];
        try (unfold node_style, getn, data_of in *; destruct (nth_error (nodes d) i) as [n|]; [|discriminate Ed]; cbn [option_map bind] in *; injection Ed as ->; exact (parent_anonymous p p' P)).
      pose proof (push_same fuel d i au au' S) as Q.
      destruct (node_style ct ai fuel ua au d i p) as [s| |] eqn:N, (node_style ct ai fuel ua au' d i p') as [s'| |] eqn:N'; try exact (parent_anonymous p p' P).
      + eapply (C103_styles _ ct specificity (matchb fuel d i) [user_agent] (map rs src) (option_map ai (inline_style x)) p s [user_agent] (map rs src') (option_map ai (inline_style x)) p' s').
        * exact (node_style_element ct ai fuel ua au d i p s x ur ar (map rs src) Hu Ueq Har Aeq Ed N).
        * exact (node_style_element ct ai fuel ua au' d i p' s' x ur ar' (map rs src') Hu Ueq Har' Aeq' Ed N').
        * repeat constructor; reflexivity.
        * exact R.
        * destruct (inline_style x); cbn; [reflexivity|exact I].
        * exact P.
      + exfalso. revert N N'. unfold node_style, getn, data_of in *. destruct (nth_error (nodes d) i) as [n|]; [|discriminate]. cbn [option_map bind] in *. injection Ed as ->.
        destruct (push_matching_in fuel d i ua); cbn [bind]; try discriminate. destruct (push_matching_in fuel d i au), (push_matching_in fuel d i au'); cbn [bind]; try contradiction; try discriminate.
        destruct (style_attribute x); [|discriminate]. destruct (parse_block ct (ai s0)); cbn; discriminate.
      + exfalso. revert N N'. unfold node_style, getn, data_of in *. destruct (nth_error (nodes d) i) as [n|]; [|discriminate]. cbn [option_map bind] in *. injection Ed as ->.
        destruct (push_matching_in fuel d i ua); cbn [bind]; try discriminate. destruct (push_matching_in fuel d i au), (push_matching_in fuel d i au'); cbn [bind]; try contradiction; try discriminate.
        destruct (style_attribute x); [|discriminate]. destruct (parse_block ct (ai s0)); cbn; discriminate.
      + exfalso. revert N N'. unfold node_style, getn, data_of in *. destruct (nth_error (nodes d) i) as [n|]; [|discriminate]. cbn [option_map bind] in *. injection Ed as ->.
        destruct (push_matching_in fuel d i ua); cbn [bind]; try discriminate. destruct (push_matching_in fuel d i au), (push_matching_in fuel d i au'); cbn [bind]; try contradiction; try discriminate.
        destruct (style_attribute x); [|discriminate]. destruct (parse_block ct (ai s)); cbn; discriminate.
      + exfalso. revert N N'. unfold node_style, getn, data_of in *. destruct (nth_error (nodes d) i) as [n|]; [|discriminate]. cbn [option_map bind] in *. injection Ed as ->.
        destruct (push_matching_in fuel d i ua); cbn [bind]; try discriminate. destruct (push_matching_in fuel d i au), (push_matching_in fuel d i au'); cbn [bind]; try contradiction; try discriminate.
        destruct (style_attribute x); [|discriminate]. destruct (parse_block ct (ai s)); cbn; discriminate.
    - unfold node_style, getn, data_of in *. destruct (nth_error (nodes d) i); [discriminate Ed|]. exact (parent_anonymous p p' P). }
  intros i. split; [apply K; exact I|]. intros p p' P. apply K. exact P.
Qed.

(** A document with two user style sheets that differ in declarations of vertical properties only. *)
Theorem C103_document_partial : forall ct read_sheet attr_items fuel d user user' sources sources' style_of root style_of' root' font_of width_of page page',
  document_input ct read_sheet attr_items fuel d user = Ok (style_of, root) ->
  document_input ct read_sheet attr_items fuel d user' = Ok (style_of', root') ->
  parse_stylesheets fuel d user = Ok sources -> parse_stylesheets fuel d user' = Ok sources' ->
  sheets_but is_vertical ct (map read_sheet sources) (map read_sheet sources') ->
  by_font font_of -> by_font width_of -> v_inline page' = v_inline page ->
  not_from_right (root_style style_of root) -> Forall (boxes_styled not_from_right) (root_kids style_of d root) ->
  snd (drawing_calls font_of width_of style_of d root page) = Finished ->
  snd (drawing_calls font_of width_of style_of' d root' page') = Finished ->
  flat_map across_of (fst (drawing_calls font_of width_of style_of' d root' page')) =
  flat_map across_of (fst (drawing_calls font_of width_of style_of d root page)).
Proof.
  intros ct rs ai fuel d user user' src src' so root so' root' fo wo page page' E E' Es Es' R Hf Hw Ep N NK.
  destruct (vertical_document _ _ _ _ _ _ _ _ _ _ _ _ _ E E' Es Es' R) as [-> Hs]. apply C103_nothing_across_partial; assumption.
Qed.
Print Assumptions C103_document_partial.

(** <html><div>hi <span>you</span></div></html>, or with the span taken out of the flow.  The div is a containing block of
    height 20px or 60px; the span is raised or moved to the top by as much. *)
Definition high_doc : doc :=
  Doc [Node None None None (Some 1%nat) (Some 1%nat) DDocument;
       Node (Some 0%nat) None None (Some 2%nat) (Some 2%nat) (DElement (ex_elem "html"));
       Node (Some 1%nat) None None (Some 3%nat) (Some 4%nat) (DElement (ex_elem "div"));
       Node (Some 2%nat) (Some 4%nat) None None None (DomModel.DText (txt "hi "));
       Node (Some 2%nat) None (Some 3%nat) (Some 5%nat) (Some 5%nat) (DElement (ex_elem "span"));
       Node (Some 4%nat) None None None None (DomModel.DText (txt "you"))] [].
Definition high_root : dtree := DT 1 [DT 2 [DT 3 []; DT 4 [DT 5 []]]].
Definition high (span : list item) (h : Q) (i : nat) (parent : option style) : style :=
  match i with
  | 2%nat => css parent [prop "display" "block"; prop "position" "relative"; idecl "height" [TDim (px h) "px"]; idecl "margin-top" [TDim (px (h / 2)) "px"]]
  | 4%nat => css parent (span ++ [idecl "top" [TDim (px (h / 10)) "px"]; idecl "line-height" [TDim (px h) "px"]])
  | _ => css parent [prop "display" "block"]
  end.
Definition high_places span h := places (fst (drawing_calls ex_font_of ex_width (high span h) high_doc high_root ex_page)).
Definition from_right : list item := [prop "position" "absolute"; idecl "right" [TDim (px 5) "px"]].
Lemma css_but p p' its its' : (match parse_block ex_ct its with Ok _ => true | _ => false end) = true -> (match parse_block ex_ct its' with Ok _ => true | _ => false end) = true ->
  block_but is_vertical ex_ct its its' -> parent_but is_vertical p p' -> same_but is_vertical (css p its) (css p' its').
Proof.
  assert (C : forall q its, (match parse_block ex_ct its with Ok _ => true | _ => false end) = true ->
    element_style ex_ct N.of_nat (fun _ => false) [] [] (Some its) q (css q its)).
  { intros q i O. exists [], []. repeat split. unfold css. cbn [style_for_element]. destruct (parse_block ex_ct i); [reflexivity|discriminate..]. }
  intros O O' B P. apply (C103_styles nat ex_ct N.of_nat (fun _ => false) [] [] (Some its) p _ [] [] (Some its') p'); try constructor; try assumption; apply C; assumption.
Qed.
Lemma high_styles span : span = [] \/ span = from_right -> styles_but is_vertical (high span 20) (high span 60).
Proof.
  intros Sp i. assert (K : forall p p', parent_but is_vertical p p' -> same_but is_vertical (high span 20 i p) (high span 60 i p')).
  { intros p p' P. unfold high. destruct Sp as [-> | ->]; do 5 (destruct i as [|i]; [apply css_but; [vm_compute; reflexivity|vm_compute; reflexivity|vm_compute; reflexivity|exact P]|]);
      (apply css_but; [vm_compute; reflexivity|vm_compute; reflexivity|vm_compute; reflexivity|exact P]). }
  split; [apply K; exact I|]. intros p p' P. apply K. exact P.
Qed.
Example C103_case : styles_but is_vertical (high [] 20) (high [] 60) /\ by_font (@ex_font_of Exact) /\ by_font (@ex_width Exact) /\ not_from_right (root_style (high [] 20) high_root) /\ Forall (boxes_styled not_from_right) (root_kids (high [] 20) high_doc high_root) /\ snd (drawing_calls ex_font_of ex_width (high [] 20) high_doc high_root ex_page) = Finished /\ snd (drawing_calls ex_font_of ex_width (high [] 60) high_doc high_root ex_page) = Finished /\ high_places [] 20 = [("hi ", 0, 118#5); ("you", 0, 216#5)]%Q /\ high_places [] 60 = [("hi ", 0, 218#5); ("you", 0, 416#5)]%Q.
Proof.
  split; [apply high_styles; left; reflexivity|].
  split; [intros s s' H1 H2 H3 H4; unfold ex_font_of; try rewrite !H4; try rewrite !H3; try rewrite H2; try rewrite H1; reflexivity|].
  split; [intros s s' H1 H2 H3 H4; reflexivity|].
  split; [intros A; vm_compute in A; discriminate A|].
  split; [constructor; [|constructor]; split; [intros A; vm_compute in A; discriminate A|]; split; [exact I|]; split; [|exact I]; split; [intros A; vm_compute in A; discriminate A|]; split; exact I|].
  repeat split; vm_compute; reflexivity.
Qed.
(** FINDING: an element that is absolutely positioned by its distance from the right edge only moves sideways when the
    height of its containing block changes (positioned.rs:265 counts from the height of the containing block). *)
Theorem C103_refuted : styles_but is_vertical (high from_right 20) (high from_right 60) /\ snd (drawing_calls ex_font_of ex_width (high from_right 20) high_doc high_root ex_page) = Finished /\ snd (drawing_calls ex_font_of ex_width (high from_right 60) high_doc high_root ex_page) = Finished /\ high_places from_right 20 = [("hi ", 0, 118#5); ("you", -20#1, 26)]%Q /\ high_places from_right 60 = [("hi ", 0, 218#5); ("you", 20, 70)]%Q.
Proof. split; [apply high_styles; right; reflexivity|]. repeat split; vm_compute; reflexivity. Qed.
Print Assumptions C103_refuted.
