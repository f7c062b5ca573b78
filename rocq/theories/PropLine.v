(** Line styles of borders (C108). *)
From Verif Require Import StyleModel StyleSpec StyleExample GeomModel InlineModel BlockModel TreeModel TreeSpec StyleFacts PropStyle PropTree PaintModel PaintSpec PropPaint PropText.
From Verif Require Import Base DomModel DomSpec SelModel SelSpec UnsetModel UaModel UaSpec UaProofs GfxModel RecolorSpec RecolorStyle PropAttr PropRecolor LineSpec LineProofs LineStyle.
Local Open Scope string_scope.
Local Open Scope list_scope.
Local Open Scope result_scope.

Lemma relined_anonymous {ar : Arith} p p' : relined_parent p p' -> relined (anonymous_inheriting_from p) (anonymous_inheriting_from p').
Proof.
  intros H. destruct p as [s|], p' as [s'|]; cbn in H; try contradiction; unfold anonymous_inheriting_from, style_new; (split; [|split; [reflexivity|cbn; tauto]]); intros l Hl; [|reflexivity].
  destruct H as [H _]. destruct l; try discriminate Hl; cbn; rewrite ?H by reflexivity; reflexivity.
Qed.

(** Draw borders with other lines: the same calls are made in the same order - the same texts, the same rectangles, the same
    boxes, and lines between the same points in the same colors and widths - and the rendering ends in the same way. *)
Theorem C108_only_line_types {ar : Arith} : forall style_of style_of' font_of width_of,
  relined_styles style_of style_of' -> borderless font_of -> borderless width_of ->
  forall d root page,
  Forall2 relined_call (fst (drawing_calls font_of width_of style_of d root page)) (fst (drawing_calls font_of width_of style_of' d root page)) /\
  snd (drawing_calls font_of width_of style_of' d root page) = snd (drawing_calls font_of width_of style_of d root page).
Proof.
  intros so so' fo wo Hs Hf Hw d root page.
  assert (N : forall a b : line_style, (b = LSNone <-> a = LSNone) -> not_none b = not_none a) by (intros [] []; cbn; intuition congruence).
  apply (LineProofs.z_drawing relined (fun s s' l H => proj1 H l) (fun s s' H => proj1 (proj2 H)) (fun s s' H => relined_anonymous (Some s) (Some s') H)
    so so' Hs (Forall2 relined_call)); auto.
  - intros a a' b b' A B. apply Forall2_app; assumption.
  - intros. repeat constructor.
  - intros st st' l x y f (H & _). rewrite (H Lcolor eq_refl). repeat constructor.
  - intros st st' b p (H & _ & T & _). unfold paint_top. cbv zeta. rewrite (N _ _ T). unfold to_rgba. rewrite (H Lborder_top_color eq_refl), (H Lcolor eq_refl).
    destruct (_ && _); repeat constructor.
  - intros st st' b p (H & _ & _ & T & _). unfold paint_right. cbv zeta. rewrite (N _ _ T). unfold to_rgba. rewrite (H Lborder_right_color eq_refl), (H Lcolor eq_refl).
    destruct (_ && _); repeat constructor.
  - intros st st' b p (H & _ & _ & _ & T & _). unfold paint_bottom. cbv zeta. rewrite (N _ _ T). unfold to_rgba. rewrite (H Lborder_bottom_color eq_refl), (H Lcolor eq_refl).
    destruct (_ && _); repeat constructor.
  - intros st st' b p (H & _ & _ & _ & _ & T). unfold paint_left. cbv zeta. rewrite (N _ _ T). unfold to_rgba. rewrite (H Lborder_left_color eq_refl), (H Lcolor eq_refl).
    destruct (_ && _); repeat constructor.
  - intros st st' b (H & _). unfold paint_background, to_rgba. cbv zeta. rewrite (H Lbackground_color eq_refl), (H Lcolor eq_refl). destruct (_ <? _)%N; repeat constructor.
Qed.
Print Assumptions C108_only_line_types.

(** Styles differ in that way when the style sheets and the style attribute do and the parent's style does. *)
Theorem C108_styles {ar : Arith} : forall sel ct (sp : sel -> N) m ua author attr parent s ua' author' attr' parent' s',
  element_style ct sp m ua author attr parent s -> element_style ct sp m ua' author' attr' parent' s' ->
  relined_sheets ct ua ua' -> relined_sheets ct author author' -> relined_attr ct attr attr' ->
  relined_parent parent parent' -> relined s s'.
Proof.
  intros sel ct sp m ua au at_ p s ua' au' at_' p' s' H H' U A T P. eapply ln_style; [exact H|exact H'| |exact P].
  apply winners_relined; [apply candidates_lined; assumption|apply candidates_ordered|].
  intros l. destruct (proj1 (C09_winner_exists_and_is_unique _ _ _ _ _ _ _ _ _ H) l) as [X|X]; [right|left]; exact X.
Qed.
Print Assumptions C108_styles.

Lemma block_refl {ar : Arith} ct a : relined_block ct a a.
Proof. unfold relined_block. induction (declared ct a); constructor; [split; [constructor|reflexivity]|assumption]. Qed.
Lemma sheets_refl {ar : Arith} {sel} ct (s : list (list (rule sel))) : relined_sheets ct s s.
Proof.
  induction s as [|r s IH]; constructor; [|exact IH]. clear. induction r as [|[sels b|] r IH]; constructor; try exact IH; constructor. apply block_refl.
Qed.

Lemma line_sheets_same {ar : Arith} ct s s' r r' : relined_sheets ct s s' -> add_stylesheets ct selector [] s = Ok r -> add_stylesheets ct selector [] s' = Ok r' ->
  same_selectors r r'.
Proof.
  intros R E E'. destruct (add_sheets_parses _ _ _ _ _ E) as (l & -> & F). destruct (add_sheets_parses _ _ _ _ _ E') as (l' & -> & F').
  clear E E'. cbn. pose proof (rules_of_relined ct s s' R) as G. clear R. revert l l' F F'. induction G as [|a b x y [G1 _] _ IH]; intros l l' F F'; inversion F; inversion F'; subst; constructor.
  - repeat match goal with H : parses_to _ _ _ _ |- _ => destruct H as [? _] end. congruence.
  - apply IH; assumption.
Qed.

(** A document with two user style sheets that differ in line styles of borders only. *)
Theorem C108_document : forall ct read_sheet attr_items fuel d user user' sources sources' style_of root style_of' root',
  document_input ct read_sheet attr_items fuel d user = Ok (style_of, root) ->
  document_input ct read_sheet attr_items fuel d user' = Ok (style_of', root') ->
  parse_stylesheets fuel d user = Ok sources -> parse_stylesheets fuel d user' = Ok sources' ->
  relined_sheets ct (map read_sheet sources) (map read_sheet sources') ->
  root' = root /\ relined_styles style_of style_of'.
Proof.
  intros ct rs ai fuel d user user' src src' so root so' root' E E' Es Es' R. unfold document_input in E, E'.
  destruct (ua_style_set ct) as [ua| |] eqn:Eu; try discriminate. cbn [bind] in E, E'.
  destruct (author_style_set ct rs fuel d user) as [au| |] eqn:Ea; try discriminate. destruct (author_style_set ct rs fuel d user') as [au'| |] eqn:Ea'; try discriminate.
  cbn [bind] in E, E'. destruct (root_element fuel d) as [r| |]; try discriminate. cbn [bind] in E, E'.
  destruct (subtree fuel d r) as [t| |]; try discriminate. cbn [bind] in E, E'. injection E as <- <-. injection E' as <- <-. split; [reflexivity|].
  destruct (ua_sheets ct ua Eu) as (ur & Hu & Ueq). destruct (author_sheets ct rs fuel d user au Ea) as (s1 & ar & H1 & Har & Aeq).
  destruct (author_sheets ct rs fuel d user' au' Ea') as (s1' & ar' & H1' & Har' & Aeq').
  assert (s1 = src) by congruence. assert (s1' = src') by congruence. subst s1 s1'.
  assert (S : same_selectors au au') by (subst; apply finish_same; exact (line_sheets_same ct _ _ _ _ R Har Har')).
  assert (K : forall i p p', relined_parent p p' -> relined (style_or_anonymous ct ai fuel ua au d i p) (style_or_anonymous ct ai fuel ua au' d i p')).
  { intros i p p' P. unfold style_or_anonymous.
    destruct (data_of d i) as [dt|] eqn:Ed.
    - destruct dt as [ | | | | x |];
        try (unfold node_style, getn, data_of in *; destruct (nth_error (nodes d) i) as [n|]; [|discriminate Ed]; cbn [option_map bind] in *; injection Ed as ->; exact (relined_anonymous p p' P)).
      pose proof (push_same fuel d i au au' S) as Q.
      destruct (node_style ct ai fuel ua au d i p) as [s| |] eqn:N, (node_style ct ai fuel ua au' d i p') as [s'| |] eqn:N'; try exact (relined_anonymous p p' P).
      + eapply (C108_styles _ ct specificity (matchb fuel d i) [user_agent] (map rs src) (option_map ai (inline_style x)) p s [user_agent] (map rs src') (option_map ai (inline_style x)) p' s').
        * exact (node_style_element ct ai fuel ua au d i p s x ur ar (map rs src) Hu Ueq Har Aeq Ed N).
        * exact (node_style_element ct ai fuel ua au' d i p' s' x ur ar' (map rs src') Hu Ueq Har' Aeq' Ed N').
        * apply sheets_refl.
        * exact R.
        * destruct (inline_style x); cbn; [apply block_refl|exact I].
        * exact P.
      + exfalso. revert N N'. unfold node_style, getn, data_of in *. destruct (nth_error (nodes d) i) as [n|]; [|discriminate]. cbn [option_map bind] in *. injection Ed as ->.
        destruct (push_matching_in fuel d i ua); cbn [bind]; try discriminate. destruct (push_matching_in fuel d i au), (push_matching_in fuel d i au'); cbn [bind]; try contradiction; try discriminate.
        destruct (style_attribute x); [|discriminate]. destruct (parse_block ct (ai s0)); cbn; discriminate.
      + exfalso. revert N N'. unfold node_style, getn, data_of in *. destruct (nth_error (nodes d) i) as [n|]; [|discriminate]. cbn [option_map bind] in *. injection Ed as ->.
        destruct (push_matching_in fuel d i ua); cbn [bind]; try discriminate. destruct (push_matching_in fuel d i au), (push_matching_in fuel d i au'); cbn [bind]; try contradiction; try discriminate.
        destruct (style_attribute x); [|discriminate]. destruct (parse_block ct (ai s0)); cbn; discriminate.
      + exfalso. revert N N'. unfold node_style, getn, data_of in *. destruct (nth_error (nodes d) i) as [n|]; [|discriminate]. cbn [option_map bind] in *. injection Ed as ->.
        destruct (push_matching_in fuel d i ua); cbn [bind]; try discriminate. destruct (push_matching_in fuel d i au), (push_matching_in fuel d i au'); cbn [bind]; try contradiction; try discriminate.
        destruct (style_attribute x); [|discriminate]. destruct (parse_block ct (ai s)); cbn; discriminate.
      + exfalso. revert N N'. unfold node_style, getn, data_of in *. destruct (nth_error (nodes d) i) as [n|]; [|discriminate]. cbn [option_map bind] in *. injection Ed as ->.
        destruct (push_matching_in fuel d i ua); cbn [bind]; try discriminate. destruct (push_matching_in fuel d i au), (push_matching_in fuel d i au'); cbn [bind]; try contradiction; try discriminate.
        destruct (style_attribute x); [|discriminate]. destruct (parse_block ct (ai s)); cbn; discriminate.
    - unfold node_style, getn, data_of in *. destruct (nth_error (nodes d) i); [discriminate Ed|]. exact (relined_anonymous p p' P). }
  intros i. split; [apply K; exact I|]. intros p p' P. apply K. exact P.
Qed.
Print Assumptions C108_document.

(* ------------------------------------------------------------------ *)
(** * Examples *)

(** The document of C89 with the user sheet `div { border-top-style: solid; border-left-style: solid; color: red }`, or with
    dashed and dotted lines. *)
Definition line_sheet (t : text) : list (rule selector) :=
  let k := if list_eq_dec N.eq_dec t (txt "solid") then "solid" else "dashed" in
  let k' := if list_eq_dec N.eq_dec t (txt "solid") then "solid" else "dotted" in
  [RStyle [Selector [SLocal "div" "div"] []]
     [dcl "border-top-style" [TIdent k]; dcl "border-left-style" [TIdent k']; dcl "color" [TIdent "red"]]].
Definition line_drawing (user : string) : result (list dcall) :=
  do (style_of, root) <- document_input ex_ct line_sheet hide_items 20 (attr_doc []) (Some (txt user));
  Ok (fst (drawing_calls ex_font_of ex_width style_of (attr_doc []) root ex_page)).
Definition line_types (cs : list dcall) : list line_style := flat_map (fun c => match c with DLine _ _ _ k => [k] | _ => [] end) cs.
Example C108_case :
  borderless (@ex_font_of Exact) /\ borderless (@ex_width Exact) /\
  relined_sheets ex_ct (map line_sheet [txt "solid"]) (map line_sheet [txt "dashed"]) /\
  parse_stylesheets 20 (attr_doc []) (Some (txt "solid")) = Ok [txt "solid"] /\
  parse_stylesheets 20 (attr_doc []) (Some (txt "dashed")) = Ok [txt "dashed"] /\
  (do cs <- line_drawing "solid"; Ok (map call_kind (filter (fun c => negb (String.eqb (call_kind c) "box")) cs))) = Ok ["hi"; "line"; "line"; "yo"; "bye"] /\
  (do cs <- line_drawing "solid"; Ok (line_types cs)) = Ok [LSSolid; LSSolid] /\
  (do cs <- line_drawing "dashed"; Ok (line_types cs)) = Ok [LSDashed; LSDotted].
Proof.
  split; [intros s s' [H _]; unfold ex_font_of; try rewrite !H by reflexivity; reflexivity|].
  split; [intros s s' [H _]; unfold ex_width; try rewrite !H by reflexivity; reflexivity|].
  split.
  { constructor; [|constructor]; constructor; [|constructor]; constructor. unfold relined_block.
    match goal with |- Forall2 _ ?a ?b => let x := eval vm_compute in a in let y := eval vm_compute in b in change (Forall2 (fun e e' : decl * bool => relined_decl (fst e) (fst e') /\ snd e' = snd e) x y) end.
    repeat constructor; cbn [fst snd]; try discriminate. }
  repeat (split; [vm_compute; reflexivity|]). vm_compute. reflexivity.
Qed.
(** Whether there is a border does move things: `none` is not a change of that kind. *)
Example C108_condition_needed :
  map call_kind (fst (drawing_calls ex_font_of ex_width (fun _ p => css p [prop "display" "block"; prop "border-top-style" "solid"]) ex_doc PropPaint.ex_root ex_page)) <>
  map call_kind (fst (drawing_calls ex_font_of ex_width (fun _ p => css p [prop "display" "block"; prop "border-top-style" "none"]) ex_doc PropPaint.ex_root ex_page)).
Proof. vm_compute. discriminate. Qed.
