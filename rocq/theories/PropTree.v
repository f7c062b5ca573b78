(** Properties of box construction (C39, C40, C43-C48, C61). *)
From Verif Require PropDom.
From Verif Require Import StyleModel StyleSpec StyleExample BlockModel BlockSpec PropBlock.
From Verif Require Import TreeModel TreeSpec TreeFacts TreeProofs TreeInv TreeText.
From Verif Require Import Base DomModel DomSpec DomProofs UnsetModel UnsetProofs.
Local Open Scope string_scope.
Local Open Scope list_scope.

(* ------------------------------------------------------------------ *)
(** * Styles and documents for the examples *)

(** The style of an element with the given style attribute and no style sheets. *)
Definition css {ar : Arith} (parent : option style) (items : list item) : style :=
  match style_for_element ex_ct nat [] [] (fun _ => false) (Some items) parent with Ok s => s | _ => initial_style end.
Lemma css_computed {ar : Arith} parent items :
  match style_for_element ex_ct nat [] [] (fun _ => false) (Some items) parent with Ok _ => true | _ => false end = true ->
  exists (selector : Set) (specificity : selector -> N) (matches : selector -> bool) ua author attr,
    element_style ex_ct specificity matches ua author attr parent (css parent items).
Proof.
  intros H. exists nat, N.of_nat, (fun _ => false), [], [], (Some items), [], []. repeat split.
  unfold css. destruct (style_for_element _ _ _ _ _ _ _); [reflexivity|discriminate..].
Qed.
Definition prop {ar : Arith} (n v : string) : item := idecl n [TIdent v].
Definition body_style : style := css None [prop "display" "block"].
Definition p_style : style := css (Some body_style) [prop "display" "block"; prop "color" "red"].
Definition span_style : style := css (Some body_style) [prop "color" "blue"].
Definition pre_style : style := css (Some body_style) [prop "white-space" "pre"].
Definition none_style : style := css (Some body_style) [prop "display" "none"].
Definition abs_style : style := css (Some body_style) [prop "position" "absolute"].
Definition float_style : style := css (Some body_style) [prop "float" "left"].
Definition preline_style : style := css (Some body_style) [prop "white-space" "pre-line"].
Definition contents_style : style := css (Some body_style) [prop "display" "contents"; prop "color" "blue"].
Definition span (st : style) (kids : list snode) : snode := SElem false st kids.
Ltac computed_tac :=
  repeat (exact I || (apply css_computed; vm_compute; reflexivity) || split || constructor).

(* ------------------------------------------------------------------ *)
(** * C39: collapsing *)

(** An element with text only becomes one run of text: the words of the text, with single spaces between them.
    A space may be left at the end, none at the start. *)
Theorem C39_collapsing {ar : Arith} : forall st kids, collapses st -> only_text kids -> exists out,
  construct_container st kids =
    Done (match out with [] => BlockLevelBoxes [] | _ => InlineFC st [TextRun st out st] end, false) /\
  words out = words (written kids) /\ solid out = solid (written kids) /\
  (forall c, In c out -> is_ws c -> c = 32%N) /\
  (forall a b, out <> a ++ 32%N :: 32%N :: b) /\ (forall b, out <> 32%N :: b).
Proof.
  intros st kids C H. exists (squeeze true (written kids)). split.
  { rewrite (only_text_container st kids C H). destruct (squeeze true (written kids)); reflexivity. }
  split; [apply squeeze_words; reflexivity|]. split; [apply squeeze_solid|].
  split; [intros c; apply squeeze_in|]. split; [apply squeeze_no_double|apply squeeze_true_start].
Qed.
Print Assumptions C39_collapsing.
(** Text that has been collapsed stays as it is. *)
Theorem C39_idempotent {ar : Arith} : forall st kids out, collapses st -> only_text kids ->
  construct_container st kids = Done (InlineFC st [TextRun st out st], false) ->
  construct_container st [SText out] = Done (InlineFC st [TextRun st out st], false).
Proof.
  intros st kids out C H E. rewrite (only_text_container st kids C H) in E.
  destruct (squeeze true (written kids)) as [|c l] eqn:Es; [discriminate|]. injection E as <-.
  rewrite (only_text_container st [SText (c :: l)] C); [|repeat constructor].
  unfold written. cbn [flat_map text_content]. rewrite app_nil_r, <- Es, squeeze_idem, Es. reflexivity.
Qed.
Print Assumptions C39_idempotent.
Example C39_case : collapses span_style /\
  construct_container span_style [SText (txt "  a   bc "); SOther; SText (txt " d ")] =
    Done (InlineFC span_style [TextRun span_style (txt "a bc d ") span_style], false) /\
  words (txt "  a   bc  d ") = [txt "a"; txt "bc"; txt "d"].
Proof. split; [left; vm_compute; reflexivity|]. split; vm_compute; reflexivity. Qed.

(* ------------------------------------------------------------------ *)
(** * C40: white space between inline elements *)

(** FINDING: white space at the start of an inline element is dropped even after text: foo<em> bar</em> renders
    as "foobar". *)
Theorem C40_refuted : exists st kids c fl e, Forall (computed ex_ct (Some st)) kids /\ collapses st /\ Forall inline_only kids /\
  construct_container st kids = Done (c, fl) /\ container_events st c e /\ words (rendered_text e) <> words (written kids).
Proof.
  exists body_style, [SText (txt "foo"); span span_style [SText (txt " bar")]].
  exists (InlineFC body_style [TextRun body_style (txt "foo") body_style;
           InlineBox span_style true true [TextRun span_style (txt "bar") span_style]]), false.
  exists (chars body_style (txt "foo") ++ Open KInline span_style :: chars span_style (txt "bar") ++ [Close]).
  split; [computed_tac|]. split; [left; vm_compute; reflexivity|].
  split. { repeat constructor; vm_compute; auto. }
  split; [vm_compute; reflexivity|]. split; [|vm_compute; discriminate].
  apply Ce_inlines; [discriminate|].
  apply Ise_cons; [apply Ie_text; discriminate|]. rewrite <- app_nil_r. apply Ise_cons; [|constructor].
  apply Ie_box. rewrite <- app_nil_r. apply Ise_cons; [apply Ie_text; discriminate|constructor].
Qed.
Print Assumptions C40_refuted.
(** As long as the text of no inline element starts with white space, the words of the rendering are the words of
    the document, whatever elements they lie in, with single spaces between them.
    MISSING: white space at the start of an inline element (C40_refuted). *)
Theorem C40_partial {ar : Arith} : forall st kids c fl, collapses st -> Forall inline_only kids -> Forall no_leading_space kids ->
  construct_container st kids = Done (c, fl) ->
  exists e, container_events st c e /\ rendered_text e = squeeze true (written kids) /\
    words (rendered_text e) = words (written kids) /\ (forall a b, rendered_text e <> a ++ 32%N :: 32%N :: b).
Proof.
  intros st kids c fl C I1 N H. exists (xdocument st kids). split; [exact (container_renders _ _ _ _ H)|].
  rewrite (same_text _ _ (document_same st kids)), (document_flows st kids C I1 N).
  split; [reflexivity|]. split; [apply squeeze_words; reflexivity|apply squeeze_no_double].
Qed.
Print Assumptions C40_partial.
Example C40_case : let kids := [SText (txt "a "); span span_style [SText (txt "b")]; SText (txt "  c"); span none_style [SText (txt "x")];
    span span_style [span span_style [SText (txt "d ")]]; SText (txt " e")] in
  Forall inline_only kids /\ Forall no_leading_space kids /\ (exists r, construct_container body_style kids = Done r) /\
  written kids = txt "a b  cd  e" /\ squeeze true (written kids) = txt "a b cd e".
Proof.
  cbv zeta. split. { repeat constructor; vm_compute; auto. }
  split. { repeat constructor; cbn; try discriminate; intros W; vm_compute in W; intuition discriminate. }
  split; [apply (proj2 (container_succeeds _ _)); vm_compute; tauto|]. split; vm_compute; reflexivity.
Qed.

(* ------------------------------------------------------------------ *)
(** * C43: display:none *)

(** An element with display:none that is followed by a sibling contributes nothing. *)
Theorem C43_contributes_nothing {ar : Arith} : forall st a st' k n l, sv st' Ldisplay = DispNone ->
  construct_container st (a ++ SElem false st' k :: n :: l) = construct_container st (a ++ n :: l).
Proof.
  intros st a st' k n l D. unfold construct_container, traverse. f_equal.
  generalize (builder_new st). induction a as [|x a IH]; intros b.
  - cbn [app]. cbn [traverse_with handle_node]. rewrite D. reflexivity.
  - cbn [app traverse_with].
    replace (match a ++ SElem false st' k :: n :: l with [] => false | _ => true end)
      with (match a ++ n :: l with [] => false | _ => true end) by (destruct a; reflexivity).
    destruct (handle_node st x _ b) as [b'| |]; cbn; [apply IH|reflexivity..].
Qed.
Print Assumptions C43_contributes_nothing.
(** unset_boxes_in_subtree, which is called for such an element: with a next sibling it returns at once and
    changes nothing; this is the first layout of the document, so no element has a box yet.  Without a next
    sibling it never returns normally, whatever the state of the layout data. *)
Theorem C43_unset_with_sibling : forall fuel d base c n s, nth_error (nodes d) base = Some n -> n_next n = Some s ->
  c base = Empty -> exists c', unset_boxes_in_subtree (S (S fuel)) d base c = Ok c' /\ forall i, c' i = c i.
Proof. exact unset_returns_at_once. Qed.
Print Assumptions C43_unset_with_sibling.
Theorem C43_unset_never_returns : forall d base n c, nth_error (nodes d) base = Some n -> n_next n = None ->
  forall fuel c', unset_boxes_in_subtree fuel d base c <> Ok c'.
Proof.
  intros d base n c Hn Hs fuel c' H. destruct (unset_returns _ _ _ _ _ _ H) as (m & s & Hm & Hms). congruence.
Qed.
Print Assumptions C43_unset_never_returns.
(** FINDING: on a document in which no box has been made it loops for ever. *)
Theorem C43_unset_refuted : forall d base n, reach d -> nth_error (nodes d) base = Some n -> n_next n = None ->
  n_parent n <> None -> forall fuel, unset_boxes_in_subtree fuel d base (fun _ => Empty) = OutOfFuel.
Proof.
  intros d base n R Hn Hs Hp fuel. apply (unset_hangs d base n (proj1 (PropDom.C01_links_consistent d R)) Hn Hs fuel _ base n); auto.
Qed.
Print Assumptions C43_unset_refuted.
(** The next sibling in the child list is the next_sibling of the node: what [has_next] stands for. *)
Theorem C43_next_sibling : forall d p a i rest, kids d p (a ++ i :: rest) ->
  exists n, nth_error (nodes d) i = Some n /\ n_next n = hd_error rest.
Proof. exact kids_next. Qed.
Print Assumptions C43_next_sibling.
(** FINDING: so a document with a display:none element that is the last child of its parent is never rendered. *)
Lemma root_succeeds {ar : Arith} st kids : is_done (construct_root st kids) <-> sv st Ldisplay = DispNone \/ supported_contents st kids.
Proof.
  unfold construct_root, construct_bfc. rewrite <- container_succeeds. unfold is_done.
  destruct (sv st Ldisplay); [split; [tauto|intros _; eexists; reflexivity]|..];
  (split;
   [ intros [r H]; right; destruct (construct_container st kids) as [a| |]; [exists a; reflexivity|discriminate H..]
   | intros [H|[[c fl] ->]]; [discriminate|]; cbn; destruct (is_absolutely_positioned _); [|destruct (is_floating _)];
     eexists; reflexivity ]).
Qed.
Theorem C43_refuted {ar : Arith} : forall st kids st0 a st' k, sv st Ldisplay <> DispNone ->
  rendered [SElem false st kids] (SElem false st0 (a ++ [SElem false st' k])) -> sv st0 Ldisplay <> DispNone ->
  sv st' Ldisplay = DispNone -> forall r, construct_root st kids <> Done r.
Proof.
  intros st kids st0 a st' k Dr R D0 D r H.
  assert (S : supported_contents st kids).
  { destruct (proj1 (root_succeeds st kids) (ex_intro _ r H)); [contradiction|assumption]. }
  assert (exists inl, supported_with (supported st0 inl) (a ++ [SElem false st' k])) as (inl & K).
  { inversion R as [? ? Hn|? st1 ks ? Hn D1 R1]; subst; (destruct Hn as [E|[]]); injection E as -> ->.
    - exists false. exact S.
    - destruct (supported_rendered _ _ R1 _ _ S) as (ps & inl & hn & S1).
      destruct (supported_below _ _ _ _ _ D0 S1) as (inl' & _ & S2). exists inl'. exact S2. }
  apply supported_at in K. cbn in K. rewrite D in K. discriminate.
Qed.
Print Assumptions C43_refuted.
Example C43_case : let script := span none_style [SText (txt "x")] in
  sv none_style Ldisplay = DispNone /\ sv body_style Ldisplay = DispBox OBlock IFlow /\
  construct_container body_style [SText (txt "a"); script; SText (txt "b")] =
    Done (InlineFC body_style [TextRun body_style (txt "ab") body_style], false) /\
  construct_root body_style [SText (txt "a"); script] = Fatal /\
  rendered [span body_style [SText (txt "a"); script]] (span body_style ([SText (txt "a")] ++ [script])).
Proof.
  cbv zeta. split; [vm_compute; reflexivity|]. split; [vm_compute; reflexivity|]. split; [vm_compute; reflexivity|].
  split; [vm_compute; reflexivity|]. apply Rn_here. left. reflexivity.
Qed.

(* ------------------------------------------------------------------ *)
(** * C44: a block-level element inside an inline element *)

(** FINDING: a document with a block-level element directly inside an inline element, at any depth, is never
    rendered. *)
Theorem C44_refuted {ar : Arith} : forall st kids sti a stb k b, sv st Ldisplay <> DispNone ->
  rendered kids (SElem false sti (a ++ SElem false stb k :: b)) ->
  sv sti Ldisplay = DispBox OInline IFlow -> block_level_element stb ->
  forall r, construct_root st kids <> Done r.
Proof.
  intros st kids sti a stb k b Dr R Di ([i Db] & Dp & Df) r H.
  assert (S : supported_contents st kids).
  { destruct (proj1 (root_succeeds st kids) (ex_intro _ r H)); [contradiction|assumption]. }
  destruct (supported_rendered _ _ R _ _ S) as (ps & inl & hn & S1).
  assert (Dn : sv sti Ldisplay <> DispNone) by (rewrite Di; discriminate).
  destruct (supported_below _ _ _ _ _ Dn S1) as (inl' & Hi & S2). rewrite (Hi Di) in S2.
  apply supported_at in S2. cbn in S2. rewrite Db, Dp, Df in S2. destruct S2 as [S2 _]. discriminate.
Qed.
Print Assumptions C44_refuted.
Example C44_case : let kids := [span p_style [SText (txt "a"); span span_style [SText (txt "b"); span p_style [SText (txt "c")]; SText (txt "d")]]] in
  sv span_style Ldisplay = DispBox OInline IFlow /\ block_level_element p_style /\
  rendered kids (span span_style ([SText (txt "b")] ++ span p_style [SText (txt "c")] :: [SText (txt "d")])) /\
  construct_root body_style kids = Fatal.
Proof.
  cbv zeta. split; [vm_compute; reflexivity|]. split.
  { split; [exists IFlow; vm_compute; reflexivity|]. split; vm_compute; reflexivity. }
  split; [|vm_compute; reflexivity].
  eapply Rn_below; [left; reflexivity|vm_compute; discriminate|]. apply Rn_here. right. left. reflexivity.
Qed.

(* ------------------------------------------------------------------ *)
(** * C45: content in document order, well-formed box trees *)

(** The boxes of a container open, close and hold text exactly as the document does, in document order; the text
    is that of the document after white-space processing.  (The style of characters is C46.) *)
Theorem C45_content {ar : Arith} : forall st kids c fl, construct_container st kids = Done (c, fl) ->
  exists e, container_events st c e /\ Forall2 same_content e (document_events st kids).
Proof.
  intros st kids c fl H. exists (xdocument st kids). split; [exact (container_renders _ _ _ _ H)|apply document_same].
Qed.
Print Assumptions C45_content.
(** The same for whole documents. *)
Lemma same_refl {ar : Arith} e : Forall2 same_content e e.
Proof. induction e as [|[] e IH]; constructor; try assumption; reflexivity. Qed.
Theorem C45_document {ar : Arith} : forall st kids r, construct_root st kids = Done r ->
  exists fl l e, r = BFC fl (BlockLevelBoxes l) /\ (List.length l <= 1)%nat /\
    (forall any, boxes_events any l e) /\ Forall2 same_content e (root_events st kids).
Proof.
  intros st kids r H. unfold construct_root in H. unfold root_events, root_kind.
  destruct (sv st Ldisplay) eqn:D.
  { injection H as <-. exists false, [], []. split; [reflexivity|]. split; [cbn; lia|]. split; [intros any|]; constructor. }
  all: apply obind_done in H as (b & Hb & H); unfold construct_bfc in Hb; apply obind_done in Hb as ([c fl] & Hc & Hb);
    injection Hb as <-; destruct (C45_content _ _ _ _ Hc) as (e & He & Se);
    assert (L : forall k, Forall2 same_content (Open k st :: e ++ [Close]) (Open k st :: document_events st kids ++ [Close]))
      by (intros k; constructor; [reflexivity|apply Forall2_app; [exact Se|apply same_refl]]);
    (destruct (is_absolutely_positioned (sv st Lposition)); [|destruct (is_floating (sv st Lfloat))]);
    injection H as <-; do 2 eexists; eexists (_ :: e ++ [Close]);
    (split; [reflexivity|]); (split; [cbn; lia|]); (split; [|apply L]);
    intros any; rewrite <- (app_nil_r (_ :: e ++ [Close])); (apply Bse_cons; [constructor; exact He|constructor]).
Qed.
Print Assumptions C45_document.
(** The box tree of a document with computed styles satisfies what layout expects (BlockSpec), so that a document
    whose boxes can be made can be laid out. *)
Theorem C45_well_formed {ar : Arith} : forall ct st kids r, computed ct None (SElem false st kids) ->
  construct_root st kids = Done r -> wf_bfc r.
Proof.
  intros ct st kids r C H. destruct C as [_ C]. apply fold_forall in C.
  assert (B : Forall (boxes_styled generates_box) kids).
  { eapply Forall_impl; [|exact C]. intros n. apply computed_boxes. }
  unfold construct_root in H. destruct (sv st Ldisplay) eqn:D; [injection H as <-; exact I|..];
    apply obind_done in H as (b & Hb & H); unfold construct_bfc in Hb; apply obind_done in Hb as ([c fl] & Hc & Hb);
    injection Hb as <-; pose proof (container_wf _ _ _ _ B Hc) as W;
    (destruct (is_absolutely_positioned (sv st Lposition)); [|destruct (is_floating (sv st Lfloat))]);
    injection H as <-; cbn; auto.
Qed.
Print Assumptions C45_well_formed.
Theorem C45_then_layout_succeeds {ar : Arith} {Z : ZeroLaws ar} : forall ct st kids r m_ascent m_descent m_width viewport,
  computed ct None (SElem false st kids) -> construct_root st kids = Done r ->
  exists fs, layout_root m_ascent m_descent m_width r viewport = Ok fs.
Proof. intros ct st kids r ma md mw v C H. apply C31_layout_never_fails. exact (C45_well_formed ct st kids r C H). Qed.
Print Assumptions C45_then_layout_succeeds.
Example C45_case : let kids := [SText (txt " a "); span span_style [SText (txt "b"); span (css (Some span_style) [prop "position" "absolute"]) [SText (txt "c")]]; SText (txt "d");
    span p_style [SText (txt "e ")]; span float_style []; SText (txt "f")] in
  computed ex_ct None (span body_style kids) /\ (exists r, construct_root body_style kids = Done r) /\
  rendered_text (root_events body_style kids) = txt "a bcde f".
Proof.
  cbv zeta. split; [computed_tac|]. split; [apply (proj2 (root_succeeds _ _)); vm_compute; tauto|vm_compute; reflexivity].
Qed.

(* ------------------------------------------------------------------ *)
(** * C46: the style of text *)

(** FINDING: text that follows a br (or text inside display:contents) without another element between them takes
    the style of the br. *)
Definition br_style : style := css (Some body_style) [prop "white-space" "pre"].
Theorem C46_refuted : exists st kids c fl, Forall (computed ex_ct (Some st)) kids /\
  construct_container st kids = Done (c, fl) /\ forall e, container_events st c e -> e <> document_events st kids.
Proof.
  exists body_style, [SElem true br_style []; SText (txt "a")].
  exists (InlineFC body_style [TextRun br_style (nl :: txt "a") br_style]), false.
  split; [computed_tac|]. split; [vm_compute; reflexivity|].
  intros e He. inversion He as [|? ? ? _ Hi]; subst. inversion Hi as [|? ? ? ? H1 H2]; subst. inversion H2; subst.
  inversion H1; subst. intros E. rewrite app_nil_r in E.
  apply (f_equal (map (fun x => match x with Char _ s => sv s Lwhite_space | _ => WSNormal end))) in E.
  vm_compute in E. discriminate.
Qed.
Print Assumptions C46_refuted.
(** In documents without br and without display:contents, every character has the style of its parent element.
    MISSING: br and display:contents (C46_refuted). *)
Theorem C46_partial {ar : Arith} : forall st kids c fl, Forall no_br_no_contents kids ->
  construct_container st kids = Done (c, fl) -> container_events st c (document_events st kids).
Proof.
  intros st kids c fl N H. rewrite <- (document_own_style st kids N). exact (container_renders _ _ _ _ H).
Qed.
Print Assumptions C46_partial.
Example C46_case : let kids := [SText (txt "a"); span span_style [SText (txt "b")]; SText (txt "c")] in
  Forall no_br_no_contents kids /\ (exists r, construct_container body_style kids = Done r) /\
  document_events body_style kids =
    [Char 97%N body_style; Open KInline span_style; Char 98%N span_style; Close; Char 99%N body_style].
Proof.
  cbv zeta. split; [repeat constructor|]. split; [apply (proj2 (container_succeeds _ _)); vm_compute; tauto|vm_compute; reflexivity].
Qed.

(* ------------------------------------------------------------------ *)
(** * C47: which documents can be rendered *)

(** FINDING: text under white-space: pre-line (or break-spaces) is never rendered. *)
Theorem C47_refuted {ar : Arith} : forall st kids stp a t b, sv st Ldisplay <> DispNone ->
  rendered [SElem false st kids] (SElem false stp (a ++ SText t :: b)) -> sv stp Ldisplay <> DispNone ->
  sv stp Lwhite_space = WSPreLine \/ sv stp Lwhite_space = WSBreakSpaces -> forall r, construct_root st kids <> Done r.
Proof.
  intros st kids stp a t b Dr R D0 W r H.
  assert (S : supported_contents st kids).
  { destruct (proj1 (root_succeeds st kids) (ex_intro _ r H)); [contradiction|assumption]. }
  assert (exists inl, supported_with (supported stp inl) (a ++ SText t :: b)) as (inl & K).
  { inversion R as [? ? Hn|? st1 ks ? Hn D1 R1]; subst; (destruct Hn as [E|[]]); injection E as -> ->.
    - exists false. exact S.
    - destruct (supported_rendered _ _ R1 _ _ S) as (ps & inl & hn & S1).
      destruct (supported_below _ _ _ _ _ D0 S1) as (inl' & _ & S2). exists inl'. exact S2. }
  apply supported_at in K. cbn in K. unfold white_space_supported in K. destruct W as [W|W]; rewrite W in K; exact K.
Qed.
Print Assumptions C47_refuted.
(** What can be rendered, exactly: see [supported_contents].
    MISSING: text under pre-line and break-spaces. *)
Theorem C47_partial {ar : Arith} : forall st kids, (exists r, construct_root st kids = Done r) <->
  sv st Ldisplay = DispNone \/ supported_contents st kids.
Proof. exact root_succeeds. Qed.
Print Assumptions C47_partial.
(** For text alone: every white-space value but those two. *)
Theorem C47_text_partial {ar : Arith} : forall st kids, sv st Lwhite_space <> WSPreLine -> sv st Lwhite_space <> WSBreakSpaces ->
  only_text kids -> exists r, construct_root st kids = Done r.
Proof.
  intros st kids W1 W2 H. apply (proj2 (root_succeeds _ _)). right. unfold supported_contents. induction H as [|n kids Hn H IH]; [exact I|].
  cbn. split; [|exact IH]. destruct n; [|exact I|destruct Hn]. cbn. unfold white_space_supported.
  destruct (sv st Lwhite_space); try exact I; congruence.
Qed.
Print Assumptions C47_text_partial.
Example C47_case : sv preline_style Lwhite_space = WSPreLine /\
  (exists ua_css, ua_css = [prop "white-space" "pre-line"]) /\
  construct_root preline_style [SText (txt "a")] = Panics /\
  construct_root body_style [span preline_style [SText (txt "a")]] = Fatal /\
  supported_contents body_style [span pre_style [SText (txt " a")]; span abs_style []; span p_style [span none_style []; SOther]].
Proof.
  split; [vm_compute; reflexivity|]. split; [eexists; reflexivity|]. split; [vm_compute; reflexivity|].
  split; [vm_compute; reflexivity|]. vm_compute. tauto.
Qed.

(* ------------------------------------------------------------------ *)
(** * C48: contains_floats *)

(** Every block formatting context of the box tree, at any depth, is marked as containing floats iff a float
    occurs in it outside nested formatting contexts. *)
Theorem C48_contains_floats {ar : Arith} : forall st kids r, construct_root st kids = Done r -> contexts_bfc flag_accurate r.
Proof.
  intros st kids r H. unfold construct_root in H. destruct (sv st Ldisplay) eqn:D; [injection H as <-; repeat split|..];
    apply obind_done in H as (b & Hb & H); unfold construct_bfc in Hb; apply obind_done in Hb as ([c fl] & Hc & Hb);
    injection Hb as <-; destruct (flags_accurate _ _ _ _ Hc) as [F1 F2];
    (destruct (is_absolutely_positioned (sv st Lposition)); [|destruct (is_floating (sv st Lfloat))]);
    injection H as <-; cbn; auto.
Qed.
Print Assumptions C48_contains_floats.
Example C48_case : match construct_root body_style [SText (txt "a"); span p_style [span span_style [span float_style []]]; span abs_style [span float_style []]] with
  | Done (BFC false (BlockLevelBoxes [Indep _ (BFC true (BlockLevelBoxes [_; SameFC _ _; BAbspos _ (BFC true _)]))])) => True
  | _ => False end.
Proof. vm_compute. exact I. Qed.

(* ------------------------------------------------------------------ *)
(** * C61: failures *)

(** FINDING: a document that cannot be rendered does not end in an error but in an aborted process (or an endless
    loop), unless a child of the root element is text (of the root or of a br or display:contents element): a
    panic while the box of any other element is being made is followed by a second panic in BoxSlot::drop. *)
Theorem C61_refuted {ar : Arith} : forall st kids, sv st Ldisplay <> DispNone -> ~ supported_contents st kids ->
  ~ Exists (catchable st) kids -> construct_root st kids = Fatal.
Proof.
  intros st kids D S C. unfold construct_root, construct_bfc. rewrite (container_fatal st kids S C).
  destruct (sv st Ldisplay); [congruence|reflexivity..].
Qed.
Print Assumptions C61_refuted.
Example C61_case : let kids := [SText (txt "a"); span p_style [span preline_style [SText (txt "b")]]] in
  ~ supported_contents body_style kids /\ ~ Exists (catchable body_style) kids.
Proof.
  cbv zeta. split; [vm_compute; tauto|]. intros E. inversion E as [? ? H|? ? H]; subst.
  - apply H. vm_compute. exact I.
  - inversion H as [? ? H1|? ? H1]; subst; [|inversion H1]. destruct H1 as [H1|H1]; vm_compute in H1; discriminate.
Qed.

(* ------------------------------------------------------------------ *)
(** * From documents to boxes *)

(** The tree that box construction works on has computed styles when the style of every element is computed from
    that of its parent. *)
Lemma styled_computed {ar : Arith} ct style_of d t : forall p,
  (forall i parent, exists (selector : Set) (specificity : selector -> N) (matches : selector -> bool) ua author attr,
     element_style ct specificity matches ua author attr parent (style_of i parent)) ->
  computed ct (Some p) (styled style_of d p t).
Proof.
  revert t. fix IH 1. intros [i ts] p H. cbn [styled]. destruct (data_of d i) as [[]|]; try exact I.
  cbn [computed]. split; [apply H|]. apply fold_forall. induction ts as [|t ts IHts]; constructor; [apply IH; exact H|exact IHts].
Qed.
Theorem C45_whole_document {ar : Arith} {Z : ZeroLaws ar} : forall ct style_of d root r m_ascent m_descent m_width viewport,
  (forall i parent, exists (selector : Set) (specificity : selector -> N) (matches : selector -> bool) ua author attr,
     element_style ct specificity matches ua author attr parent (style_of i parent)) ->
  construct_document style_of d root = Done r ->
  wf_bfc r /\ contexts_bfc flag_accurate r /\ exists fs, layout_root m_ascent m_descent m_width r viewport = Ok fs.
Proof.
  intros ct style_of d [i ts] r ma md mw v H E. cbn in E.
  assert (C : computed ct None (SElem false (style_of i None) (map (styled style_of d (style_of i None)) ts))).
  { cbn [computed]. split; [apply H|]. apply fold_forall, Forall_forall. intros n Hn. apply in_map_iff in Hn as (t & <- & _).
    apply styled_computed. exact H. }
  split; [exact (C45_well_formed ct _ _ _ C E)|]. split; [exact (C48_contains_floats _ _ _ E)|].
  exact (C45_then_layout_succeeds ct _ _ _ ma md mw v C E).
Qed.
Print Assumptions C45_whole_document.
