(** Text already there stays where it is when more is appended (C88). *)
From Verif Require Import BlockModel BlockSpec BlockFrame BlockGen StyleModel StyleSpec StyleExample GeomModel TreeModel TreeSpec TreeFacts TreeInv PropTree.
From Verif Require Import Base Len DomModel DomSpec UnsetModel GfxModel PaintModel PaintSpec PaintProofs PropPaint PropText F32 F32Facts.
From Verif Require Import AppendSpec AppendBox AppendProofs AppendExact.
Local Open Scope string_scope.
Local Open Scope list_scope.

Section Any.
Context {ar : Arith} {Z : ZeroLaws ar}.
Variable font_of : style -> font.
Variable width_of : style -> text -> Len.
Notation ma := (fun st => f_ascent (font_of st)).
Notation md := (fun st => f_descent (font_of st)).
Definition anonymous_ok (allow : Prop) : Prop := allow -> forall st l more cb rank abs floats col fl a rank' abs' floats' fl' a',
  wf_container (BlockLevelBoxes (SameFC (anonymous_inheriting_from (Some st)) (InlineFC st l) :: more)) -> af_container (InlineFC st l) ->
  cb_block cb = LAAuto ->
  layout_container ma md width_of (InlineFC st l) cb rank abs floats col = Ok (fl, a) ->
  layout_container ma md width_of (BlockLevelBoxes (SameFC (anonymous_inheriting_from (Some st)) (InlineFC st l) :: more)) cb rank' abs' floats' col = Ok (fl', a') ->
  flow_longer font_of fl fl'.

Lemma root_appended allow st kids kids' b b' page fs fs' : anonymous_ok allow ->
  appended allow st kids kids' -> Forall no_absolute kids -> is_absolutely_positioned (sv st Lposition) = false ->
  construct_root st kids = TreeModel.Done b -> construct_root st kids' = TreeModel.Done b' -> wf_bfc b -> wf_bfc b' ->
  layout_root ma md width_of b page = Ok fs -> layout_root ma md width_of b' page = Ok fs' ->
  prefix (flat_map (drawn font_of (l0, l0)) fs) (flat_map (drawn font_of (l0, l0)) fs').
Proof.
  intros An Ap Na Ra C C' W W' L L'.
  assert (N : forall b, construct_root st kids = TreeModel.Done b -> af_bfc b).
  { intros b0. unfold construct_root, construct_bfc. rewrite Ra.
    assert (K : forall c fl, construct_container st kids = TreeModel.Done (c, fl) -> af_container c) by (intros c fl; apply af_built; exact Na).
    destruct (construct_container st kids) as [[c fl]| |]; cbn [obind];
      destruct (sv st Ldisplay); try discriminate; try (intros [= <-]; exact I);
      (destruct (is_floating (sv st Lfloat)); intros [= <-]; [split; exact I|split; [exact (K _ _ eq_refl)|exact I]]). }
  specialize (N b C).
  unfold layout_root in L, L'.
  destruct (layout_bfc ma md width_of b _ 0 []) as [[fl a]| |] eqn:E in L; cbn [bind] in L; try discriminate.
  destruct (layout_bfc ma md width_of b' _ 0 []) as [[fl' a']| |] eqn:E' in L'; cbn [bind] in L'; try discriminate.
  pose proof (proj1 (proj2 (proj2 (free_layout ma md width_of)) b N _ _ _ _ _ E)) as ->. cbn [mapR bind] in L. injection L as <-.
  destruct (mapR _ a') as [late| |]; cbn [bind] in L'; try discriminate. injection L' as <-.
  rewrite app_nil_r, flat_map_app. apply prefix_more.
  unfold construct_root, construct_bfc in C, C'. rewrite Ra in C, C'.
  assert (K : sv st Ldisplay = DispNone \/ sv st Ldisplay <> DispNone) by (destruct (sv st Ldisplay); [left; reflexivity|right; discriminate..]).
  destruct K as [D|D].
  { rewrite D in C. injection C as <-. cbn in E. injection E as <-. apply prefix_nil. }
  destruct (construct_container st kids) as [[c f0]| |] eqn:Ec; cbn [obind] in C; [|destruct (sv st Ldisplay); [contradiction|discriminate..]..].
  destruct (construct_container st kids') as [[c' f0']| |] eqn:Ec'; cbn [obind] in C'; [|destruct (sv st Ldisplay); [contradiction|discriminate..]..].
  pose proof (longer_boxes allow st kids kids' Ap _ _ _ _ Ec Ec') as Lg.
  destruct (is_floating (sv st Lfloat)).
  { assert (b = BFC true (BlockLevelBoxes [BFloat st (BFC f0 c)])) as -> by (revert C D; destruct (sv st Ldisplay); [intros _ D; contradiction|intros [= <-] _; reflexivity..]).
    cbn in E. unfold bfc_finish, layout_block_level_children in E. cbn in E. rewrite zero_zero in E. cbn in E. injection E as <-. apply prefix_nil. }
  assert (b = BFC false (BlockLevelBoxes [Indep st (BFC f0 c)])) as -> by (revert C D; destruct (sv st Ldisplay); [intros _ D; contradiction|intros [= <-] _; reflexivity..]).
  assert (b' = BFC false (BlockLevelBoxes [Indep st (BFC f0' c')])) as -> by (revert C' D; destruct (sv st Ldisplay); [intros _ D; contradiction|intros [= <-] _; reflexivity..]).
  apply bfc_inv in E as (g & E & -> & _). apply bfc_inv in E' as (g' & E' & -> & _).
  assert (LL : longer allow false (BlockLevelBoxes [Indep st (BFC f0 c)]) (BlockLevelBoxes [Indep st (BFC f0' c')])) by exact (L_indep allow false [] st f0 f0' c c' [] Lg).
  destruct (longer_layout font_of ma md width_of allow An _ _ _ LL W W' N _ ltac:(discriminate) _ _ _ _ _ _ _ _ _ _ _ E E') as [T|(_ & _ & _ & P)].
  - rewrite textlesses_drawn by exact T. apply prefix_nil.
  - apply P.
Qed.
Lemma drawing_appended allow ct style_of style_of' d d' root root' page : anonymous_ok allow -> styles_computed ct style_of -> styles_computed ct style_of' ->
  root_style style_of root = root_style style_of' root' ->
  appended allow (root_style style_of root) (root_kids style_of d root) (root_kids style_of' d' root') ->
  is_absolutely_positioned (sv (root_style style_of root) Lposition) = false -> Forall no_absolute (root_kids style_of d root) ->
  snd (drawing_calls font_of width_of style_of d root page) = Finished ->
  snd (drawing_calls font_of width_of style_of' d' root' page) = Finished ->
  exists more, texts_drawn (fst (drawing_calls font_of width_of style_of' d' root' page)) =
               texts_drawn (fst (drawing_calls font_of width_of style_of d root page)) ++ more.
Proof.
  intros An C C' Rs Ap Ra Na. unfold drawing_calls.
  destruct (construct_document style_of d root) as [b| |] eqn:E; try discriminate.
  destruct (construct_document style_of' d' root') as [b'| |] eqn:E'; try (intros _; discriminate). intros _ _.
  destruct (C45_whole_document ct style_of d root b ma md width_of page C E) as (W & _ & fs & L).
  destruct (C45_whole_document ct style_of' d' root' b' ma md width_of page C' E') as (W' & _ & fs' & L').
  rewrite L, L'. destruct (page_drawn font_of fs page) as (cs & -> & T). destruct (page_drawn font_of fs' page) as (cs' & -> & T'). cbn [fst]. rewrite T, T'.
  destruct root as [i ts], root' as [i' ts']. cbn [root_style root_kids construct_document] in *. rewrite <- Rs in *.
  exact (root_appended _ _ _ _ _ _ _ _ _ An Ap Na Ra E E' W W' L L').
Qed.
End Any.

(** Append to a document without absolutely positioned elements: every text it had is drawn as before, in the same
    place, with the same font and colour, and before every new one.
    MISSING: inline content in a box of fixed height (C88_refuted), and documents with absolutely positioned elements,
    which may be anchored to the bottom of a box that grows. *)
Theorem C88_texts_stay_partial : forall font_of width_of ct style_of style_of' d d' root root' page_size,
  styles_computed ct style_of -> styles_computed ct style_of' ->
  root_style style_of root = root_style style_of' root' ->
  appended True (root_style style_of root) (root_kids style_of d root) (root_kids style_of' d' root') ->
  is_absolutely_positioned (sv (root_style style_of root) Lposition) = false -> Forall no_absolute (root_kids style_of d root) ->
  snd (drawing_calls font_of width_of style_of d root page_size) = Finished ->
  snd (drawing_calls font_of width_of style_of' d' root' page_size) = Finished ->
  exists more, texts_drawn (fst (drawing_calls font_of width_of style_of' d' root' page_size)) =
               texts_drawn (fst (drawing_calls font_of width_of style_of d root page_size)) ++ more.
Proof.
  intros font_of width_of ct style_of style_of' d d' root root' page. apply drawing_appended.
  intros _ st l more cb rank abs floats col fl a rank' abs' floats' fl' a'. apply anonymous_same.
Qed.
Print Assumptions C88_texts_stay_partial.

(** The same, to the bit, in the arithmetic of the code, if blocks come after blocks.
    MISSING: as above, and blocks after inline content. *)
Theorem C88_texts_stay_f32_partial : forall font_of width_of ct style_of style_of' d d' root root' page_size,
  @styles_computed F32 ct style_of -> styles_computed ct style_of' ->
  root_style style_of root = root_style style_of' root' ->
  appended False (root_style style_of root) (root_kids style_of d root) (root_kids style_of' d' root') ->
  is_absolutely_positioned (sv (root_style style_of root) Lposition) = false -> Forall no_absolute (root_kids style_of d root) ->
  snd (drawing_calls font_of width_of style_of d root page_size) = Finished ->
  snd (drawing_calls font_of width_of style_of' d' root' page_size) = Finished ->
  exists more, texts_drawn (fst (drawing_calls font_of width_of style_of' d' root' page_size)) =
               texts_drawn (fst (drawing_calls font_of width_of style_of d root page_size)) ++ more.
Proof. intros font_of width_of ct style_of style_of' d d' root root' page. apply drawing_appended. intros []. Qed.
Print Assumptions C88_texts_stay_f32_partial.

(** <html><p>hi</p></html> and <html><p>hi<p>you</p></p><p>bye</p></html>, every element a block with a margin *)
Definition short_doc : doc :=
  Doc [Node None None None (Some 1%nat) (Some 1%nat) DDocument;
       Node (Some 0%nat) None None (Some 2%nat) (Some 2%nat) (DElement (ex_elem "html"));
       Node (Some 1%nat) None None (Some 3%nat) (Some 3%nat) (DElement (ex_elem "p"));
       Node (Some 2%nat) None None None None (DomModel.DText (txt "hi"))] [].
Definition short_root : dtree := DT 1 [DT 2 [DT 3 []]].
Definition long_doc : doc :=
  Doc [Node None None None (Some 1%nat) (Some 1%nat) DDocument;
       Node (Some 0%nat) None None (Some 2%nat) (Some 6%nat) (DElement (ex_elem "html"));
       Node (Some 1%nat) None (Some 6%nat) (Some 3%nat) (Some 4%nat) (DElement (ex_elem "p"));
       Node (Some 2%nat) None (Some 4%nat) None None (DomModel.DText (txt "hi"));
       Node (Some 2%nat) (Some 3%nat) None (Some 5%nat) (Some 5%nat) (DElement (ex_elem "p"));
       Node (Some 4%nat) None None None None (DomModel.DText (txt "you"));
       Node (Some 1%nat) (Some 2%nat) None (Some 7%nat) (Some 7%nat) (DElement (ex_elem "p"));
       Node (Some 6%nat) None None None None (DomModel.DText (txt "bye"))] [].
Definition long_root : dtree := DT 1 [DT 2 [DT 3 []; DT 4 [DT 5 []]]; DT 6 [DT 7 []]].
Definition spaced (i : nat) (parent : option style) : style := css parent [prop "display" "block"; idecl "margin-top" [TDim (px 5) "px"]].
Definition places (cs : list dcall) : list (string * Q * Q) :=
  flat_map (fun c => match c with GfxModel.DText s x y _ _ => [(s, this x, this y)] | _ => [] end) cs.
Example C88_case : styles_computed ex_ct spaced /\
  appended True (root_style spaced short_root) (root_kids spaced short_doc short_root) (root_kids spaced long_doc long_root) /\
  is_absolutely_positioned (sv (root_style spaced short_root) Lposition) = false /\ Forall no_absolute (root_kids spaced short_doc short_root) /\
  snd (drawing_calls ex_font_of ex_width spaced short_doc short_root ex_page) = Finished /\
  snd (drawing_calls ex_font_of ex_width spaced long_doc long_root ex_page) = Finished /\
  places (fst (drawing_calls ex_font_of ex_width spaced short_doc short_root ex_page)) = [("hi", 0, 118#5)]%Q /\
  places (fst (drawing_calls ex_font_of ex_width spaced long_doc long_root ex_page)) = [("hi", 0, 118#5); ("you", 0, 239#5); ("bye", 0, 72)]%Q.
Proof.
  assert (C : styles_computed ex_ct spaced).
  { intros i parent. apply css_computed. cbn [style_for_element]. destruct (parse_block _ _) eqn:E; [reflexivity|vm_compute in E; discriminate..]. }
  assert (B : forall p, in_flow_block (spaced 2 p)).
  { intros [p|]; (split; [eexists; vm_compute; reflexivity|split; vm_compute; reflexivity]). }
  split; [exact C|]. split.
  - change (root_kids spaced short_doc short_root) with ([] ++ [SElem false (spaced 2 (Some (spaced 1 None))) [SText (txt "hi")]]).
    change (root_kids spaced long_doc long_root) with ([] ++ SElem false (spaced 2 (Some (spaced 1 None)))
      ([SText (txt "hi")] ++ SElem false (spaced 4 (Some (spaced 2 (Some (spaced 1 None))))) [SText (txt "you")] :: []) ::
      [SElem false (spaced 6 (Some (spaced 1 None))) [SText (txt "bye")]]).
    apply Append_inside; [apply B|]. apply Append_here; [split; [reflexivity|apply B]|]. right. split; [exact I|]. vm_compute. reflexivity.
  - split; [vm_compute; reflexivity|]. split.
    { constructor; [|constructor]. unfold no_absolute. cbn [boxes_styled root_kids map styled]. vm_compute. split; [reflexivity|]. split; exact I. }
    repeat split; vm_compute; reflexivity.
Qed.

(** FINDING: without the condition on the height it is false.  In a box of fixed height, inline content moved by a
    percentage of that height (position: relative) jumps when a block is appended: it is then in an anonymous block,
    and the percentage is that of an automatic height, zero. *)
Definition tall (i : nat) (parent : option style) : style :=
  match i with
  | 2%nat => css parent [prop "display" "block"; idecl "height" [TDim (px 50) "px"]]
  | 3%nat => css parent [prop "position" "relative"; idecl "top" [TPercent (px (1#2))]]
  | _ => css parent [prop "display" "block"]
  end.
Definition tall_doc (more : bool) : doc :=
  Doc ([Node None None None (Some 1%nat) (Some 1%nat) DDocument;
        Node (Some 0%nat) None None (Some 2%nat) (Some 2%nat) (DElement (ex_elem "html"));
        Node (Some 1%nat) None None (Some 3%nat) (Some (if more then 5%nat else 3%nat)) (DElement (ex_elem "div"));
        Node (Some 2%nat) None (if more then Some 5%nat else None) (Some 4%nat) (Some 4%nat) (DElement (ex_elem "span"));
        Node (Some 3%nat) None None None None (DomModel.DText (txt "hi"))] ++
       (if more then [Node (Some 2%nat) (Some 3%nat) None None None (DElement (ex_elem "p"))] else [])) [].
Definition tall_root (more : bool) : dtree := DT 1 [DT 2 (DT 3 [DT 4 []] :: if more then [DT 5 []] else [])].
Theorem C88_refuted : styles_computed ex_ct tall /\
  root_kids tall (tall_doc false) (tall_root false) =
    [SElem false (tall 2 (Some (tall 1 None))) [SElem false (tall 3 (Some (tall 2 (Some (tall 1 None))))) [SText (txt "hi")]]] /\
  root_kids tall (tall_doc true) (tall_root true) =
    [SElem false (tall 2 (Some (tall 1 None))) ([SElem false (tall 3 (Some (tall 2 (Some (tall 1 None))))) [SText (txt "hi")]] ++
       [SElem false (tall 5 (Some (tall 2 (Some (tall 1 None))))) []])] /\
  in_flow_block (tall 5 (Some (tall 2 (Some (tall 1 None))))) /\
  Forall no_absolute (root_kids tall (tall_doc true) (tall_root true)) /\
  snd (drawing_calls ex_font_of ex_width tall (tall_doc true) (tall_root true) ex_page) = Finished /\
  places (fst (drawing_calls ex_font_of ex_width tall (tall_doc false) (tall_root false) ex_page)) = [("hi", 0, 193#5)]%Q /\
  places (fst (drawing_calls ex_font_of ex_width tall (tall_doc true) (tall_root true) ex_page)) = [("hi", 0, 68#5)]%Q.
Proof.
  split.
  { intros i parent. unfold tall. destruct i as [|[|[|[|i]]]]; apply css_computed; cbn [style_for_element];
      (destruct (parse_block _ _) eqn:E; [reflexivity|vm_compute in E; discriminate..]). }
  split; [reflexivity|]. split; [reflexivity|]. split; [split; [eexists; vm_compute; reflexivity|split; vm_compute; reflexivity]|].
  split; [constructor; [|constructor]; unfold no_absolute; vm_compute; repeat split|].
  split; [vm_compute; reflexivity|]. split; vm_compute; reflexivity.
Qed.
Print Assumptions C88_refuted.

(** <html><p>hi</p></html> and <html><p>hi</p><p>hi</p></html> in f32, with the margins of 1/10px that it cannot
    represent exactly *)
Definition two_doc : doc :=
  Doc [Node None None None (Some 1%nat) (Some 1%nat) DDocument;
       Node (Some 0%nat) None None (Some 2%nat) (Some 4%nat) (DElement (ex_elem "html"));
       Node (Some 1%nat) None (Some 4%nat) (Some 3%nat) (Some 3%nat) (DElement (ex_elem "p"));
       Node (Some 2%nat) None None None None (DomModel.DText (txt "hi"));
       Node (Some 1%nat) (Some 2%nat) None (Some 5%nat) (Some 5%nat) (DElement (ex_elem "p"));
       Node (Some 4%nat) None None None None (DomModel.DText (txt "hi"))] [].
Definition two_root : dtree := DT 1 [DT 2 [DT 3 []]; DT 4 [DT 5 []]].
Definition spaced_f32 (i : nat) (parent : option (@style F32)) : @style F32 :=
  css parent [prop "display" "block"; idecl "margin-top" [TDim (px (1#10)) "px"]].
Example C88_f32_case : @styles_computed F32 ex_ct spaced_f32 /\
  appended False (root_style spaced_f32 short_root) (root_kids spaced_f32 short_doc short_root) (root_kids spaced_f32 two_doc two_root) /\
  is_absolutely_positioned (sv (root_style spaced_f32 short_root) Lposition) = false /\ Forall no_absolute (root_kids spaced_f32 short_doc short_root) /\
  snd (@drawing_calls F32 ex_font_of ex_width spaced_f32 short_doc short_root ex_page) = Finished /\
  snd (@drawing_calls F32 ex_font_of ex_width spaced_f32 two_doc two_root ex_page) = Finished /\
  flat_map text_of (fst (@drawing_calls F32 ex_font_of ex_width spaced_f32 two_doc two_root ex_page)) = ["hi"; "hi"].
Proof.
  assert (B : forall i p, (match sv (spaced_f32 i p) Ldisplay with DispBox OBlock _ => true | _ => false end &&
    negb (is_absolutely_positioned (sv (spaced_f32 i p) Lposition)) && negb (is_floating (sv (spaced_f32 i p) Lfloat)))%bool = true)
    by (intros i [p|]; vm_compute; reflexivity).
  assert (B' : forall i p, in_flow_block (spaced_f32 i p)).
  { intros i p. specialize (B i p). apply andb_prop in B as [B B3]. apply andb_prop in B as [B1 B2]. apply negb_true_iff in B2, B3.
    split; [|split; assumption]. destruct (sv (spaced_f32 i p) Ldisplay) as [| |[] k]; try discriminate. exists k. reflexivity. }
  split; [|split; [|split; [|split; [|split]]]].
  - intros i parent. apply css_computed. cbn [style_for_element].
    assert (H : (match parse_block (@ex_ct F32) [prop "display" "block"; idecl "margin-top" [TDim (px (1#10)) "px"]] with Ok _ => true | _ => false end) = true) by (vm_compute; reflexivity).
    destruct (parse_block _ _); [reflexivity|discriminate..].
  - change (root_kids spaced_f32 two_doc two_root) with (root_kids spaced_f32 short_doc short_root ++
      SElem false (spaced_f32 4 (Some (spaced_f32 1 None))) [SText (txt "hi")] :: []).
    apply Append_here; [split; [reflexivity|apply B']|]. left. left. split; [reflexivity|apply B'].
  - vm_compute. reflexivity.
  - constructor; [|constructor]. unfold no_absolute. change (boxes_styled (fun st : @style F32 => is_absolutely_positioned (sv st Lposition) = false)
      (SElem false (spaced_f32 2 (Some (spaced_f32 1 None))) [SText (txt "hi")])). cbn [boxes_styled fold_right].
    destruct (B' 2%nat (Some (spaced_f32 1 None))) as ((k & ->) & A & _). split; [exact A|split; exact I].
  - vm_compute. reflexivity.
  - split; vm_compute; reflexivity.
Qed.
