(** A block that adds nothing changes nothing that is seen (C97). *)
From Verif Require Import BlockModel BlockSpec BlockFrame BlockGen StyleModel StyleSpec StyleExample GeomModel TreeModel TreeSpec TreeFacts TreeProofs TreeText TreeInv PropTree.
From Verif Require Import Base Len DomModel DomSpec UnsetModel GfxModel PaintModel PaintSpec PaintProofs PropPaint PropText.
From Verif Require Import AppendSpec AppendBox AppendProofs AppendExact PropAppend PropPrepend WrapSpec WrapInline WrapBlock WrapTree UnboxSpec UnboxProofs UnboxBox.
Local Open Scope string_scope.
Local Open Scope list_scope.

(** what holds of every element still does *)
Lemma unboxed_styled G st kids kids' : unboxed st kids kids' -> Forall (boxes_styled G) kids -> Forall (boxes_styled G) kids'.
Proof.
  induction 1 as [parent before st inner after Ah Bn Fi Ei Se | parent before st kids kids' after B U IH]; intros F;
    apply Forall_app in F as [F1 F]; inversion F as [|? ? F2 F3]; subst; cbn [boxes_styled] in F2.
  - rewrite (bn_block _ Bn) in F2. destruct F2 as [_ F2]. apply fold_forall in F2. apply Forall_app. split; [exact F1|]. apply Forall_app. split; assumption.
  - apply Forall_app. split; [exact F1|]. constructor; [|exact F3]. cbn [boxes_styled]. destruct B as ((i & D) & _). rewrite D in *. destruct F2 as [G2 F2].
    split; [exact G2|]. apply fold_forall. apply IH. apply fold_forall. exact F2.
Qed.
Lemma root_wf st kids r : Forall (boxes_styled generates_box) kids -> construct_root st kids = TreeModel.Done r -> wf_bfc r.
Proof.
  intros B H. unfold construct_root in H. destruct (sv st Ldisplay) eqn:D; [injection H as <-; exact I|..];
    apply obind_done in H as (b & Hb & H); unfold construct_bfc in Hb; apply obind_done in Hb as ([c fl] & Hc & Hb);
    injection Hb as <-; pose proof (container_wf _ _ _ _ B Hc) as W;
    (destruct (is_absolutely_positioned (sv st Lposition)); [|destruct (is_floating (sv st Lfloat))]);
    injection H as <-; cbn; auto.
Qed.
Lemma kids_computed ct so d root : styles_computed ct so -> Forall (boxes_styled generates_box) (root_kids so d root).
Proof.
  intros C. destruct root as [i ts]. apply Forall_forall. intros n Hn. apply in_map_iff in Hn as (t & <- & _).
  eapply computed_boxes. apply styled_computed. exact C.
Qed.

Section Root.
Variable font_of : style -> font.
Variable width_of : style -> text -> Len.
Notation ma := (fun st => f_ascent (font_of st)).
Notation md := (fun st => f_descent (font_of st)).

Lemma root_unboxed st kids kids' b b' page fs fs' :
  unboxed st kids kids' -> Forall no_absolute kids -> Forall no_absolute kids' -> Forall (boxes_styled plain_padding) kids ->
  is_absolutely_positioned (sv st Lposition) = false ->
  construct_root st kids = TreeModel.Done b -> construct_root st kids' = TreeModel.Done b' -> wf_bfc b -> wf_bfc b' ->
  layout_root ma md width_of b page = Ok fs -> layout_root ma md width_of b' page = Ok fs' ->
  filter has_extent (flat_map (seen font_of (l0, l0)) fs') = filter has_extent (flat_map (seen font_of (l0, l0)) fs).
Proof.
  intros Ub Na Na' Pp Ra C C' W W' L L'. pose proof (af_root _ _ _ Na Ra C) as N. pose proof (af_root _ _ _ Na' Ra C') as N'.
  unfold layout_root in L, L'.
  destruct (layout_bfc ma md width_of b _ 0 []) as [[fl a]| |] eqn:E in L; cbn [bind] in L; try discriminate.
  destruct (layout_bfc ma md width_of b' _ 0 []) as [[fl' a']| |] eqn:E' in L'; cbn [bind] in L'; try discriminate.
  pose proof (proj1 (proj2 (proj2 (free_layout ma md width_of)) b N _ _ _ _ _ E)) as ->. cbn [mapR bind] in L. injection L as <-.
  pose proof (proj1 (proj2 (proj2 (free_layout ma md width_of)) b' N' _ _ _ _ _ E')) as ->. cbn [mapR bind] in L'. injection L' as <-.
  rewrite !app_nil_r.
  unfold construct_root, construct_bfc in C, C'. rewrite Ra in C, C'.
  assert (K : sv st Ldisplay = DispNone \/ sv st Ldisplay <> DispNone) by (destruct (sv st Ldisplay); [left; reflexivity|right; discriminate..]).
  destruct K as [D|D].
  { rewrite D in C, C'. injection C as <-. injection C' as <-. rewrite E in E'. injection E' as <-. reflexivity. }
  destruct (construct_container st kids) as [[c f0]| |] eqn:Ec; cbn [obind] in C; [|destruct (sv st Ldisplay); [contradiction|discriminate..]..].
  destruct (construct_container st kids') as [[c' f0']| |] eqn:Ec'; cbn [obind] in C'; [|destruct (sv st Ldisplay); [contradiction|discriminate..]..].
  pose proof (fewer_boxes st kids kids' Ub _ _ _ _ Ec Ec') as Fw. pose proof (pp_built _ _ _ _ Pp Ec) as Pc.
  destruct (is_floating (sv st Lfloat)).
  { assert (b = BFC true (BlockLevelBoxes [BFloat st (BFC f0 c)])) as -> by (revert C D; destruct (sv st Ldisplay); [intros _ D; contradiction|intros [= <-] _; reflexivity..]).
    assert (b' = BFC true (BlockLevelBoxes [BFloat st (BFC f0' c')])) as -> by (revert C' D; destruct (sv st Ldisplay); [intros _ D; contradiction|intros [= <-] _; reflexivity..]).
    cbn in E, E'. unfold bfc_finish, layout_block_level_children in E, E'. cbn in E, E'. injection E as <-. injection E' as <-. reflexivity. }
  assert (b = BFC false (BlockLevelBoxes [Indep st (BFC f0 c)])) as -> by (revert C D; destruct (sv st Ldisplay); [intros _ D; contradiction|intros [= <-] _; reflexivity..]).
  assert (b' = BFC false (BlockLevelBoxes [Indep st (BFC f0' c')])) as -> by (revert C' D; destruct (sv st Ldisplay); [intros _ D; contradiction|intros [= <-] _; reflexivity..]).
  apply bfc_inv in E as (g & E & -> & _). apply bfc_inv in E' as (g' & E' & -> & _).
  apply (fewer_layout font_of ma md width_of false _ _ (F_indep false [] st f0 f0' c c' [] Fw) W W' N N' (conj Pc I) _ (fun X => False_ind _ (Bool.diff_false_true X)) _ _ _ _ _ _ _ _ _ _ _ E E').
Qed.
End Root.

Lemma same_nodes_unwrapped st first kids kids' : Forall2 same_node kids kids' -> unwrapped st first kids kids'.
Proof. intros F. revert first. induction F as [|n n' kids kids' Hn _ IH]; intros first; [constructor|]. apply U_node; [apply UN_same, Hn|apply IH]. Qed.
Lemma extent_visible cs : with_extent cs = filter has_extent (visible cs).
Proof. unfold with_extent, visible. induction cs as [|c cs IH]; [reflexivity|]. destruct c as [| | |[]] || destruct c; cbn [filter]; rewrite ?IH; reflexivity. Qed.

(** Take away a block that adds nothing and leave its contents, blocks, in its place: the same texts, rectangles and lines
    are drawn, in the same order and the same places, apart from rectangles of no height and lines that are points. *)
Theorem C97_adds_nothing : forall font_of width_of ct style_of style_of' d d' root root' page_size kids,
  looks_at_font font_of -> looks_at_font width_of ->
  styles_computed ct style_of -> styles_computed ct style_of' ->
  same_style (root_style style_of root) (root_style style_of' root') ->
  unboxed (root_style style_of root) (root_kids style_of d root) kids -> Forall2 same_node kids (root_kids style_of' d' root') ->
  is_absolutely_positioned (sv (root_style style_of root) Lposition) = false ->
  Forall no_absolute (root_kids style_of d root) -> Forall (boxes_styled plain_padding) (root_kids style_of d root) ->
  snd (drawing_calls font_of width_of style_of d root page_size) = Finished ->
  snd (drawing_calls font_of width_of style_of' d' root' page_size) = Finished ->
  with_extent (fst (drawing_calls font_of width_of style_of' d' root' page_size)) =
  with_extent (fst (drawing_calls font_of width_of style_of d root page_size)).
Proof.
  intros font_of width_of ct so so' d d' root root' page kids Hf Hw C C' Rs Ub Sn Ra Na Pp Fi Fi'.
  refine (eq_trans (extent_visible _) (eq_trans _ (eq_sym (extent_visible _)))). revert Fi Fi'. unfold drawing_calls.
  destruct (construct_document so d root) as [b| |] eqn:E; try discriminate.
  destruct (construct_document so' d' root') as [b'| |] eqn:E'; try (intros _; discriminate).
  set (ma := fun st => f_ascent (font_of st)). set (md := fun st => f_descent (font_of st)).
  assert (Ha : looks_at_font ma) by (intros s s' E1 E2 E3 E4; unfold ma; rewrite (Hf s s' E1 E2 E3 E4); reflexivity).
  assert (Hd : looks_at_font md) by (intros s s' E1 E2 E3 E4; unfold md; rewrite (Hf s s' E1 E2 E3 E4); reflexivity).
  destruct (C45_whole_document ct so d root b ma md width_of page C E) as (W & _ & fs & L).
  destruct (C45_whole_document ct so' d' root' b' ma md width_of page C' E') as (W' & _ & fs' & L').
  rewrite L, L'. destruct (page_seen font_of fs page) as (cs & -> & T). destruct (page_seen font_of fs' page) as (cs' & -> & T'). cbn [fst snd]. intros _ _. rewrite T, T'.
  pose proof (kids_computed ct so d root C) as Gk.
  destruct root as [i ts], root' as [i' ts']. cbn [root_style root_kids construct_document] in *.
  pose proof (u_construct_root _ _ _ _ Rs (same_nodes_unwrapped _ true _ _ Sn)) as Z. rewrite E' in Z.
  destruct (construct_root (so i None) kids) as [bm| |] eqn:Em; cbn [zout] in Z; try contradiction.
  pose proof (root_wf _ _ _ (unboxed_styled _ _ _ _ Ub Gk) Em) as Wm.
  pose proof (z_layout_root font_of Hf ma md width_of Ha Hd Hw bm b' page Z) as Lm. rewrite L' in Lm.
  destruct (layout_root ma md width_of bm page) as [fm| |] eqn:El; cbn [zres] in Lm; try contradiction.
  rewrite <- (z_alike font_of _ _ Lm (l0, l0)).
  exact (root_unboxed font_of width_of _ _ _ _ _ _ _ _ Ub Na (unboxed_styled _ _ _ _ Ub Na) Pp Ra E Em W Wm L El).
Qed.
Print Assumptions C97_adds_nothing.

(** <html><section><div><p>hi</p> <p>bye</p></div><p></p></section></html> with a space between the paragraphs, and the
    same without the div; every block but the div has a margin above and below, the section also a border at the left *)
Definition boxed_doc : doc :=
  Doc [Node None None None (Some 1%nat) (Some 1%nat) DDocument;
       Node (Some 0%nat) None None (Some 2%nat) (Some 2%nat) (DElement (ex_elem "html"));
       Node (Some 1%nat) None None (Some 3%nat) (Some 9%nat) (DElement (ex_elem "section"));
       Node (Some 2%nat) None (Some 9%nat) (Some 4%nat) (Some 7%nat) (DElement (ex_elem "div"));
       Node (Some 3%nat) None (Some 6%nat) (Some 5%nat) (Some 5%nat) (DElement (ex_elem "p"));
       Node (Some 4%nat) None None None None (DomModel.DText (txt "hi"));
       Node (Some 3%nat) (Some 4%nat) (Some 7%nat) None None (DomModel.DText (txt " "));
       Node (Some 3%nat) (Some 6%nat) None (Some 8%nat) (Some 8%nat) (DElement (ex_elem "p"));
       Node (Some 7%nat) None None None None (DomModel.DText (txt "bye"));
       Node (Some 2%nat) (Some 3%nat) None None None (DElement (ex_elem "p"))] [].
Definition boxed_root : dtree := DT 1 [DT 2 [DT 3 [DT 4 [DT 5 []]; DT 6 []; DT 7 [DT 8 []]]; DT 9 []]].
Definition unboxed_doc : doc :=
  Doc [Node None None None (Some 1%nat) (Some 1%nat) DDocument;
       Node (Some 0%nat) None None (Some 2%nat) (Some 2%nat) (DElement (ex_elem "html"));
       Node (Some 1%nat) None None (Some 4%nat) (Some 9%nat) (DElement (ex_elem "section"));
       Node None None None None None (DElement (ex_elem "div"));
       Node (Some 2%nat) None (Some 6%nat) (Some 5%nat) (Some 5%nat) (DElement (ex_elem "p"));
       Node (Some 4%nat) None None None None (DomModel.DText (txt "hi"));
       Node (Some 2%nat) (Some 4%nat) (Some 7%nat) None None (DomModel.DText (txt " "));
       Node (Some 2%nat) (Some 6%nat) (Some 9%nat) (Some 8%nat) (Some 8%nat) (DElement (ex_elem "p"));
       Node (Some 7%nat) None None None None (DomModel.DText (txt "bye"));
       Node (Some 2%nat) (Some 7%nat) None None None (DElement (ex_elem "p"))] [].
Definition unboxed_root : dtree := DT 1 [DT 2 [DT 4 [DT 5 []]; DT 6 []; DT 7 [DT 8 []]; DT 9 []]].
Definition boxed_style (i : nat) (parent : option style) : style :=
  css parent (prop "display" "block" ::
    match i with
    | 1%nat | 3%nat => []
    | 2%nat => [idecl "margin-top" [TDim (px 4) "px"]; idecl "margin-bottom" [TDim (px 4) "px"]; prop "border-left-style" "solid"]
    | _ => [idecl "margin-top" [TDim (px 5) "px"]; idecl "margin-bottom" [TDim (px 5) "px"]]
    end).
Example C97_case : exists kids,
  looks_at_font (@ex_font_of Exact) /\ looks_at_font (@ex_width Exact) /\ styles_computed ex_ct boxed_style /\
  same_style (root_style boxed_style boxed_root) (root_style boxed_style unboxed_root) /\
  unboxed (root_style boxed_style boxed_root) (root_kids boxed_style boxed_doc boxed_root) kids /\
  Forall2 same_node kids (root_kids boxed_style unboxed_doc unboxed_root) /\
  is_absolutely_positioned (sv (root_style boxed_style boxed_root) Lposition) = false /\
  Forall no_absolute (root_kids boxed_style boxed_doc boxed_root) /\ Forall (boxes_styled plain_padding) (root_kids boxed_style boxed_doc boxed_root) /\
  snd (drawing_calls ex_font_of ex_width boxed_style boxed_doc boxed_root ex_page) = Finished /\
  snd (drawing_calls ex_font_of ex_width boxed_style unboxed_doc unboxed_root ex_page) = Finished /\
  places (fst (drawing_calls ex_font_of ex_width boxed_style boxed_doc boxed_root ex_page)) = [("hi", 3, 93#5); ("bye", 3, 214#5)]%Q.
Proof.
  set (h := boxed_style 1 None). set (s := boxed_style 2 (Some h)). set (w := boxed_style 3 (Some s)).
  set (inner := [SElem false (boxed_style 4 (Some w)) [SText (txt "hi")]; SText (txt " "); SElem false (boxed_style 7 (Some w)) [SText (txt "bye")]]).
  exists ([] ++ SElem false s ([] ++ inner ++ [SElem false (boxed_style 9 (Some s)) []]) :: []).
  split; [intros a b _ _ _ _; reflexivity|]. split; [intros a b _ _ _ _; reflexivity|].
  split; [intros i parent; apply css_computed; cbn [style_for_element]; destruct (parse_block _ _) eqn:E; [reflexivity|do 10 (destruct i as [|i]; [vm_compute in E; discriminate E|]); vm_compute in E; discriminate E..]|].
  split; [split; reflexivity|].
  assert (B : forall i p, in_flow_block (boxed_style i (Some p))).
  { intros i p. split; [eexists; do 10 (destruct i as [|i]; [vm_compute; reflexivity|]); vm_compute; reflexivity|]. split; do 10 (destruct i as [|i]; [vm_compute; reflexivity|]); vm_compute; reflexivity. }
  split.
  { change (root_kids boxed_style boxed_doc boxed_root) with ([] ++ SElem false s ([] ++ SElem false w inner :: [SElem false (boxed_style 9 (Some s)) []]) :: []).
    apply Unbox_inside; [apply B|]. apply Unbox_here.
    - vm_compute; reflexivity.
    - split; vm_compute; repeat split.
    - constructor; [left; split; [reflexivity|apply B]|]. constructor; [right|constructor; [left; split; [reflexivity|apply B]|constructor]].
      split; (split; [repeat constructor|left; reflexivity]).
    - constructor. split; [reflexivity|apply B].
    - right. eexists _, _. split; [reflexivity|]. split; [reflexivity|apply B]. }
  split.
  { change (root_kids boxed_style unboxed_doc unboxed_root) with
      [SElem false s [SElem false (boxed_style 4 (Some s)) [SText (txt "hi")]; SText (txt " "); SElem false (boxed_style 7 (Some s)) [SText (txt "bye")]; SElem false (boxed_style 9 (Some s)) []]].
    assert (R : forall st, same_style st st) by (intros st; split; reflexivity).
    assert (Q : forall i q, (i = 4 \/ i = 7)%nat -> same_style (boxed_style i (Some (boxed_style 3 (Some q)))) (boxed_style i (Some q))).
    { intros i q [-> | ->]; (split; [intros l; destruct l|]; vm_compute; reflexivity). }
    assert (K : forall br st l l', Forall2 same_node l l' -> same_node (SElem br st l) (SElem br st l')) by (intros; constructor; [apply R|assumption]).
    assert (T : forall t, Forall2 same_node [SText t] [SText t]) by (intros t; constructor; [constructor|constructor]).
    constructor; [|constructor]. apply K. cbn [app inner].
    constructor; [constructor; [apply Q; auto|apply T]|]. constructor; [constructor|]. constructor; [constructor; [apply Q; auto|apply T]|].
    constructor; [apply K; constructor|constructor]. }
  split; [vm_compute; reflexivity|]. split; [repeat constructor; unfold no_absolute; vm_compute; repeat split|].
  split; [repeat constructor; unfold plain_padding; vm_compute; repeat split; try (eexists; split; [reflexivity|discriminate])|].
  repeat split; vm_compute; reflexivity.
Qed.
