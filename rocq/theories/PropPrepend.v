(** What is put in front only moves the text that follows up or down, as a whole (C94). *)
From Verif Require Import BlockModel BlockSpec BlockFrame BlockGen StyleModel StyleSpec StyleExample GeomModel TreeModel TreeSpec TreeFacts TreeInv PropTree.
From Verif Require Import Base Len DomModel DomSpec UnsetModel GfxModel PaintModel PaintSpec PaintProofs PropPaint PropText.
From Verif Require Import AppendSpec AppendBox AppendProofs AppendExact PropAppend PrependSpec PrependBox PrependProofs.
Local Open Scope string_scope.
Local Open Scope list_scope.
Local Open Scope len_scope.

Section Root.
Variable font_of : style -> font.
Variable width_of : style -> text -> Len.
Notation ma := (fun st => f_ascent (font_of st)).
Notation md := (fun st => f_descent (font_of st)).
Notation drawn := (drawn font_of).

Lemma put_follows d st st' ch ch' r r' p b m cm p' b' m' cm' y y' o : v_inline (r_start r') = v_inline (r_start r) ->
  (forall o, follows d (flat_map (drawn o) ch) (flat_map (drawn o) ch')) ->
  exists e, follows e (drawn o (put_top y (FBox st ch r p b m cm))) (drawn o (put_top y' (FBox st' ch' r' p' b' m' cm'))).
Proof.
  intros R P. exists (y' - y + d). cbn [put_top AppendProofs.drawn]. unfold inside. cbn [r_start v_inline v_block]. rewrite R.
  destruct (P (v_inline (r_start r) + fst o, y + snd o + (y' - y))) as [before E]. exists before.
  replace (y' + snd o) with (y + snd o + (y' - y)) by ring. rewrite E. f_equal. rewrite each_lower, map_map. apply map_ext. intros c. apply lower_lower.
Qed.
Lemma af_root st kids b : Forall no_absolute kids -> is_absolutely_positioned (sv st Lposition) = false -> construct_root st kids = TreeModel.Done b -> af_bfc b.
Proof.
  intros Na Ra. unfold construct_root, construct_bfc. rewrite Ra.
  assert (K : forall c fl, construct_container st kids = TreeModel.Done (c, fl) -> af_container c) by (intros c fl; apply af_built; exact Na).
  destruct (construct_container st kids) as [[c fl]| |]; cbn [obind];
    destruct (sv st Ldisplay); try discriminate; try (intros [= <-]; exact I);
    (destruct (is_floating (sv st Lfloat)); intros [= <-]; [split; exact I|split; [exact (K _ _ eq_refl)|exact I]]).
Qed.
Lemma root_prepended st kids kids' b b' page fs fs' :
  prepended st kids kids' -> Forall no_absolute kids -> Forall no_absolute kids' -> is_absolutely_positioned (sv st Lposition) = false ->
  construct_root st kids = TreeModel.Done b -> construct_root st kids' = TreeModel.Done b' -> wf_bfc b -> wf_bfc b' ->
  layout_root ma md width_of b page = Ok fs -> layout_root ma md width_of b' page = Ok fs' ->
  exists d, follows d (flat_map (drawn (l0, l0)) fs) (flat_map (drawn (l0, l0)) fs').
Proof.
  intros Ap Na Na' Ra C C' W W' L L'. pose proof (af_root _ _ _ Na Ra C) as N. pose proof (af_root _ _ _ Na' Ra C') as N'.
  unfold layout_root in L, L'.
  destruct (layout_bfc ma md width_of b _ 0 []) as [[fl a]| |] eqn:E in L; cbn [bind] in L; try discriminate.
  destruct (layout_bfc ma md width_of b' _ 0 []) as [[fl' a']| |] eqn:E' in L'; cbn [bind] in L'; try discriminate.
  pose proof (proj1 (proj2 (proj2 (free_layout ma md width_of)) b N _ _ _ _ _ E)) as ->. cbn [mapR bind] in L. injection L as <-.
  pose proof (proj1 (proj2 (proj2 (free_layout ma md width_of)) b' N' _ _ _ _ _ E')) as ->. cbn [mapR bind] in L'. injection L' as <-.
  rewrite !app_nil_r.
  unfold construct_root, construct_bfc in C, C'. rewrite Ra in C, C'.
  assert (K : sv st Ldisplay = DispNone \/ sv st Ldisplay <> DispNone) by (destruct (sv st Ldisplay); [left; reflexivity|right; discriminate..]).
  destruct K as [D|D].
  { rewrite D in C. injection C as <-. cbn in E. injection E as <-. exists l0. apply follows_nil. }
  destruct (construct_container st kids) as [[c f0]| |] eqn:Ec; cbn [obind] in C; [|destruct (sv st Ldisplay); [contradiction|discriminate..]..].
  destruct (construct_container st kids') as [[c' f0']| |] eqn:Ec'; cbn [obind] in C'; [|destruct (sv st Ldisplay); [contradiction|discriminate..]..].
  pose proof (later_boxes st kids kids' Ap _ _ _ _ Ec Ec') as Lg.
  destruct (is_floating (sv st Lfloat)).
  { assert (b = BFC true (BlockLevelBoxes [BFloat st (BFC f0 c)])) as -> by (revert C D; destruct (sv st Ldisplay); [intros _ D; contradiction|intros [= <-] _; reflexivity..]).
    cbn in E. unfold bfc_finish, layout_block_level_children in E. cbn in E. injection E as <-. exists l0. apply follows_nil. }
  assert (b = BFC false (BlockLevelBoxes [Indep st (BFC f0 c)])) as -> by (revert C D; destruct (sv st Ldisplay); [intros _ D; contradiction|intros [= <-] _; reflexivity..]).
  assert (b' = BFC false (BlockLevelBoxes [Indep st (BFC f0' c')])) as -> by (revert C' D; destruct (sv st Ldisplay); [intros _ D; contradiction|intros [= <-] _; reflexivity..]).
  apply bfc_inv in E as (g & E & -> & _). apply bfc_inv in E' as (g' & E' & -> & _).
  apply all_inv in E as (xs & s1 & F & P & _); [|exact W]. apply all_inv in E' as (xs' & s1' & F' & P' & _); [|exact W'].
  inversion F as [|? f ? xs0 Hf Fn]; subst. inversion Fn; subst. inversion F' as [|? f' ? xs0' Hf' Fn']; subst. inversion Fn'; subst.
  cbn [place_all] in P, P'. destruct (place f _) as [[f1 s2]| |] eqn:Ep in P; cbn [bind] in P; try discriminate. destruct (place f' _) as [[f1' s2']| |] eqn:Ep' in P'; cbn [bind] in P'; try discriminate.
  injection P as <- <-. injection P' as <- <-. cbn [flat_map]. rewrite !app_nil_r.
  apply place_put in Ep as [y ->]. apply place_put in Ep' as [y' ->].
  apply lays_ok in Hf as [a0 Hf]. apply lays_ok in Hf' as [a0' Hf'].
  destruct N as [N _]. destruct N' as [N' _]. destruct W as [W _]. destruct W' as [W' _].
  match type of Hf with layout_blb _ _ _ _ ?cb _ _ _ = _ => set (cb0 := cb) in * end.
  change (layout_in_flow cb0 st false [] (fun cb' abs' _ => layout_bfc ma md width_of (BFC f0 c) cb' 0%nat abs') = Ok (f, a0)) in Hf.
  change (layout_in_flow cb0 st false [] (fun cb' abs' _ => layout_bfc ma md width_of (BFC f0' c') cb' 0%nat abs') = Ok (f', a0')) in Hf'.
  apply in_flow_free in Hf as (h & abs0 & Hf & -> & _); [|intros cb1 ab1 col1 fl1 ab1' X; exact (proj1 (proj2 (proj2 (free_layout ma md width_of)) (BFC f0 c) N _ _ _ _ _ X))].
  apply in_flow_free in Hf' as (h' & abs0' & Hf' & -> & _); [|intros cb1 ab1 col1 fl1 ab1' X; exact (proj1 (proj2 (proj2 (free_layout ma md width_of)) (BFC f0' c') N' _ _ _ _ _ X))].
  apply bfc_inv in Hf as (g1 & Hf & X1 & _ & _). apply bfc_inv in Hf' as (g1' & Hf' & X1' & _ & _).
  assert (AH : auto_height st = true -> cb_block (if_children_cb cb0 st) = LAAuto).
  { unfold auto_height, if_children_cb, if_block_size, box_size. cbn. destruct (sv st Lheight); [discriminate..|reflexivity]. }
  destruct (later_layout font_of ma md width_of _ _ _ Lg W W' N N' _ AH _ _ _ _ _ _ _ _ _ _ _ Hf Hf') as [T|(d & _ & _ & _ & _ & Q)].
  - exists l0. rewrite (textless_drawn font_of); [apply follows_nil|]. apply put_textless. cbn [textless]. rewrite X1. exact T.
  - rewrite X1, X1'. apply (put_follows d); [reflexivity|exact Q].
Qed.
End Root.

(** Put something in front of a document, or in front of the content of its first block, or of the first block in that,
    and so on: every text it had is drawn, in the same order and after every new one, at the same distance from the left
    edge, with the same font and colour, and all of them are moved down by the same distance. *)
Theorem C94_moves_as_a_whole : forall font_of width_of ct style_of style_of' d d' root root' page_size,
  styles_computed ct style_of -> styles_computed ct style_of' ->
  root_style style_of root = root_style style_of' root' ->
  prepended (root_style style_of root) (root_kids style_of d root) (root_kids style_of' d' root') ->
  is_absolutely_positioned (sv (root_style style_of root) Lposition) = false ->
  Forall no_absolute (root_kids style_of d root) -> Forall no_absolute (root_kids style_of' d' root') ->
  snd (drawing_calls font_of width_of style_of d root page_size) = Finished ->
  snd (drawing_calls font_of width_of style_of' d' root' page_size) = Finished ->
  exists before distance, texts_drawn (fst (drawing_calls font_of width_of style_of' d' root' page_size)) =
               before ++ map (lower distance) (texts_drawn (fst (drawing_calls font_of width_of style_of d root page_size))).
Proof.
  intros font_of width_of ct so so' d d' root root' page C C' Rs Ap Ra Na Na'. unfold drawing_calls.
  destruct (construct_document so d root) as [b| |] eqn:E; try discriminate.
  destruct (construct_document so' d' root') as [b'| |] eqn:E'; try (intros _; discriminate). intros _ _.
  set (ma := fun st => f_ascent (font_of st)). set (md := fun st => f_descent (font_of st)).
  destruct (C45_whole_document ct so d root b ma md width_of page C E) as (W & _ & fs & L).
  destruct (C45_whole_document ct so' d' root' b' ma md width_of page C' E') as (W' & _ & fs' & L').
  rewrite L, L'. destruct (page_drawn font_of fs page) as (cs & -> & T). destruct (page_drawn font_of fs' page) as (cs' & -> & T'). cbn [fst]. rewrite T, T'.
  destruct root as [i ts], root' as [i' ts']. cbn [root_style root_kids construct_document] in *. rewrite <- Rs in *.
  destruct (root_prepended font_of width_of _ _ _ _ _ _ _ _ Ap Na Na' Ra E E' W W' L L') as (dist & before & X). exists before, dist. exact X.
Qed.
Print Assumptions C94_moves_as_a_whole.

(** <html><p>hi</p><p>bye</p></html> and <html><p>you</p><p><p>oh</p>hi</p><p>bye</p></html>, every element a block with
    a margin *)
Definition two_doc : doc :=
  Doc [Node None None None (Some 1%nat) (Some 1%nat) DDocument;
       Node (Some 0%nat) None None (Some 2%nat) (Some 4%nat) (DElement (ex_elem "html"));
       Node (Some 1%nat) None (Some 4%nat) (Some 3%nat) (Some 3%nat) (DElement (ex_elem "p"));
       Node (Some 2%nat) None None None None (DomModel.DText (txt "hi"));
       Node (Some 1%nat) (Some 2%nat) None (Some 5%nat) (Some 5%nat) (DElement (ex_elem "p"));
       Node (Some 4%nat) None None None None (DomModel.DText (txt "bye"))] [].
Definition two_root : dtree := DT 1 [DT 2 [DT 3 []]; DT 4 [DT 5 []]].
Definition four_doc : doc :=
  Doc [Node None None None (Some 1%nat) (Some 1%nat) DDocument;
       Node (Some 0%nat) None None (Some 6%nat) (Some 4%nat) (DElement (ex_elem "html"));
       Node (Some 1%nat) (Some 6%nat) (Some 4%nat) (Some 8%nat) (Some 3%nat) (DElement (ex_elem "p"));
       Node (Some 2%nat) (Some 8%nat) None None None (DomModel.DText (txt "hi"));
       Node (Some 1%nat) (Some 2%nat) None (Some 5%nat) (Some 5%nat) (DElement (ex_elem "p"));
       Node (Some 4%nat) None None None None (DomModel.DText (txt "bye"));
       Node (Some 1%nat) None (Some 2%nat) (Some 7%nat) (Some 7%nat) (DElement (ex_elem "p"));
       Node (Some 6%nat) None None None None (DomModel.DText (txt "you"));
       Node (Some 2%nat) None (Some 3%nat) (Some 9%nat) (Some 9%nat) (DElement (ex_elem "p"));
       Node (Some 8%nat) None None None None (DomModel.DText (txt "oh"))] [].
Definition four_root : dtree := DT 1 [DT 6 [DT 7 []]; DT 2 [DT 8 [DT 9 []]; DT 3 []]; DT 4 [DT 5 []]].
Example C94_case : styles_computed ex_ct spaced /\
  prepended (root_style spaced two_root) (root_kids spaced two_doc two_root) (root_kids spaced four_doc four_root) /\
  is_absolutely_positioned (sv (root_style spaced two_root) Lposition) = false /\
  Forall no_absolute (root_kids spaced two_doc two_root) /\ Forall no_absolute (root_kids spaced four_doc four_root) /\
  snd (drawing_calls ex_font_of ex_width spaced two_doc two_root ex_page) = Finished /\
  snd (drawing_calls ex_font_of ex_width spaced four_doc four_root ex_page) = Finished /\
  places (fst (drawing_calls ex_font_of ex_width spaced two_doc two_root ex_page)) = [("hi", 0, 118#5); ("bye", 0, 239#5)]%Q /\
  places (fst (drawing_calls ex_font_of ex_width spaced four_doc four_root ex_page)) = [("you", 0, 118#5); ("oh", 0, 239#5); ("hi", 0, 67); ("bye", 0, 456#5)]%Q.
Proof.
  assert (C : styles_computed ex_ct spaced).
  { intros i parent. apply css_computed. cbn [style_for_element]. destruct (parse_block _ _) eqn:E; [reflexivity|vm_compute in E; discriminate..]. }
  assert (B : forall p, in_flow_block (spaced 2 p)).
  { intros [p|]; (split; [eexists; vm_compute; reflexivity|split; vm_compute; reflexivity]). }
  assert (A : forall p, sv (spaced 2 p) Lheight = LPAAuto) by (intros [p|]; vm_compute; reflexivity).
  split; [exact C|]. split.
  - set (p := Some (spaced 1 None)). set (q := Some (spaced 2 p)).
    change (root_kids spaced two_doc two_root) with ([] ++ SElem false (spaced 2 p) [SText (txt "hi")] :: [SElem false (spaced 4 p) [SText (txt "bye")]]).
    change (root_kids spaced four_doc four_root) with ([SElem false (spaced 6 p) [SText (txt "you")]] ++ SElem false (spaced 2 p)
      ([SElem false (spaced 8 q) [SText (txt "oh")]] ++ SText (txt "hi") :: []) :: [SElem false (spaced 4 p) [SText (txt "bye")]]).
    apply Prepend_inside; [constructor|apply B|apply A|]. apply Prepend_here; [|right; apply A].
    left. exists [], (SElem false (spaced 8 q) [SText (txt "oh")]). split; [reflexivity|]. split; [reflexivity|apply B].
  - split; [vm_compute; reflexivity|]. split; [repeat constructor; unfold no_absolute; vm_compute; repeat split|].
    split; [repeat constructor; unfold no_absolute; vm_compute; repeat split|]. repeat split; vm_compute; reflexivity.
Qed.
