(** Properties of the text of whole documents (C61, C65, C66) and of the lines of whole pages (C35, C37, C38, C41, C42). *)
From Coq Require Import Sorting.Permutation.
From Verif Require Import BlockFrame BlockGen BlockStack BlockProofs BlockMove PropBlock.
From Verif Require Import StyleModel StyleSpec StyleExample GeomModel BlockModel BlockSpec BlockFlow TreeModel TreeSpec PropTree.
From Verif Require Import Base DomModel DomSpec UnsetModel CStrModel CStrProofs GfxModel GfxSpec GfxProofs GfxDevice PropGfx.
From Verif Require Import TreeInv PaintModel PaintSpec PaintProofs PropPaint.
From Verif Require Import InlineSpec InlineProofs InlineFacts PropInline PageSpec PageProofs TextSpec TextProofs.
Local Open Scope string_scope.
Local Open Scope list_scope.
Local Open Scope len_scope.

(* ------------------------------------------------------------------ *)
(** * C65: every character of the document is drawn, once and in order *)

Lemma placed_texts {ar : Arith} : forall f o, flat_map PaintSpec.visible_text (placed o f) = map label_of (frag_texts f).
Proof.
  fix IH 1. intros f o.
  assert (L : forall ch o, (fix go (l : list fragment) : Prop := match l with [] => True | x :: l => (forall o, flat_map PaintSpec.visible_text (placed o x) = map label_of (frag_texts x)) /\ go l end) ch ->
    flat_map PaintSpec.visible_text (flat_map (placed o) ch) = map label_of (flat_map frag_texts ch)).
  { induction ch as [|x ch IHc]; intros o' [H1 H2] || intros o' _; [reflexivity|]. cbn [flat_map]. rewrite flat_map_app, map_app, H1, (IHc _ H2). reflexivity. }
  destruct f as [st ch r p b m cm|r ch|st r fo sg]; cbn [placed frag_texts flat_map PaintSpec.visible_text snd app]; [apply L..|reflexivity].
  - induction ch as [|x ch IHc]; [exact I|]. split; [intros; apply IH|exact IHc].
  - induction ch as [|x ch IHc]; [exact I|]. split; [intros; apply IH|exact IHc].
Qed.
Lemma placed_page_texts {ar : Arith} fs : flat_map PaintSpec.visible_text (placed_page fs) = map label_of (page_texts fs).
Proof.
  unfold placed_page, page_texts. induction fs as [|f fs IH]; [reflexivity|]. cbn [flat_map]. rewrite flat_map_app, map_app, IH, placed_texts. reflexivity.
Qed.

(** The tree of styled nodes of a document: what the traversal sees of the root element. *)
Definition root_style {ar : Arith} (style_of : node_id -> option style -> style) (root : dtree) : style :=
  match root with DT i _ => style_of i None end.
Definition root_kids {ar : Arith} (style_of : node_id -> option style -> style) (d : doc) (root : dtree) : list snode :=
  match root with DT i ts => map (styled style_of d (style_of i None)) ts end.
(** Every style is computed by the cascade. *)
Definition styles_computed {ar : Arith} (ct : token -> option color) (style_of : node_id -> option style -> style) : Prop :=
  forall i parent, exists (selector : Set) (specificity : selector -> N) (matches : selector -> bool) ua author attr,
    element_style ct specificity matches ua author attr parent (style_of i parent).

Lemma drawn_texts {ar : Arith} {Z : ZeroLaws ar} : forall font_of width_of ct style_of d root page_size r, styles_computed ct style_of ->
  construct_document style_of d root = TreeModel.Done r ->
  exists pieces e, flat_map text_of (fst (drawing_calls font_of width_of style_of d root page_size)) = map label_of pieces /\
    snd (drawing_calls font_of width_of style_of d root page_size) = Finished /\
    renders_text (document_text (root_style style_of root) (root_kids style_of d root)) e /\
    e = root_events (root_style style_of root) (root_kids style_of d root) /\
    exists t, deletes break_char t (concat pieces) /\ Permutation t (outside_floats O e) /\
      (Forall not_absolute e -> t = outside_floats O e).
Proof.
  intros font_of width_of ct style_of d root page r C E.
  set (ma := fun st => f_ascent (font_of st)). set (md := fun st => f_descent (font_of st)).
  destruct (C45_whole_document ct style_of d root r ma md width_of page C E) as (W & _ & fs & El).
  destruct (C49_painting_never_fails font_of fs page) as (cs & Ep).
  assert (D : drawing_calls font_of width_of style_of d root page = (cs, Finished)).
  { unfold drawing_calls. rewrite E. unfold ma, md in El. rewrite El, Ep. reflexivity. }
  rewrite D. cbn [fst snd]. destruct root as [i ts]. cbn [root_style root_kids]. cbn [construct_document] in E.
  set (st := style_of i None) in *. set (kids := map (styled style_of d st) ts) in *.
  exists (page_texts fs), (root_events st kids). split; [rewrite (C50_texts _ _ _ _ Ep); apply placed_page_texts|].
  split; [reflexivity|]. split; [apply root_text|]. split; [reflexivity|].
  destruct (C45_document st kids r E) as (fl & l & e & -> & _ & He & Se).
  exists (together (container_painted (BlockLevelBoxes l))).
  split; [exact (page_text ma md width_of fl (BlockLevelBoxes l) page fs W El)|].
  pose proof (proj1 (proj2 trees_render) _ _ _ (He st)) as (_ & R1 & R2).
  rewrite <- (same_outside _ _ Se O). split; [exact R1|].
  intros F. change (together (in_order (map box_painted l)) = outside_floats O e). rewrite (R2 (same_absolute _ _ Se F)). unfold together. cbn [fst snd]. apply app_nil_r.
Qed.
Lemma permutation_filter {A} (f : A -> bool) l l' : Permutation l l' -> Permutation (filter f l) (filter f l').
Proof.
  induction 1 as [|x l l' _ IH|x y l|a b c _ IH1 _ IH2]; [constructor| | |etransitivity; eassumption].
  - cbn. destruct (f x); [apply perm_skip|]; exact IH.
  - cbn. destruct (f x), (f y); try apply Permutation_refl. apply perm_swap.
Qed.

(** Outside floats every character that is neither white space nor a hyphen is drawn exactly as often as it is in
    the document.
    MISSING: the text of floats (C65_refuted) and hyphens (C35_hyphen_lost_refuted). *)
Theorem C65_exactly_once_partial {ar : Arith} {Z : ZeroLaws ar} : forall font_of width_of ct style_of d root page_size r, styles_computed ct style_of ->
  construct_document style_of d root = TreeModel.Done r ->
  exists pieces, flat_map text_of (fst (drawing_calls font_of width_of style_of d root page_size)) = map label_of pieces /\
    Permutation (ink (concat pieces)) (ink (document_text (root_style style_of root) (root_kids style_of d root))).
Proof.
  intros font_of width_of ct style_of d root page r C E.
  destruct (drawn_texts font_of width_of ct style_of d root page r C E) as (pieces & e & H1 & _ & (_ & H2 & _) & _ & t & H3 & H4 & _).
  exists pieces. split; [exact H1|]. rewrite <- H2, <- (deletes_ink _ _ H3). apply permutation_filter. exact H4.
Qed.
Print Assumptions C65_exactly_once_partial.
(** If nothing is absolutely positioned, they are drawn in document order. *)
Theorem C65_in_order_partial {ar : Arith} {Z : ZeroLaws ar} : forall font_of width_of ct style_of d root page_size r, styles_computed ct style_of ->
  construct_document style_of d root = TreeModel.Done r ->
  is_absolutely_positioned (sv (root_style style_of root) Lposition) = false ->
  Forall nothing_absolute (root_kids style_of d root) ->
  exists pieces, flat_map text_of (fst (drawing_calls font_of width_of style_of d root page_size)) = map label_of pieces /\
    ink (concat pieces) = ink (document_text (root_style style_of root) (root_kids style_of d root)).
Proof.
  intros font_of width_of ct style_of d root page r C E A1 A2.
  destruct (drawn_texts font_of width_of ct style_of d root page r C E) as (pieces & e & H1 & _ & (_ & H2 & _) & He & t & H3 & _ & H5).
  exists pieces. split; [exact H1|]. rewrite <- H2, <- (deletes_ink _ _ H3), H5; [reflexivity|]. rewrite He.
  apply root_text; [exact A1|]. apply fold_forall. exact A2.
Qed.
Print Assumptions C65_in_order_partial.
(** What is drawn is the text of the rendering (document_events, white space collapsed) with nothing but spaces,
    newlines and hyphens left out. *)
Theorem C65_nothing_else_partial {ar : Arith} {Z : ZeroLaws ar} : forall font_of width_of ct style_of d root page_size r, styles_computed ct style_of ->
  construct_document style_of d root = TreeModel.Done r ->
  is_absolutely_positioned (sv (root_style style_of root) Lposition) = false ->
  Forall nothing_absolute (root_kids style_of d root) ->
  exists pieces, flat_map text_of (fst (drawing_calls font_of width_of style_of d root page_size)) = map label_of pieces /\
    deletes (fun c => c = sp \/ c = nl \/ c = hyphen)
      (outside_floats O (root_events (root_style style_of root) (root_kids style_of d root))) (concat pieces).
Proof.
  intros font_of width_of ct style_of d root page r C E A1 A2.
  destruct (drawn_texts font_of width_of ct style_of d root page r C E) as (pieces & e & H1 & _ & _ & He & t & H3 & _ & H5).
  exists pieces. split; [exact H1|]. rewrite <- He, <- H5; [exact H3|]. rewrite He. apply root_text; [exact A1|]. apply fold_forall. exact A2.
Qed.
Print Assumptions C65_nothing_else_partial.

(** FINDING: the text of a float is not drawn. *)
Definition float_doc : doc :=
  Doc [Node None None None (Some 1%nat) (Some 1%nat) DDocument;
       Node (Some 0%nat) None None (Some 2%nat) (Some 2%nat) (DElement (ex_elem "html"));
       Node (Some 1%nat) None None (Some 3%nat) (Some 3%nat) (DElement (ex_elem "p"));
       Node (Some 2%nat) None None None None (DomModel.DText (txt "lost"))] [].
Definition float_root : dtree := DT 1 [DT 2 [DT 3 []]].
Definition floats_p (i : nat) (parent : option style) : style :=
  if (i =? 2)%nat then css parent [prop "display" "block"; prop "float" "left"] else css parent [prop "display" "block"].
Lemma floats_p_computed : styles_computed ex_ct floats_p.
Proof.
  intros i parent. unfold floats_p. destruct (i =? 2)%nat; apply css_computed; cbn [style_for_element];
    (destruct (parse_block _ _) eqn:E; [reflexivity|vm_compute in E; discriminate..]).
Qed.
Theorem C65_refuted : exists style_of d root, styles_computed ex_ct style_of /\
  written (root_kids style_of d root) = txt "lost" /\
  (exists r, construct_document style_of d root = TreeModel.Done r) /\
  forall font_of width_of page_size, exists pieces,
    flat_map text_of (fst (drawing_calls font_of width_of style_of d root page_size)) = map label_of pieces /\ concat pieces = [].
Proof.
  exists floats_p, float_doc, float_root. split; [exact floats_p_computed|]. split; [vm_compute; reflexivity|].
  assert (E : exists r, construct_document floats_p float_doc float_root = TreeModel.Done r).
  { destruct (construct_document floats_p float_doc float_root) as [r| |] eqn:E; [eexists; reflexivity|exfalso..];
      apply (f_equal (fun o => match o with TreeModel.Done _ => true | _ => false end)) in E; vm_compute in E; discriminate. }
  split; [exact E|]. intros font_of width_of page. destruct E as [r E].
  destruct (drawn_texts font_of width_of ex_ct floats_p float_doc float_root page r floats_p_computed E)
    as (pieces & e & H0 & _ & _ & -> & t & H1 & H2 & _). exists pieces. split; [exact H0|].
  assert (Hn : outside_floats O (root_events (root_style floats_p float_root) (root_kids floats_p float_doc float_root)) = []) by (vm_compute; reflexivity).
  rewrite Hn in H2. apply Permutation_sym, Permutation_nil in H2. subst t. clear - H1. remember (concat pieces) as u. inversion H1; reflexivity.
Qed.
Print Assumptions C65_refuted.

(** <html><p>hi  you</p><p float>no</p><p absolute>up</p><p>end-of</p></html> *)
Definition mixed_doc : doc :=
  Doc [Node None None None (Some 1%nat) (Some 1%nat) DDocument;
       Node (Some 0%nat) None None (Some 2%nat) (Some 8%nat) (DElement (ex_elem "html"));
       Node (Some 1%nat) None (Some 4%nat) (Some 3%nat) (Some 3%nat) (DElement (ex_elem "p"));
       Node (Some 2%nat) None None None None (DomModel.DText (txt "hi  you"));
       Node (Some 1%nat) (Some 2%nat) (Some 6%nat) (Some 5%nat) (Some 5%nat) (DElement (ex_elem "p"));
       Node (Some 4%nat) None None None None (DomModel.DText (txt "no"));
       Node (Some 1%nat) (Some 4%nat) (Some 8%nat) (Some 7%nat) (Some 7%nat) (DElement (ex_elem "p"));
       Node (Some 6%nat) None None None None (DomModel.DText (txt "up"));
       Node (Some 1%nat) (Some 6%nat) None (Some 9%nat) (Some 9%nat) (DElement (ex_elem "p"));
       Node (Some 8%nat) None None None None (DomModel.DText (txt "end-of"))] [].
Definition mixed_root : dtree := DT 1 [DT 2 [DT 3 []]; DT 4 [DT 5 []]; DT 6 [DT 7 []]; DT 8 [DT 9 []]].
Definition mixed_style {ar : Arith} (i : nat) (parent : option style) : style :=
  match i with
  | 4%nat => css parent [prop "display" "block"; prop "float" "left"]
  | 6%nat => css parent [prop "display" "block"; prop "position" "absolute"]
  | _ => css parent [prop "display" "block"]
  end.
Lemma mixed_computed : styles_computed ex_ct mixed_style.
Proof.
  assert (D : forall l parent, (match parse_block ex_ct l with Ok _ => true | _ => false end) = true -> exists (selector : Set) (specificity : selector -> N) (matches : selector -> bool) ua author attr,
    element_style ex_ct specificity matches ua author attr parent (css parent l)).
  { intros l parent H. apply css_computed. cbn [style_for_element]. destruct (parse_block _ _); [reflexivity|discriminate..]. }
  intros i parent. unfold mixed_style. do 7 (destruct i as [|i]; [apply D; vm_compute; reflexivity|]). apply D. vm_compute. reflexivity.
Qed.
Example C65_case : (exists r, construct_document mixed_style mixed_doc mixed_root = TreeModel.Done r) /\
  document_text (root_style mixed_style mixed_root) (root_kids mixed_style mixed_doc mixed_root) = txt "hi  youupend-of" /\
  flat_map text_of (fst (drawing_calls ex_font_of ex_width mixed_style mixed_doc mixed_root ex_page)) = ["hi"; "you"; "end-"; "of"; "up"].
Proof.
  split.
  { destruct (construct_document mixed_style mixed_doc mixed_root) as [r| |] eqn:E; [eexists; reflexivity|exfalso..];
      apply (f_equal (fun o => match o with TreeModel.Done _ => true | _ => false end)) in E; vm_compute in E; discriminate. }
  split; vm_compute; reflexivity.
Qed.
Example C65_order_case : styles_computed ex_ct ex_style /\ is_absolutely_positioned (sv (root_style ex_style PropPaint.ex_root) Lposition) = false /\
  Forall nothing_absolute (root_kids ex_style ex_doc PropPaint.ex_root) /\
  document_text (root_style ex_style PropPaint.ex_root) (root_kids ex_style ex_doc PropPaint.ex_root) = txt "hi you".
Proof.
  split; [exact ex_computed|]. split; [vm_compute; reflexivity|]. split; [|vm_compute; reflexivity].
  repeat (constructor; vm_compute; try (right; split; [reflexivity|]); try tauto).
Qed.

(* ------------------------------------------------------------------ *)
(** * C61: what can be rendered is rendered completely *)

(** A document whose boxes can be made (C47_partial) and whose text outside floats has no NUL character is rendered
    completely: the host gets the objects of all drawing calls. *)
Theorem C61_complete : forall os vs gw font_of width_of ct style_of d root page_size,
  value_run [] os = Some vs -> gc_run gworld0 os = GfxModel.Done gw ->
  (forall st, value_of vs (f_gc (font_of st)) <> None) -> styles_computed ct style_of ->
  (exists r, construct_document style_of d root = TreeModel.Done r) ->
  Forall (fun c => is_scalar c = true /\ c <> 0%N) (document_text (root_style style_of root) (root_kids style_of d root)) ->
  exists calls gs bb, drawing_calls font_of width_of style_of d root page_size = (calls, Finished) /\
    render_markdown font_of width_of style_of gw d root page_size = Some (GfxModel.Done (map Some gs, bb)) /\
    Forall2 (produces l0 vs) (filter draws calls) gs.
Proof.
  intros os vs gw font_of width_of ct style_of d root page H1 H2 Hf Hs [r E] Sc.
  destruct (drawn_texts font_of width_of ct style_of d root page r Hs E) as (pieces & e & T & Fin & (_ & _ & T2) & _ & t & T3 & T4 & _).
  destruct (C61_rendering_returns_partial os vs gw font_of width_of ct style_of d root page H1 H2 Hf Hs) as (drawn & rest & gs & bb & E1 & E2 & E3 & E4).
  { rewrite E. discriminate. }
  assert (rest = []) as ->.
  { destruct E2 as [E2|(c & rs & -> & N)]; [exact E2|]. exfalso. destruct c as [l x y fo col| | |]; try contradiction N. cbn [nul_text] in N.
    assert (In l (map label_of pieces)) as Hl.
    { rewrite <- T, E1, flat_map_app. apply in_or_app. right. left. reflexivity. }
    apply in_map_iff in Hl as (p & <- & Hp).
    assert (Hc : forall c, In c p -> is_scalar c = true /\ c <> 0%N).
    { intros c Hc. assert (Hc' : In c (concat pieces)) by (apply in_concat; eauto).
      apply (deletes_in _ _ _ _ T3) in Hc'. apply (Permutation_in _ T4) in Hc'. destruct (T2 c Hc') as [Hd|[->| ->]].
      - rewrite Forall_forall in Sc. exact (Sc c Hd).
      - split; [reflexivity|discriminate].
      - split; [reflexivity|discriminate]. }
    rewrite label_nul in N; [discriminate| |intros Z; exact (proj2 (Hc _ Z) eq_refl)].
    apply forallb_forall. intros c Hi. exact (proj1 (Hc c Hi)). }
  rewrite app_nil_r in E1. subst drawn. exists (fst (drawing_calls font_of width_of style_of d root page)), gs, bb.
  split; [|split; [exact E3|exact E4]]. rewrite <- Fin. destruct (drawing_calls _ _ _ _ _ _). reflexivity.
Qed.
Print Assumptions C61_complete.
Example C61_complete_case : Forall (fun c => is_scalar c = true /\ c <> 0%N)
  (document_text (root_style mixed_style mixed_root) (root_kids mixed_style mixed_doc mixed_root)).
Proof.
  apply Forall_forall. intros c Hc.
  assert (T : forallb (fun c => is_scalar c && negb (c =? 0)%N)
    (document_text (root_style mixed_style mixed_root) (root_kids mixed_style mixed_doc mixed_root)) = true) by (vm_compute; reflexivity).
  rewrite forallb_forall in T. specialize (T c Hc). apply andb_true_iff in T as [T1 T2]. split; [exact T1|]. intros ->. discriminate T2.
Qed.

(* ------------------------------------------------------------------ *)
(** * C35, C37, C38, C41, C42: the lines of whole pages *)

(** The height of a box with inline content: the declared one, otherwise the heights of its lines together.
    [rest] is the group of absolutely positioned boxes of a positioned box. *)
Definition lines_height (cb : cblock) (b : blb) (f : fragment) : Prop :=
  match contents_of b, f with
  | Some (InlineFC _ _, _), FBox _ ch r _ _ _ _ =>
      match height_used (sv (box_style b) Lheight) (cb_block cb) with
      | LALen x => v_block (r_size r) = x
      | LAAuto => exists lines rest, ch = lines ++ rest /\
          (List.length rest <= if positioned (box_style b) then 1 else 0)%nat /\
          v_block (r_size r) = lsum (map line_height_of lines)
      end
  | _, _ => True
  end.
Lemma lines_height_put cb b f y : lines_height cb b f -> lines_height cb b (put_top y f).
Proof. unfold lines_height. destruct (contents_of b) as [[[l|st l] same]|]; destruct f; exact (fun H => H). Qed.
Lemma in_flow_inv1 cb st same abs lay f abs' : layout_in_flow cb st same abs lay = Ok (f, abs') ->
  exists fl abs1 extra, lay (if_children_cb cb st) (if is_relatively_positioned (sv st Lposition) then [] else abs) (if_start_collapse cb st same) = Ok (fl, abs1) /\
    f = FBox st (fl_fragments fl ++ extra) (if_content cb st same fl) (if_padding cb st) (if_border cb st) (if_margin cb st)
          (if_margins cb st same (fl_margins fl)) /\
    (List.length extra <= if positioned st then 1 else 0)%nat.
Proof.
  unfold layout_in_flow, positioned. intros E. destruct (sv st Lposition); cbn [is_relatively_positioned] in *.
  2:{ destruct (lay _ [] _) as [[fl abs1]| |]; cbn [bind] in E; try discriminate. exists fl, abs1.
    unfold in_positioned_containing_block in E. destruct abs1 as [|a abs1].
    + cbn [bind] in E. injection E as <- _. exists []. rewrite app_nil_r. split; [reflexivity|]. split; [reflexivity|]. cbn. lia.
    + destruct (mapR _ _) as [fs| |]; cbn [bind] in E; try discriminate. injection E as <- _. eexists. split; [reflexivity|]. split; [reflexivity|]. cbn. lia. }
  all: destruct (lay _ abs _) as [[fl abs1]| |]; cbn [bind] in E; try discriminate; injection E as <- _; exists fl, abs1, [];
    rewrite app_nil_r; (split; [reflexivity|]); (split; [reflexivity|]); cbn; lia.
Qed.
Section Lines.
Variable m_ascent m_descent : style -> Len.
Variable m_width : style -> text -> Len.
Lemma lines_sum F st l cb rank abs fl abs' : wf_container (InlineFC st l) ->
  ifc_layout m_ascent m_descent m_width st (map (ilb_map F) l) cb rank abs = Ok (fl, abs') ->
  fl_block_size fl = lsum (map line_height_of (fl_fragments fl)).
Proof.
  intros W E. destruct (C41_heights m_ascent m_descent m_width st _ cb rank abs (map_abspos_oks F st l W)) as (fl' & a' & E' & Hh & _).
  rewrite E in E'. injection E' as <- _. exact Hh.
Qed.
Lemma lines_height_laid b cb rank abs floats f abs' : wf_blb b -> in_flow b = true ->
  layout_blb m_ascent m_descent m_width b cb rank abs floats = Ok (f, abs') -> lines_height cb b f.
Proof.
  intros W Hb E. destruct b as [st c|st c|st c|st [fl0 c]]; try discriminate; cbn [layout_blb] in E; apply in_flow_inv1 in E;
    destruct E as (fl & abs1 & extra & E & -> & Hx); unfold lines_height; cbn [contents_of box_style]; rewrite <- used_height;
    (destruct c as [l|parent l]; [exact I|]).
  - change (ifc_layout m_ascent m_descent m_width parent (map (ilb_map (abs_box m_ascent m_descent m_width)) l) (if_children_cb cb st) rank
      (if is_relatively_positioned (sv st Lposition) then [] else abs) = Ok (fl, abs1)) in E.
    pose proof (ifc_margins _ _ _ _ _ _ _ _ _ _ E) as M.
    pose proof (lines_sum _ _ _ _ _ _ _ _ W E) as Hh. unfold if_content, if_height. cbn [r_size v_block].
    destruct (if_block_size cb st) as [x|]; cbn [auto_is]; [reflexivity|]. eexists _, extra. split; [reflexivity|]. split; [exact Hx|].
    rewrite M. unfold if_child_end. cbn [cb_through cb_end cb_zero]. rewrite andb_false_r, cm_solve_zero, Hh. destruct (if_end_collapse _ _ _); ring.
  - change (layout_bfc m_ascent m_descent m_width (BFC fl0 (InlineFC parent l)) (if_children_cb cb st) rank
      (if is_relatively_positioned (sv st Lposition) then [] else abs) = Ok (fl, abs1)) in E.
    apply bfc_inv in E. destruct E as (fl1 & E & -> & Eb & Em).
    change (ifc_layout m_ascent m_descent m_width parent (map (ilb_map (abs_box m_ascent m_descent m_width)) l) (if_children_cb cb st) rank
      (if is_relatively_positioned (sv st Lposition) then [] else abs) = Ok (fl1, abs1)) in E.
    pose proof (ifc_margins _ _ _ _ _ _ _ _ _ _ E) as M.
    pose proof (lines_sum _ _ _ _ _ _ _ _ W E) as Hh. unfold if_content, if_height. cbn [r_size v_block].
    destruct (if_block_size cb st) as [x|]; cbn [auto_is]; [reflexivity|]. eexists _, extra. split; [reflexivity|]. split; [exact Hx|].
    rewrite Em, Eb, M. unfold if_child_end. cbn [cb_through cb_end cb_zero]. rewrite andb_false_r, cm_solve_zero, Hh. destruct (if_end_collapse _ _ _); ring.
Qed.
Lemma lines_everywhere (L : cblock -> style -> list (ilb bfc) -> list fragment -> Prop) floats c viewport fs :
  (forall F cb st l rank abs fl abs', wf_container (InlineFC st l) ->
    ifc_layout m_ascent m_descent m_width st (map (ilb_map F) l) cb rank abs = Ok (fl, abs') -> L cb st l (fl_fragments fl)) -> wf_container c ->
  layout_root m_ascent m_descent m_width (BFC floats c) viewport = Ok fs ->
  page_laid_with lines_height (fun _ _ _ => True) L viewport c fs.
Proof.
  intros HL W E. eapply page_everywhere; [| | | |exact W|exact E].
  - exact lines_height_put.
  - intros. eapply lines_height_laid; eassumption.
  - intros. exact I.
  - intros st l cb rank abs fl abs' Wl El. eapply HL; eassumption.
Qed.
End Lines.

(** Wherever inline content is laid out on a page - in-flow or absolutely positioned, at any depth - its lines are
    stacked without gaps, as wide as their containing block and aligned in it, and a box without a declared height
    is as high as its lines. *)
Theorem C41_everywhere : forall m_ascent m_descent m_width floats c viewport fs, wf_container c ->
  layout_root m_ascent m_descent m_width (BFC floats c) viewport = Ok fs ->
  page_laid_with lines_height (fun _ _ _ => True)
    (fun cb st _ lines => exists height, InlineSpec.stacked m_width cb (align_fraction (sv st Ltext_align)) l0 lines height) viewport c fs.
Proof. intros ma md mw floats c viewport fs. apply lines_everywhere. intros F cb st l rank abs fl abs' W E.
  destruct (ifc_layout_ok ma md mw st (map (ilb_map F) l) cb rank abs (map_abspos_oks F st l W)) as (fl' & abs1 & es & pos & E' & _ & _ & _ & H & _).
  rewrite E in E'. injection E' as <- _. eexists. exact H.
Qed.
Print Assumptions C41_everywhere.
(** Everywhere on a page the lines show the text and the edges of the inline boxes, each once and in order; text is
    cut only where [run_lines] allows. *)
Theorem C42_everywhere {ar : Arith} {Z : ZeroLaws ar} : forall m_ascent m_descent m_width floats c viewport fs, wf_container c ->
  layout_root m_ascent m_descent m_width (BFC floats c) viewport = Ok fs ->
  page_laid_with (fun _ _ _ => True) (fun _ _ _ => True)
    (fun cb _ l lines => exists es pos, boxes_events m_width (fun _ _ _ => True) (cb_inline cb) l0 l es pos /\ map line_marks lines = cut [] es)
    viewport c fs.
Proof.
  intros ma md mw floats c viewport fs W E. eapply page_everywhere; [| | | |exact W|exact E]; try (intros; exact I).
  intros st l cb rank abs fl abs' Wl El. destruct (lines_laid _ _ _ _ _ _ _ _ _ _ _ Wl El) as (es & pos & H1 & H2). exists es, pos. split; [|exact H2].
  eapply boxes_events_weaken; [|apply le_n|exact H1]. intros; exact I.
Qed.
Print Assumptions C42_everywhere.
(** Everywhere on a page lines overflow only where no break was possible.
    MISSING: a hyphen may overflow (C37_needless_overflow_refuted). *)
Theorem C37_everywhere_partial {ar : Arith} {Z : ZeroLaws ar} : forall m_ascent m_descent m_width floats c viewport fs, wf_container c ->
  (forall font avail p, fits avail (m_width font (p ++ [sp])) -> fits avail (m_width font p)) ->
  layout_root m_ascent m_descent m_width (BFC floats c) viewport = Ok fs ->
  page_laid_with (fun _ _ _ => True) (fun _ _ _ => True)
    (fun cb _ l lines => exists es pos,
       boxes_events m_width (fun font avail p =>
           fits avail (m_width font p) \/ no_break_char p \/ (exists q, p = q ++ [hyphen] /\ fits avail (m_width font q)))
         (cb_inline cb) l0 l es pos /\ map line_marks lines = cut [] es) viewport c fs.
Proof.
  intros ma md mw floats c viewport fs W Hm E. eapply page_everywhere; [| | | |exact W|exact E]; try (intros; exact I).
  intros st l cb rank abs fl abs' Wl El. destruct (lines_laid _ _ _ _ _ _ _ _ _ _ _ Wl El) as (es & pos & H1 & H2). exists es, pos. split; [|exact H2].
  eapply boxes_events_weaken; [|apply le_n|exact H1]. intros fo a p Hok. exact (Hok (Hm fo)).
Qed.
Print Assumptions C37_everywhere_partial.
(** Everywhere on a page text that is not wrapped has its line breaks at the newlines and nowhere else. *)
Theorem C38_everywhere {ar : Arith} {Z : ZeroLaws ar} : forall m_ascent m_descent m_width floats c viewport fs, wf_container c ->
  layout_root m_ascent m_descent m_width (BFC floats c) viewport = Ok fs ->
  page_laid_with (fun _ _ _ => True) (fun _ _ _ => True)
    (fun cb _ l lines => Forall nowrap_only l -> map line_marks lines = cut [] (flat_map (nowrap_events (cb_inline cb)) l)) viewport c fs.
Proof.
  intros ma md mw floats c viewport fs W E. eapply page_everywhere; [| | | |exact W|exact E]; try (intros; exact I).
  intros st l cb rank abs fl abs' Wl El Hw. destruct (lines_laid _ _ _ _ _ _ _ _ _ _ _ Wl El) as (es & pos & H1 & H2).
  apply (nowrap_det _ _ _ _ _ (le_n _)) in H1; [rewrite H2, H1; reflexivity|]. clear - Hw. induction Hw; cbn; tauto.
Qed.
Print Assumptions C38_everywhere.

(** The page of <html><p>hi  you</p>...: the first p has two lines and is as high as they are. *)
Definition mixed_bfc : bfc := match construct_document mixed_style mixed_doc mixed_root with TreeModel.Done b => b | _ => BFC false (BlockLevelBoxes []) end.
Example lines_everywhere_case : match mixed_bfc with BFC _ c => wf_container c end /\
  (forall font avail p, fits avail (ex_width font (p ++ [sp])) -> fits avail (ex_width font p)) /\
  match layout_root (fun _ => px 12) (fun _ => px 4) ex_width mixed_bfc ex_page with
  | Ok [FBox _ [FBox _ [FAnon l1 _; FAnon l2 _] r _ _ _ _; _; _; FBox _ [FAnon _ _; FAnon _ _] _ _ _ _ _] _ _ _ _ _; FBox _ [FAnon _ _] _ _ _ _ _] =>
      this (v_block (r_size r)) = this (v_block (r_size l1) + v_block (r_size l2)) /\ l0 < v_block (r_size l1)
  | _ => False
  end.
Proof.
  split; [vm_compute; tauto|]. split; [|vm_compute; split; reflexivity].
  intros font avail p. unfold fits. intros H. apply not_true_is_false. intros H1. apply lltb_iff in H1.
  apply lltb_false in H. apply (Qlt_not_le _ _ H1). eapply Qle_trans; [|exact H].
  unfold ex_width. rewrite app_length. cbn [List.length].
  assert (Hz : (8 * Z.of_nat (List.length p) <= 8 * Z.of_nat (List.length p + 1))%Z) by lia.
  rewrite !this_px. unfold Qle. cbn [Qnum Qden inject_Z]. lia.
Qed.
