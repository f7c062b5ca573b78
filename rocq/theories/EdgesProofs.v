(** The edges of the outermost element: lemmas (C99). *)
From Verif Require Import BlockModel BlockSpec BlockFrame BlockGen InlineModel StyleModel StyleSpec GeomModel TreeModel TreeSpec TreeProofs.
From Verif Require Import Base Len GfxModel PaintModel PaintProofs AppendSpec AppendBox AppendProofs PropPrepend.
From Verif Require Import WrapSpec WrapInline WrapBlock WrapTree UnboxProofs EdgesSpec.
Local Open Scope len_scope.

(** * Moving *)
Lemma on_move x y dx dy r : on (x + dx, y + dy) r = prect_translate (on (x, y) r) (PVec dx dy).
Proof. unfold on, prect_translate. cbn. f_equal. unfold pvec_add. cbn. f_equal; ring. Qed.
Lemma background_move st r dx dy : paint_background st (prect_translate r (PVec dx dy)) = map (moved dx dy) (paint_background st r).
Proof. unfold paint_background. cbv zeta. destruct (_ <? _)%N; [|reflexivity]. cbn. reflexivity. Qed.
Lemma line_eq (a a' b b' c c' d d' w : Len) col s : a = a' -> b = b' -> c = c' -> d = d' -> [DLine [(a, b); (c, d)] col w s] = [DLine [(a', b'); (c', d')] col w s].
Proof. intros -> -> -> ->. reflexivity. Qed.
Ltac side_move := intros; cbv beta zeta delta [paint_top paint_right paint_bottom paint_left]; cbn [prect_translate p_top_left p_size px_ py_ pvec_add];
  match goal with |- (if lltb _ ?a && _ then _ else _) = map _ (if lltb _ ?b && _ then _ else _) => replace a with b by ring end;
  destruct (_ && _); [|reflexivity]; cbn [map moved fst snd]; apply line_eq; ring.
Lemma top_move st br pr dx dy : paint_top st (prect_translate br (PVec dx dy)) (prect_translate pr (PVec dx dy)) = map (moved dx dy) (paint_top st br pr).
Proof. side_move. Qed.
Lemma right_move st br pr dx dy : paint_right st (prect_translate br (PVec dx dy)) (prect_translate pr (PVec dx dy)) = map (moved dx dy) (paint_right st br pr).
Proof. side_move. Qed.
Lemma bottom_move st br pr dx dy : paint_bottom st (prect_translate br (PVec dx dy)) (prect_translate pr (PVec dx dy)) = map (moved dx dy) (paint_bottom st br pr).
Proof. side_move. Qed.
Lemma left_move st br pr dx dy : paint_left st (prect_translate br (PVec dx dy)) (prect_translate pr (PVec dx dy)) = map (moved dx dy) (paint_left st br pr).
Proof. side_move. Qed.
Lemma box_move st br pr dx dy : box_calls st (prect_translate br (PVec dx dy)) (prect_translate pr (PVec dx dy)) = map (moved dx dy) (box_calls st br pr).
Proof. unfold box_calls. rewrite !map_app, background_move, top_move, right_move, bottom_move, left_move. reflexivity. Qed.
Lemma inside_moves x y dx dy r : inside (x + dx, y + dy) r = (fst (inside (x, y) r) + dx, snd (inside (x, y) r) + dy).
Proof. unfold inside. cbn. f_equal; ring. Qed.
Lemma seen_moves font_of f : forall x y dx dy, seen font_of (x + dx, y + dy) f = map (moved dx dy) (seen font_of (x, y) f).
Proof.
  induction f as [st ch r p b m cm IH|r ch IH|st r fo sg] using fragment_ind'; intros x y dx dy; cbn [seen].
  - rewrite map_app, !on_move, box_move, inside_moves. f_equal. destruct (inside (x, y) r) as [u v]. cbn [fst snd].
    induction IH as [|f ch Hf _ IHc]; [reflexivity|]. cbn [flat_map]. rewrite map_app, Hf, IHc. reflexivity.
  - rewrite inside_moves. destruct (inside (x, y) r) as [u v]. cbn [fst snd].
    induction IH as [|f ch Hf _ IHc]; [reflexivity|]. cbn [flat_map]. rewrite map_app, Hf, IHc. reflexivity.
  - rewrite inside_moves. cbn [map moved fst snd]. f_equal. f_equal. ring.
Qed.
Lemma sees_moves font_of fs x y dx dy : flat_map (seen font_of (x + dx, y + dy)) fs = map (moved dx dy) (flat_map (seen font_of (x, y)) fs).
Proof. induction fs as [|f fs IH]; [reflexivity|]. cbn [flat_map]. rewrite map_app, seen_moves, IH. reflexivity. Qed.
Lemma box_frame st br pr : at_most_a_frame (box_calls st br pr).
Proof.
  unfold box_calls, paint_background, paint_top, paint_right, paint_bottom, paint_left. cbv zeta.
  repeat match goal with |- context [if ?x then _ else _] => destruct x end; (split; [cbn; repeat constructor|repeat constructor]).
Qed.

(** * The boxes *)
Lemma nodes_related st st' kids kids' : same_inherited st st' -> Forall2 same_node kids kids' -> forall b b', zbuilder b b' -> tails b b' ->
  zout zbuilder (traverse_with (handle_node st) kids b) (traverse_with (handle_node st') kids' b').
Proof.
  intros H F. induction F as [|n n' kids kids' Hn F IH]; intros b b' B T; cbn [traverse_with]; [exact B|].
  replace (match kids' with [] => false | _ => true end) with (match kids with [] => false | _ => true end) by (destruct F; reflexivity).
  eapply zout_bind; [apply (z_same n n' Hn st st' _ b b' H B (or_introl T))|]. intros c c' (C1 & C2 & _). apply IH; assumption.
Qed.
Lemma contents_related st st' kids kids' : same_inherited st st' -> Forall2 same_node kids kids' -> zout zcf (construct_container st kids) (construct_container st' kids').
Proof.
  intros H F. unfold construct_container. eapply zout_bind; [apply (nodes_related _ _ _ _ H F); [apply z_builder_new, H|reflexivity]|].
  intros c c' C. apply z_finish_container, C.
Qed.

(** * The outermost box *)
Section Root.
Variables ma md : style -> Len.
Variable mw : style -> text -> Len.
Definition page_cb (page : vec2 Len) : cblock := CBlock (v_inline page) (LALen (v_block page)).
Definition la_of (o : option Len) : la := match o with Some l => LALen l | None => LAAuto end.
Lemma root_cb st page : in_place st -> if_children_cb (page_cb page) st = CBlock (inner_width page st) (la_of (inner_height page st)).
Proof.
  intros [_ _ _ Hl]. unfold if_children_cb. f_equal.
  - unfold if_inline_size, if_margin, if_computed_inline_size, inner_width, left_edges, right_edges, box_size. cbn [size_to_flow_relative the_writing_mode v_inline page_cb cb_inline].
    cbn. destruct (sv st Lwidth); cbn; [reflexivity..|].
    unfold inline_sum, if_pb, if_padding, if_border, sides_lp_rel, sides_auto_is, sides_lpa_rel, style_padding, style_border_width, style_margin. cbn.
    destruct (sv st Lmargin_left), (sv st Lmargin_right), (sv st Lborder_left_width), (sv st Lborder_right_width), (sv st Lpadding_left), (sv st Lpadding_right); cbn; ring.
  - unfold if_block_size, inner_height, box_size. cbn. destruct (sv st Lheight); reflexivity.
Qed.
Lemma root_margin_left st page : in_place st -> s_inline_start (if_margin (page_cb page) st) = margin_on (v_inline page) (sv st Lmargin_left).
Proof.
  intros [_ _ _ Hl]. unfold if_margin, if_computed_inline_size, box_size. cbn. destruct (sv st Lwidth); cbn;
    destruct (sv st Lmargin_left), (sv st Lmargin_right); cbn; try reflexivity; destruct Hl as [Hl|Hl]; try discriminate; try contradiction.
Qed.
Lemma root_margin_top st page : s_block_start (if_margin (page_cb page) st) = margin_on (v_inline page) (sv st Lmargin_top).
Proof.
  unfold if_margin, if_computed_inline_size, box_size. cbn. destruct (sv st Lwidth); cbn;
    destruct (sv st Lmargin_left), (sv st Lmargin_right), (sv st Lmargin_top); cbn; reflexivity.
Qed.
Lemma solve_new m : cm_solve (cm_adjoin cm_zero (cm_new m)) = m.
Proof. unfold cm_solve, cm_adjoin, cm_new. cbn. lenq. Qed.
Definition root_frag (st : style) (page : vec2 Len) (fl : flow) : fragment :=
  let cb := page_cb page in
  FBox st (fl_fragments fl) (shift_block (if_content cb st false fl) (margin_on (v_inline page) (sv st Lmargin_top) + l0))
    (if_padding cb st) (if_border cb st) (if_margin cb st) (if_margins cb st false (fl_margins fl)).
Lemma root_layout st page c : in_place st -> af_bfc c ->
  layout_root ma md mw (BFC false (BlockLevelBoxes [Indep st c])) page =
  (do (fl, _) <- layout_bfc ma md mw c (CBlock (inner_width page st) (la_of (inner_height page st))) 0 []; Ok [root_frag st page fl])%result.
Proof.
  intros Hp A.
  change (layout_root ma md mw (BFC false (BlockLevelBoxes [Indep st c])) page) with
   (do (fl, abs) <- bfc_finish (layout_block_level_children [fun cb rank abs floats => layout_in_flow cb st false abs (fun cb' abs' _ => layout_bfc ma md mw c cb' rank abs')]
      (page_cb page) 0 [] false false);
    do fs <- mapR (fun a => af_layout a (af_inline a) (af_block a) page) abs; Ok (fl_fragments fl ++ fs))%result.
  unfold bfc_finish, layout_block_level_children. cbn [children_layout]. unfold layout_in_flow. rewrite (ip_static _ Hp). cbn [is_relatively_positioned].
  rewrite (root_cb st page Hp).
  destruct (layout_bfc ma md mw c _ 0 []) as [[fl a]| |] eqn:E; [|reflexivity..].
  pose proof (proj1 (proj2 (proj2 (free_layout ma md mw)) c A _ _ _ _ _ E)) as ->. cbn [bind].
  unfold root_frag. cbn [place_all place placement_start pl_collapses pl_start pl_margin pl_pos].
  assert (X : cb_start (if_margins (page_cb page) st false (fl_margins fl)) = cm_new (s_block_start (if_margin (page_cb page) st))) by reflexivity.
  rewrite X, solve_new, root_margin_top. cbn. reflexivity.
Qed.
Lemma root_corner st page fl x y : in_place st ->
  inside (x, y) (shift_block (if_content (page_cb page) st false fl) (margin_on (v_inline page) (sv st Lmargin_top) + l0)) =
  (x + left_edges (v_inline page) st, y + top_edges (v_inline page) st).
Proof.
  intros Hp. unfold inside, shift_block, if_content. rewrite (root_margin_left st page Hp). unfold relative_adjustement. rewrite (ip_static _ Hp).
  unfold left_edges, top_edges, if_pb, if_padding, if_border. cbn.
  destruct (sv st Lborder_left_width), (sv st Lpadding_left), (sv st Lborder_top_width), (sv st Lpadding_top); cbn; f_equal; ring.
Qed.
End Root.
