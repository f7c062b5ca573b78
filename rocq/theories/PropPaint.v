(** Properties of painting and of the entry point (C49-C52, C61). *)
From Verif Require Import StyleModel StyleSpec StyleExample GeomModel InlineModel BlockModel BlockSpec TreeModel TreeSpec.
From Verif Require Import Base DomModel DomSpec UnsetModel CStrModel GfxModel GfxSpec GfxProofs GfxDevice PropTree PropGfx.
From Verif Require Import PaintModel PaintSpec PaintProofs.
Local Open Scope string_scope.
Local Open Scope list_scope.
Local Open Scope len_scope.

(* ------------------------------------------------------------------ *)
(** * A document for the examples *)

(** <html><p>hi you</p></html>, every element a block with a solid top border, a right border that is hidden, and a
    red background, rendered with a font of fixed metrics. *)
Definition ex_style {ar : Arith} (i : nat) (parent : option style) : style :=
  css parent [prop "display" "block"; prop "border-top-style" "solid"; prop "background-color" "red"].
Definition ex_elem (n : string) : elem := Elem (QName "" n) [].
Definition ex_doc : doc :=
  Doc [Node None None None (Some 1%nat) (Some 1%nat) DDocument;
       Node (Some 0%nat) None None (Some 2%nat) (Some 2%nat) (DElement (ex_elem "html"));
       Node (Some 1%nat) None None (Some 3%nat) (Some 3%nat) (DElement (ex_elem "p"));
       Node (Some 2%nat) None None None None (DomModel.DText (txt "hi you"))] [].
Definition ex_root : dtree := DT 1 [DT 2 [DT 3 []]].
Definition ex_font_of {ar : Arith} (st : style) : font := Font "serif" FSNormal FWNormal (px 16) (px 12) (px 4) (px 8) 0.
Definition ex_width {ar : Arith} (st : style) (t : text) : Len := px (inject_Z (8 * Z.of_nat (List.length t))).
Definition ex_page {ar : Arith} : vec2 Len := Vec2 (px 40) (px 100).
Definition ex_fragments : list fragment :=
  match construct_document ex_style ex_doc ex_root with
  | TreeModel.Done b =>
      match layout_root (fun st => f_ascent (ex_font_of st)) (fun st => f_descent (ex_font_of st)) ex_width b ex_page with
      | Ok fs => fs | _ => []
      end
  | _ => []
  end.
Definition ex_calls : list dcall := fst (drawing_calls ex_font_of ex_width ex_style ex_doc ex_root ex_page).
Example ex_paints : map (fun c => match c with DBBox _ _ _ _ => 0 | DRect _ _ _ _ _ => 1 | DLine _ _ _ _ => 2 | _ => 3 end)%nat ex_calls =
  [0; 1; 2; 0; 1; 2; 0; 0; 3; 0; 0; 3]%nat.
Proof. vm_compute. reflexivity. Qed.
Example ex_computed : forall i parent, exists (selector : Set) (specificity : selector -> N) (matches : selector -> bool) ua author attr,
  element_style ex_ct specificity matches ua author attr parent (ex_style i parent).
Proof.
  intros i parent. apply css_computed. cbn [style_for_element].
  destruct (parse_block _ _) eqn:E; [reflexivity|vm_compute in E; discriminate..].
Qed.

(* ------------------------------------------------------------------ *)
(** * C49: order and position *)

(** Painting never fails. *)
Theorem C49_painting_never_fails {ar : Arith} : forall font_of fs page_size, exists cs, paint_page font_of fs page_size = Ok cs.
Proof. intros font_of fs size. destruct (page_paints font_of fs size) as (cs & E & _). eexists. exact E. Qed.
Print Assumptions C49_painting_never_fails.
(** The calls are, fragment after fragment in tree order, those of the fragment at its absolute position. *)
Theorem C49_tree_order : forall font_of fs page_size cs, paint_page font_of fs page_size = Ok cs ->
  exists groups, cs = concat groups /\
    Forall2 (fun p calls => own_calls font_of (fst p) (snd p) calls) (placed_page fs) groups.
Proof.
  intros font_of fs size cs H. destruct (page_grouped font_of fs size) as (gs & E & F). exists gs. split; [congruence|exact F].
Qed.
Print Assumptions C49_tree_order.
(** Moving the page moves everything. *)
Theorem C49_translation : forall font_of d fs x y w h cs,
  each (paint font_of (PRect (PVec x y) (PVec w h))) fs = Ok cs ->
  forall w' h', each (paint font_of (PRect (PVec (x + fst d) (y + snd d)) (PVec w' h'))) fs = Ok (map (move_call d) cs).
Proof.
  intros font_of d fs x y w h cs H w' h'. refine (each_moves font_of d fs _ _ _ _ _ H); [|reflexivity].
  apply Forall_forall. intros f _. apply paint_moves.
Qed.
Print Assumptions C49_translation.
Example C49_case : paint_page ex_font_of ex_fragments ex_page = Ok ex_calls /\ List.length (placed_page ex_fragments) = 6%nat.
Proof. split; vm_compute; reflexivity. Qed.

(* ------------------------------------------------------------------ *)
(** * C50: exactly what can be seen is drawn *)

Theorem C50_backgrounds : forall font_of fs page_size cs, paint_page font_of fs page_size = Ok cs ->
  flat_map rect_of cs = flat_map visible_background (placed_page fs).
Proof. intros font_of fs size cs H. destruct (page_kinds font_of fs size) as (c & E & K1 & _). congruence. Qed.
Print Assumptions C50_backgrounds.
Theorem C50_borders : forall font_of fs page_size cs, paint_page font_of fs page_size = Ok cs ->
  flat_map line_of cs = flat_map visible_borders (placed_page fs).
Proof. intros font_of fs size cs H. destruct (page_kinds font_of fs size) as (c & E & _ & K2 & _). congruence. Qed.
Print Assumptions C50_borders.
Theorem C50_texts {ar : Arith} : forall font_of fs page_size cs, paint_page font_of fs page_size = Ok cs ->
  flat_map text_of cs = flat_map visible_text (placed_page fs).
Proof. intros font_of fs size cs H. destruct (page_paints font_of fs size) as (c & E & K). congruence. Qed.
Print Assumptions C50_texts.
(** [visible_background] and [visible_borders] are about the same boxes as the words of the claim. *)
Theorem C50_visible : forall st ch r p b m cm o,
  let f := FBox st ch r p b m cm in
  (transparent_color (background st) -> visible_background (o, f) = []) /\
  (~ transparent_color (background st) -> visible_background (o, f) = [(border_box o f, background st)]) /\
  forall s, (side_visible s st (border_box o f) (padding_box o f) ->
               List.length (visible_side (o, f) s) = 1%nat) /\
            (~ side_visible s st (border_box o f) (padding_box o f) -> visible_side (o, f) s = []).
Proof.
  intros st ch r p b m cm o f. unfold visible_background, visible_side, transparent_color, side_visible. cbn [fst snd f].
  split; [intros H; destruct (N.eq_dec _ _); [reflexivity|contradiction]|].
  split; [intros H; destruct (N.eq_dec _ _); [contradiction|reflexivity]|].
  intros s. destruct (lltb l0 _) eqn:E1; destruct (not_none _) eqn:E2; cbn [andb]; split; intros H; try reflexivity; exfalso.
  - apply H. split; [apply lltb_iff; exact E1|apply not_none_iff; exact E2].
  - destruct H as [_ H]. apply not_none_iff in H. congruence.
  - destruct H as [H _]. apply lltb_iff in H. congruence.
  - destruct H as [H _]. apply lltb_iff in H. congruence.
Qed.
Print Assumptions C50_visible.
Example C50_case : List.length (flat_map visible_background (placed_page ex_fragments)) = 2%nat /\
  List.length (flat_map visible_borders (placed_page ex_fragments)) = 2%nat /\
  flat_map visible_text (placed_page ex_fragments) = ["hi"; "you"].
Proof. repeat split; vm_compute; reflexivity. Qed.

(* ------------------------------------------------------------------ *)
(** * C51: borders lie inside the border box *)

Theorem C51_centre_line : forall font_of fs page_size cs ps col w ls, paint_page font_of fs page_size = Ok cs ->
  In (DLine ps col w ls) cs -> exists o f s, In (o, f) (placed_page fs) /\
    ps = centre_line s (border_box o f) (padding_box o f) /\ w = side_width s (border_box o f) (padding_box o f) /\ l0 < w.
Proof.
  intros font_of fs size cs ps col w ls H HI.
  assert (L : In (ps, col, w, ls) (flat_map visible_borders (placed_page fs))).
  { rewrite <- (C50_borders _ _ _ _ H). apply in_flat_map. eexists. split; [exact HI|left; reflexivity]. }
  apply in_flat_map in L as ([o f] & Hp & L). apply in_flat_map in L as (s & _ & L). exists o, f, s. split; [exact Hp|].
  unfold visible_side in L. cbn [fst snd] in L. destruct f; try contradiction L.
  destruct (lltb l0 _ && _) eqn:E; [|contradiction]. destruct L as [L|[]]. injection L as <- <- <- <-.
  apply andb_true_iff in E as [E _]. apply lltb_iff in E. repeat split. exact E.
Qed.
Print Assumptions C51_centre_line.
(** Drawn with its width, the line covers the strip between the edges of the border box and the padding box: no
    more and no less. *)
Theorem C51_covers : forall st ch r p b m cm o,
  let f := FBox st ch r p b m cm in
  l0 <= v_inline (r_size r) -> l0 <= v_block (r_size r) ->
  Forall (fun x => l0 <= x) [s_inline_start p; s_inline_end p; s_block_start p; s_block_end p] ->
  Forall (fun x => l0 <= x) [s_inline_start b; s_inline_end b; s_block_start b; s_block_end b] ->
  b_xmin (border_box o f) < b_xmax (border_box o f) -> b_ymin (border_box o f) < b_ymax (border_box o f) ->
  forall s x, stroke (centre_line s (border_box o f) (padding_box o f)) (side_width s (border_box o f) (padding_box o f)) x <->
              strip s (border_box o f) (padding_box o f) x.
Proof.
  intros st ch r p b m cm o f W H P B X Y s x.
  rewrite !Forall_cons_iff in P. rewrite !Forall_cons_iff in B. destruct P as (P1 & P2 & P3 & P4 & _), B as (B1 & B2 & B3 & B4 & _).
  apply stroke_strip; try exact X; try exact Y; clear X Y; unfold f; cbn;
    [unfold box_within; cbn; repeat split; lenq|lenq|lenq].
Qed.
Print Assumptions C51_covers.
Example C51_case : exists ps col w ls, In (DLine ps col w ls) ex_calls.
Proof. eexists _, _, _, _. vm_compute. right; right; left. reflexivity. Qed.
Example C51_covers_case : let r := Rect (Vec2 (px 5) (px 6)) (Vec2 (px 20) (px 0)) in
  let s := Sides (px 1) (px 0) (px 3) (px 4) in let f := FBox body_style [] r s s s cb_zero in
  l0 <= v_inline (r_size r) /\ l0 <= v_block (r_size r) /\
  Forall (fun x => l0 <= x) [s_inline_start s; s_inline_end s; s_block_start s; s_block_end s] /\
  b_xmin (border_box (px 1, px 2) f) < b_xmax (border_box (px 1, px 2) f) /\
  b_ymin (border_box (px 1, px 2) f) < b_ymax (border_box (px 1, px 2) f).
Proof. cbn. repeat (split || constructor); lenq. Qed.

(* ------------------------------------------------------------------ *)
(** * C52: the bounding box of a page *)

(** The bounding box reported for a page is the least one around the margin boxes of all boxes and the rectangles
    of all texts and line boxes, turned upside down. *)
Theorem C52_page : forall os vs gw y0 font_of fs page_size,
  value_run [] os = Some vs -> gc_run gworld0 os = GfxModel.Done gw -> Forall (drawable font_of vs) (placed_page fs) ->
  exists cs w gs bb, paint_page font_of fs page_size = Ok cs /\ drun (DWorld (rdev_new y0) gw) cs = GfxModel.Done w /\
    rdev_release (dw_dev w) = GfxModel.Done (gs, bb) /\
    match bb with
    | Some (x1, y1, x2, y2) => fs <> [] /\
        least_box (Box x1 y1 x2 y2)
          (map (on_device y0) (flat_map (fun p => box_corners (margin_box (fst p) (snd p))) (placed_page fs)))
    | None => fs = []
    end.
Proof.
  intros os vs gw y0 font_of fs size H1 H2 D.
  destruct (page_kinds font_of fs size) as (cs & E & _ & _ & _ & R & Ok). specialize (Ok vs D).
  destruct (dev_bbox os vs gw y0 cs H1 H2 Ok) as (w & gs & bb & E1 & E2 & B). exists cs, w, gs, bb.
  split; [exact E|]. split; [exact E1|]. split; [exact E2|]. rewrite R in B.
  assert (N : fs = [] <-> flat_map (fun p => box_corners (margin_box (fst p) (snd p))) (placed_page fs) = []).
  { split; [intros ->; reflexivity|]. destruct fs as [|[] fs]; [reflexivity|discriminate..]. }
  destruct bb as [[[[x1 y1] x2] y2]|]; [|apply N; exact B]. destruct B as [B1 B2]. split; [|exact B2].
  intros F. apply B1. apply N. exact F.
Qed.
Print Assumptions C52_page.
Example C52_case : exists vs gw, value_run [] PropGfx.ex_gc = Some vs /\ gc_run gworld0 PropGfx.ex_gc = GfxModel.Done gw /\
  Forall (drawable ex_font_of vs) (placed_page ex_fragments) /\ ex_fragments <> [].
Proof.
  destruct (gc_value_semantics PropGfx.ex_gc _ eq_refl) as (gw & E & _).
  eexists _, gw. split; [reflexivity|]. split; [exact E|]. split; [|intros F; apply (f_equal (@List.length _)) in F; vm_compute in F; discriminate].
  apply Forall_forall. intros p Hp.
  assert (T : forallb (fun p => match snd p with FText _ _ _ seg => forallb is_scalar (seg_glyphs seg) && negb (existsb (N.eqb 0) (seg_glyphs seg)) | _ => true end)
                (placed_page ex_fragments) = true) by (vm_compute; reflexivity).
  rewrite forallb_forall in T. specialize (T p Hp). unfold drawable. destruct (snd p) as [| |st r fo s]; try exact I.
  apply andb_true_iff in T as [T1 T2]. split; [exact T1|]. split; [|cbn; discriminate].
  intros Z. apply negb_true_iff, not_true_iff_false in T2. apply T2.
  apply existsb_exists. exists 0%N. split; [exact Z|reflexivity].
Qed.

(* ------------------------------------------------------------------ *)
(** * C61: failures *)

(** A failure before the drawing starts draws nothing. *)
Theorem C61_layout_before_drawing {ar : Arith} : forall font_of width_of style_of d root page_size,
  snd (drawing_calls font_of width_of style_of d root page_size) <> Finished ->
  fst (drawing_calls font_of width_of style_of d root page_size) = [].
Proof.
  intros. unfold drawing_calls in *. destruct (construct_document _ _ _); [|reflexivity..].
  destruct (layout_root _ _ _ _ _); [|reflexivity..]. destruct (paint_page _ _ _); [contradiction H; reflexivity|reflexivity..].
Qed.
Print Assumptions C61_layout_before_drawing.
(** A failure during the drawing leaves what had been drawn, and nothing is drawn afterwards. *)
Theorem C61_drawn_so_far {ar : Arith} : forall cs w w' e, carry_out w cs = (w', e) ->
  exists drawn rest, cs = drawn ++ rest /\ drun w drawn = GfxModel.Done w' /\
    match e with
    | Finished => rest = []
    | Caught => exists c r, rest = c :: r /\ dstep w' c = RustPanic
    | Killed => exists c r, rest = c :: r /\ dstep w' c <> RustPanic /\ forall w'', dstep w' c <> GfxModel.Done w''
    end.
Proof. intros cs. exact (carry_out_prefix cs). Qed.
Print Assumptions C61_drawn_so_far.
(** As long as box construction does not take the process with it (C61_refuted), rendering returns a list of
    objects to the host: those of all the drawing calls up to the first text with a NUL character, if there is one.
    [os] creates the graphics contexts of the fonts. *)
Theorem C61_rendering_returns_partial : forall os vs gw font_of width_of ct style_of d root page_size,
  value_run [] os = Some vs -> gc_run gworld0 os = GfxModel.Done gw ->
  (forall st, value_of vs (f_gc (font_of st)) <> None) ->
  (forall i parent, exists (selector : Set) (specificity : selector -> N) (matches : selector -> bool) ua author attr,
     element_style ct specificity matches ua author attr parent (style_of i parent)) ->
  construct_document style_of d root <> Fatal ->
  exists drawn rest gs bb,
    fst (drawing_calls font_of width_of style_of d root page_size) = drawn ++ rest /\
    (rest = [] \/ exists c r, rest = c :: r /\ nul_text c) /\
    render_markdown font_of width_of style_of gw d root page_size = Some (GfxModel.Done (map Some gs, bb)) /\
    Forall2 (produces l0 vs) (filter draws drawn) gs.
Proof.
  intros os vs gw font_of width_of ct style_of d root size H1 H2 Hf Hs NF.
  assert (A : exists cs e, drawing_calls font_of width_of style_of d root size = (cs, e) /\ e <> Killed /\ Forall (font_alive vs) cs).
  { unfold drawing_calls. destruct (construct_document style_of d root) as [b| |] eqn:E; [|exists [], Caught; repeat split; [discriminate|constructor]|congruence].
    destruct (C45_whole_document ct style_of d root b (fun st => f_ascent (font_of st)) (fun st => f_descent (font_of st)) width_of size Hs E)
      as (_ & _ & fs & ->).
    destruct (page_grouped font_of fs size) as (gs & -> & F). exists (concat gs), Finished. repeat split; [discriminate|].
    apply Forall_concat. fold (placed_page fs) in F. clear E. induction F as [|[o f] g ps gs H F IH]; constructor; [|exact IH].
    cbn [fst snd] in H. destruct f as [st ch r p b0 m cm|r ch|st r fo sg]; cbn [own_calls] in H.
    - destruct H as (c & bg & t & ri & bo & l & -> & Hc & Hbg & Ht & Hri & Hbo & Hl).
      assert (S : forall s b q cs, side_drawn s st b q cs -> Forall (font_alive vs) cs).
      { intros s b1 q cs0 [[_ ->]|[_ ->]]; constructor; try constructor. }
      constructor; [destruct c; try contradiction; exact I|].
      rewrite !Forall_app. repeat split; try (eapply S; eassumption).
      destruct Hbg as [[_ (x & y & w & h & -> & _)]|[_ ->]]; constructor; try constructor.
    - destruct H as (c & -> & Hc). constructor; [destruct c; try contradiction; exact I|constructor].
    - destruct H as (c & -> & Hc). constructor; [destruct c; try contradiction; exact I|]. constructor; [|constructor]. apply Hf. }
  destruct A as (cs & e & E & NK & A). unfold render_markdown. rewrite E. cbn [fst].
  pose proof (gc_run_ok os gworld0 [] Inv_init) as G. rewrite H1 in G. destruct G as (gw' & E2 & I). assert (gw' = gw) as -> by congruence.
  destruct (carry_out_ok cs _ vs (rdev_new l0) [] gw [] (DInv_new l0) I eq_refl eq_refl A) as (drawn & rest & w' & -> & Ok & R & Dn).
  destruct (device_run os vs l0 drawn H1 Ok) as (gw'' & w & bb & gs & E3 & E4 & E5 & E6 & _).
  assert (gw'' = gw) as -> by congruence. assert (w = w') as -> by congruence.
  exists drawn, rest, gs, bb. split; [reflexivity|].
  split; [destruct R as [[R _]|[R _]]; [left; exact R|right; exact R]|]. split; [|exact E6].
  destruct R as [[_ R]|[_ R]]; rewrite R, E5; destruct e; try reflexivity; congruence.
Qed.
Print Assumptions C61_rendering_returns_partial.
Example C61_returns_case : exists vs gw, value_run [] PropGfx.ex_gc = Some vs /\ gc_run gworld0 PropGfx.ex_gc = GfxModel.Done gw /\
  (forall st, value_of vs (f_gc (ex_font_of st)) <> None) /\ construct_document ex_style ex_doc ex_root <> Fatal /\
  List.length ex_calls = 12%nat.
Proof.
  destruct (gc_value_semantics PropGfx.ex_gc _ eq_refl) as (gw & E & _).
  eexists _, gw. split; [reflexivity|]. split; [exact E|]. split; [cbn; discriminate|].
  split; [|vm_compute; reflexivity]. intros F.
  assert (match construct_document ex_style ex_doc ex_root with Fatal => true | _ => false end = false) by (vm_compute; reflexivity).
  rewrite F in H. discriminate.
Qed.
