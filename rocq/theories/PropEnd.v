(** C79: from the arguments of html_grob to the texts on the graphics device. *)
From Verif Require Import StyleModel StyleSpec StyleExample PropStyle.
From Verif Require Import TreeModel TreeSpec TextSpec PropTree CStrModel GfxModel GfxSpec GfxProofs GeomModel PaintModel PaintSpec PropPaint PropText.
From Verif Require Import Base DomModel DomSpec SelModel SelSpec UnsetModel UaModel UaSpec PropUa.
From Verif Require RModel RSpec PropR.
Local Open Scope list_scope.
Local Open Scope len_scope.

(** The texts of the objects drawn *)
Definition grob_text (g : grob) : list string := match g with TextGrob l _ _ _ _ _ => [l] | _ => [] end.
(** [renderer] answers for the text [t] and the style sheet [css] what the program computes for the document [d] they
    are parsed to (by pulldown-cmark and html5ever), whatever the size of the page *)
Definition renders_document (renderer : text -> text -> Len -> Len -> list grob * option RModel.bbox) (t css : text)
    (font_of : style -> font) (width_of : style -> text -> Len) (style_of : node_id -> option style -> style) (gw : gworld) (d : doc) (root : dtree) : Prop :=
  forall w h gs bb, render_markdown font_of width_of style_of gw d root (Vec2 w h) = Some (GfxModel.Done (map Some gs, bb)) ->
    renderer t css w h = (gs, bb).

Lemma produced_texts : forall vs calls gs, Forall2 (produces l0 vs) (filter draws calls) gs ->
  flat_map grob_text gs = flat_map text_of calls.
Proof.
  intros vs calls. induction calls as [|c calls IH]; intros gs F; cbn [filter] in F; [now inversion F|].
  destruct (draws c) eqn:E.
  - inversion F as [|? g ? gs' P F']; subst. cbn [flat_map]. rewrite (IH gs' F'). f_equal.
    destruct c, g; cbn in P |- *; try contradiction; try reflexivity. now destruct P as [-> _].
  - destruct c; try discriminate E. cbn [flat_map text_of app]. now apply IH.
Qed.

(** C79.  Take a document that can be rendered by default (C72), whose author changes neither display, position, float
    nor white-space, and whose text has no NUL.  Drawing it with html_grob succeeds, whatever the viewports, sizes and
    justification; the objects drawn are those of the drawing calls for a page of the size of C75; their texts together
    are the text of the document, in order, up to white space and hyphens; and with hjust = 0 and vjust = 1 the upper
    left corner of the page is at (x, y).
    MISSING: documents that cannot be rendered (C72_refuted), floats (C65_refuted), other justifications (C76_refuted). *)
Theorem C79_text_arrives_partial : forall os vs gw font_of width_of ct read_sheet attr_items fuel d user sources style_of root r
    renderer g x t ts css csss,
  value_run [] os = Some vs -> gc_run gworld0 os = GfxModel.Done gw -> (forall st, value_of vs (f_gc (font_of st)) <> None) ->
  styled_document ct read_sheet attr_items fuel d user sources style_of root ->
  unstyled ct attr_items d (map read_sheet sources) [Ldisplay; Lposition; Lfloat; Lwhite_space] ->
  root_element fuel d = Ok r -> shown_by_default d r -> renderable_by_default d r ->
  Forall (fun c => is_scalar c = true /\ c <> 0%N) (default_text d root) ->
  RModel.h_text x = t :: ts -> RModel.h_css x = css :: csss -> RSpec.vp_ok (RModel.h_vp x) ->
  renders_document renderer t css font_of width_of style_of gw d root ->
  let a := RSpec.own_area g (RModel.h_vp x) in
  let page := Vec2 (RSpec.available (RModel.h_width x) (RModel.a_width a) * px 96)
                   (RSpec.available (RModel.h_height x) (RModel.a_height a) * px 96) in
  exists grobs place calls pieces,
    RModel.draw renderer g x = Ok (grobs, place, g) /\
    drawing_calls font_of width_of style_of d root page = (calls, Finished) /\
    Forall2 (produces l0 vs) (filter draws calls) grobs /\
    flat_map grob_text grobs = map label_of pieces /\ ink (concat pieces) = ink (default_text d root) /\
    (RModel.h_hjust x = l0 -> RModel.h_vjust x = px 1 ->
     RModel.drawn_at place l0 l0 = (RModel.a_left a + RSpec.measured (RModel.h_x x) (RModel.a_width a),
                                    RModel.a_bottom a + RSpec.measured (RModel.h_y x) (RModel.a_height a))).
Proof.
  intros os vs gw font_of width_of ct rs ai fuel d user sources style_of root r renderer g x t ts css csss
    H1 H2 Hf S U Er Sr R Nul Et Ec Hvp Hr a page.
  destruct (unstyled_document _ _ _ _ _ _ _ _ _ _ S U Er Sr R) as (C & B & P & A & T). rewrite <- T in *.
  destruct (C61_complete os vs gw font_of width_of ct style_of d root page H1 H2 Hf C B Nul) as (calls & gs & bb & Ecalls & Erender & Fp).
  destruct B as (b & Eb).
  destruct (C65_in_order_partial font_of width_of ct style_of d root page b C Eb P A) as (pieces & Ep & Ei).
  rewrite Ecalls in Ep. cbn [fst] in Ep. apply Hr in Erender.
  destruct (RProofs.draw_ok renderer g x Hvp) as (m & place & Em & Ed & El & Ebot).
  pose proof (PropR.C75_sizes renderer g x t ts css csss Hvp Et Ec) as Hs. cbv zeta in Hs. fold a in Hs.
  rewrite Erender in Hs. destruct Hs as (m' & Em' & Ech & _). assert (m' = m) by congruence. subst m'. rewrite Ech in Ed.
  exists gs, place, calls, pieces. split; [exact Ed|]. split; [exact Ecalls|]. split; [exact Fp|].
  split; [rewrite (produced_texts vs calls gs Fp); exact Ep|]. split; [exact Ei|].
  intros Hh Hv. destruct (PropR.C76_default_partial renderer g x Hvp Hh Hv) as (_ & b' & gs' & Ed' & Hat).
  assert (b' = place) by congruence. subst b'. exact Hat.
Qed.
Print Assumptions C79_text_arrives_partial.
(** The hypotheses of C79 are met by "Hello <em>big</em> world" in a viewport half the size of the device. *)
Definition page_renderer font_of width_of style_of gw d root : text -> text -> Len -> Len -> list grob * option RModel.bbox :=
  fun _ _ w h => match render_markdown font_of width_of style_of gw d root (Vec2 w h) with
    | Some (GfxModel.Done (gs, bb)) => (flat_map (fun o => match o with Some g => [g] | None => [] end) gs, bb) | _ => ([], None) end.
Lemma page_renderer_ok : forall t css font_of width_of style_of gw d root,
  renders_document (page_renderer font_of width_of style_of gw d root) t css font_of width_of style_of gw d root.
Proof.
  intros t css font_of width_of style_of gw d root w h gs bb E. unfold page_renderer. rewrite E. clear E. f_equal.
  induction gs as [|g gs IH]; [reflexivity|]. cbn [map flat_map app]. f_equal. exact IH.
Qed.
Example C79_case : exists vs gw style_of root renderer,
  value_run [] [GNew] = Some vs /\ gc_run gworld0 [GNew] = GfxModel.Done gw /\ (forall st, value_of vs (f_gc (PropPaint.ex_font_of st)) <> None) /\
  styled_document ex_ct no_rules no_items 20 paragraph_doc None [] style_of root /\
  unstyled ex_ct no_items paragraph_doc [] [Ldisplay; Lposition; Lfloat; Lwhite_space] /\
  root_element 20 paragraph_doc = Ok 2 /\ shown_by_default paragraph_doc 2 /\ renderable_by_default paragraph_doc 2 /\
  default_text paragraph_doc root = txt "Hello big world" /\
  Forall (fun c => is_scalar c = true /\ c <> 0%N) (default_text paragraph_doc root) /\
  (let x := PropR.plain_grob (Some [PropR.half_viewport]) l0 (px 1) in
   (exists ts, RModel.h_text x = txt "Hello" :: ts) /\ RModel.h_css x = [txt ""] /\ RSpec.vp_ok (RModel.h_vp x)) /\
  renders_document renderer (txt "Hello") (txt "") PropPaint.ex_font_of PropPaint.ex_width style_of gw paragraph_doc root.
Proof.
  destruct C72_case as (style_of & root & S & U & Er & Sr & R & T).
  do 2 eexists. exists style_of, root. eexists. split; [reflexivity|]. split; [reflexivity|].
  split; [intros st; cbn; discriminate|]. do 6 (split; [assumption|]).
  split. { rewrite T. apply Forall_forall. intros c Hc.
    assert (B : forallb (fun c => is_scalar c && negb (c =? 0)%N) (txt "Hello big world") = true) by (vm_compute; reflexivity).
    rewrite forallb_forall in B. specialize (B c Hc). apply andb_true_iff in B as [B1 B2]. split; [exact B1|]. intros ->. discriminate B2. }
  split. { split; [eexists; reflexivity|]. split; [reflexivity|discriminate]. }
  apply page_renderer_ok.
Qed.
