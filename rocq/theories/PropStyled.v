(** C73 and C79 for documents with any style sheets. *)
From Verif Require Import StyleModel StyleSpec StyleExample PropStyle.
From Verif Require Import TreeModel TreeSpec TextSpec PropTree CStrModel GfxModel GfxSpec GfxProofs GeomModel PaintModel PaintSpec PropPaint PropText.
From Verif Require Import Base DomModel DomSpec SelModel SelSpec UnsetModel UaModel UaSpec UaProofs UaDoc InlineSpec TextProofs TreeInv PropUa PropEnd PropIso.
From Verif Require RModel RSpec PropR RProofs.
From Coq Require Import Permutation Lia.
Local Open Scope list_scope.
Local Open Scope len_scope.

(** Take a document with any style sheets and style attributes the program can read, and draw it to the end: the texts
    drawn are the text of the document outside floats and hidden elements, each character once, up to white space and
    hyphens; in document order if nothing is absolutely positioned.
    MISSING: floats (C65_refuted), hyphens at the end of a line (C35_hyphen_lost_refuted), and documents that are not drawn
    to the end (C72_refuted). *)
Theorem C73_text_partial : forall font_of width_of page_size ct read_sheet attr_items fuel d user sources style_of root,
  styled_document ct read_sheet attr_items fuel d user sources style_of root ->
  snd (drawing_calls font_of width_of style_of d root page_size) = Finished ->
  exists pieces, flat_map text_of (fst (drawing_calls font_of width_of style_of d root page_size)) = map label_of pieces /\
    Permutation (ink (concat pieces)) (ink (document_text (root_style style_of root) (root_kids style_of d root))) /\
    (is_absolutely_positioned (sv (root_style style_of root) Lposition) = false -> Forall nothing_absolute (root_kids style_of d root) ->
     ink (concat pieces) = ink (document_text (root_style style_of root) (root_kids style_of d root))).
Proof.
  intros font_of width_of page ct rs ai fuel d user sources style_of root S F. pose proof S as (Hd & Hf & Hp & G & GA & H).
  pose proof (proj1 (document_input_styles ct rs ai _ _ _ _ _ _ Hd Hf Hp G GA H)) as C.
  assert (B : exists b, construct_document style_of d root = TreeModel.Done b).
  { unfold drawing_calls in F. destruct (construct_document style_of d root) as [b| |]; [exists b; reflexivity|discriminate..]. }
  destruct B as [b Eb].
  destruct (drawn_texts font_of width_of ct style_of d root page b C Eb) as (pieces & e & H1 & _ & (_ & H2 & _) & He & t & H3 & H4 & H5).
  exists pieces. split; [exact H1|]. rewrite <- H2, <- (deletes_ink _ _ H3). split; [apply permutation_filter; exact H4|].
  intros A1 A2. rewrite H5; [reflexivity|]. rewrite He. apply root_text; [exact A1|]. apply fold_forall. exact A2.
Qed.
Print Assumptions C73_text_partial.

(** Draw such a document with html_grob, where the text has no NUL: drawing succeeds, whatever the viewports, sizes and
    justification; the objects drawn are those of the drawing calls for a page of the size of C75; their texts together
    are the text of the document as above; and with hjust = 0 and vjust = 1 the upper left corner of the page is at (x, y).
    MISSING: as for C73, and other justifications (C76_refuted). *)
Theorem C79_styled_partial : forall os vs gw font_of width_of ct read_sheet attr_items fuel d user sources style_of root
    renderer g x t ts css csss,
  value_run [] os = Some vs -> gc_run gworld0 os = GfxModel.Done gw -> (forall st, value_of vs (f_gc (font_of st)) <> None) ->
  styled_document ct read_sheet attr_items fuel d user sources style_of root ->
  (exists page_size, snd (drawing_calls font_of width_of style_of d root page_size) = Finished) ->
  Forall (fun c => is_scalar c = true /\ c <> 0%N) (document_text (root_style style_of root) (root_kids style_of d root)) ->
  RModel.h_text x = t :: ts -> RModel.h_css x = css :: csss -> RSpec.vp_ok (RModel.h_vp x) ->
  renders_document renderer t css font_of width_of style_of gw d root ->
  let a := RSpec.own_area g (RModel.h_vp x) in
  let page := Vec2 (RSpec.available (RModel.h_width x) (RModel.a_width a) * px 96)
                   (RSpec.available (RModel.h_height x) (RModel.a_height a) * px 96) in
  exists grobs place calls pieces,
    RModel.draw renderer g x = Ok (grobs, place, g) /\
    drawing_calls font_of width_of style_of d root page = (calls, Finished) /\
    Forall2 (produces l0 vs) (filter draws calls) grobs /\
    flat_map grob_text grobs = map label_of pieces /\
    Permutation (ink (concat pieces)) (ink (document_text (root_style style_of root) (root_kids style_of d root))) /\
    (is_absolutely_positioned (sv (root_style style_of root) Lposition) = false -> Forall nothing_absolute (root_kids style_of d root) ->
     ink (concat pieces) = ink (document_text (root_style style_of root) (root_kids style_of d root))) /\
    (RModel.h_hjust x = l0 -> RModel.h_vjust x = px 1 ->
     RModel.drawn_at place l0 l0 = (RModel.a_left a + RSpec.measured (RModel.h_x x) (RModel.a_width a),
                                    RModel.a_bottom a + RSpec.measured (RModel.h_y x) (RModel.a_height a))).
Proof.
  intros os vs gw font_of width_of ct rs ai fuel d user sources style_of root renderer g x t ts css csss
    H1 H2 Hf S [page0 F] Nul Et Ec Hvp Hr a page.
  pose proof S as (Hd & Hfu & Hp & G & GA & H).
  pose proof (proj1 (document_input_styles ct rs ai _ _ _ _ _ _ Hd Hfu Hp G GA H)) as C.
  assert (B : exists b, construct_document style_of d root = TreeModel.Done b).
  { unfold drawing_calls in F. destruct (construct_document style_of d root) as [b| |]; [exists b; reflexivity|discriminate..]. }
  destruct (C61_complete os vs gw font_of width_of ct style_of d root page H1 H2 Hf C B Nul) as (calls & gs & bb & Ecalls & Erender & Fp).
  destruct (C73_text_partial font_of width_of page _ _ _ _ _ _ _ _ _ S) as (pieces & Ep & Ei); [rewrite Ecalls; reflexivity|].
  rewrite Ecalls in Ep. cbn [fst] in Ep. apply Hr in Erender.
  destruct (RProofs.draw_ok renderer g x Hvp) as (m & place & Em & Ed & El & Ebot).
  pose proof (PropR.C75_sizes renderer g x t ts css csss Hvp Et Ec) as Hs. cbv zeta in Hs. fold a in Hs.
  rewrite Erender in Hs. destruct Hs as (m' & Em' & Ech & _). assert (m' = m) by congruence. subst m'. rewrite Ech in Ed.
  exists gs, place, calls, pieces. split; [exact Ed|]. split; [exact Ecalls|]. split; [exact Fp|].
  split; [rewrite (produced_texts vs calls gs Fp); exact Ep|]. split; [apply Ei|]. split; [apply Ei|].
  intros Hh Hv. destruct (PropR.C76_default_partial renderer g x Hvp Hh Hv) as (_ & b' & gs' & Ed' & Hat).
  assert (b' = place) by congruence. subst b'. exact Hat.
Qed.
Print Assumptions C79_styled_partial.

(** The hypotheses are met by a document whose style sheet hides a paragraph. *)
Example C79_styled_case : exists vs gw style_of root renderer,
  value_run [] [GNew] = Some vs /\ gc_run gworld0 [GNew] = GfxModel.Done gw /\ (forall st, value_of vs (f_gc (PropPaint.ex_font_of st)) <> None) /\
  styled_document ex_ct hiding no_items 20 removed_doc None [txt "p{display:none}"] style_of root /\
  snd (drawing_calls PropPaint.ex_font_of PropPaint.ex_width style_of removed_doc root ex_page) = Finished /\
  document_text (root_style style_of root) (root_kids style_of removed_doc root) = txt "yo" /\
  Forall (fun c => is_scalar c = true /\ c <> 0%N) (document_text (root_style style_of root) (root_kids style_of removed_doc root)) /\
  is_absolutely_positioned (sv (root_style style_of root) Lposition) = false /\ Forall nothing_absolute (root_kids style_of removed_doc root) /\
  (let x := PropR.plain_grob (Some [PropR.half_viewport]) l0 (px 1) in
   (exists ts, RModel.h_text x = txt "Hello" :: ts) /\ RModel.h_css x = [txt ""] /\ RSpec.vp_ok (RModel.h_vp x)) /\
  renders_document renderer (txt "Hello") (txt "") PropPaint.ex_font_of PropPaint.ex_width style_of gw removed_doc root.
Proof.
  destruct (hiding_styled removed_doc [txt "p{display:none}"] removed_reach) as (s & r & H); [vm_compute; lia|vm_compute; reflexivity|vm_compute; reflexivity|].
  do 2 eexists. exists s, r. eexists. split; [reflexivity|]. split; [reflexivity|]. split; [intros st; cbn; discriminate|]. split; [exact H|].
  destruct H as (_ & _ & _ & _ & _ & H).
  assert (T : match document_input ex_ct hiding no_items 20 removed_doc None with
      | Ok (s, r) => (snd (drawing_calls ex_font_of ex_width s removed_doc r ex_page), document_text (root_style s r) (root_kids s removed_doc r)) | _ => (Killed, []) end = (Finished, txt "yo")) by (vm_compute; reflexivity).
  rewrite H in T. assert (T1 := f_equal fst T). assert (T2 := f_equal snd T). cbn [fst snd] in T1, T2.
  split; [exact T1|]. split; [exact T2|]. rewrite T2.
  split. { repeat constructor; discriminate. }
  assert (A : match document_input ex_ct hiding no_items 20 removed_doc None with
      | Ok (s, r) => is_absolutely_positioned (sv (root_style s r) Lposition) = false /\ Forall nothing_absolute (root_kids s removed_doc r) | _ => False end)
    by (vm_compute; split; [reflexivity|repeat constructor; auto 20]).
  rewrite H in A. split; [apply A|]. split; [apply A|].
  split. { split; [eexists; reflexivity|]. split; [reflexivity|discriminate]. }
  apply page_renderer_ok.
Qed.
