(** Painting what has moved up or down (proofs for C103). *)
From Verif Require Import Base Len GeomModel StyleModel StyleSpec InlineModel BlockModel TreeModel TreeSpec GfxModel PaintModel UnsetModel ExceptSpec LevelSpec LevelProofs.
Local Open Scope len_scope.
Local Open Scope list_scope.
Local Open Scope result_scope.

Section Any.
Context {ar : Arith}.
Notation vert := (same_but is_vertical).
Definition zp (p p' : prect Len) : Prop := px_ (p_top_left p') = px_ (p_top_left p) /\ px_ (p_size p') = px_ (p_size p).
Lemma phys_level r r' c c' : hr r r' -> px_ (p_top_left c') = px_ (p_top_left c) ->
  exists p p', physical r c = Ok p /\ physical r' c' = Ok p' /\ zp p p'.
Proof. intros [H1 H2] E. unfold physical. cbn. eexists _, _. split; [reflexivity|]. split; [reflexivity|]. split; cbn; congruence. Qed.
Definition seen (cs cs' : list dcall) : Prop := flat_map across_of cs' = flat_map across_of cs.
Lemma seen_app a a' b b' : seen a a' -> seen b b' -> seen (a ++ b) (a' ++ b').
Proof. unfold seen. intros A B. rewrite !flat_map_app, A, B. reflexivity. Qed.
Lemma seen_bbox p p' : zp p p' -> seen [bbox_call p] [bbox_call p'].
Proof. intros [E1 E2]. unfold seen. cbn. rewrite E1, E2. reflexivity. Qed.
Lemma seen_background st st' p p' : vert st st' -> zp p p' -> seen (paint_background st p) (paint_background st' p').
Proof.
  intros H [E1 E2]. unfold paint_background, to_rgba. rewrite (proj1 H Lbackground_color eq_refl), (proj1 H Lcolor eq_refl).
  destruct (_ <? _)%N; unfold seen; cbn; rewrite ?E1, ?E2; reflexivity.
Qed.
Lemma unseen_top st p q : flat_map across_of (paint_top st p q) = []. Proof. unfold paint_top. destruct (_ && _); reflexivity. Qed.
Lemma unseen_right st p q : flat_map across_of (paint_right st p q) = []. Proof. unfold paint_right. destruct (_ && _); reflexivity. Qed.
Lemma unseen_bottom st p q : flat_map across_of (paint_bottom st p q) = []. Proof. unfold paint_bottom. destruct (_ && _); reflexivity. Qed.
Lemma unseen_left st p q : flat_map across_of (paint_left st p q) = []. Proof. unfold paint_left. destruct (_ && _); reflexivity. Qed.

Notation zfr := (zfrag vert).
Section Paint.
Variable font_of : style -> font.
Hypothesis Hfont : forall s s', vert s s' -> font_of s' = font_of s.
Lemma z_paint f f' (H : zfr f f') : forall c c', px_ (p_top_left c') = px_ (p_top_left c) -> zres seen (paint font_of c f) (paint font_of c' f').
Proof.
  revert f f' H. fix IH 3. intros f f' H c c' E.
  assert (K : forall ch ch', Forall2 zfr ch ch' -> forall c c', px_ (p_top_left c') = px_ (p_top_left c) -> zres seen (each (paint font_of c) ch) (each (paint font_of c') ch')).
  { clear c c' E. intros ch ch' F c c' E. induction F as [|x y l l' Hxy F IHF]; cbn [each]; [reflexivity|].
    eapply zres_bind; [exact (IH _ _ Hxy c c' E)|]. intros d d' Hd. eapply zres_bind; [exact IHF|]. intros e e' He. cbn. apply seen_app; assumption. }
  destruct H as [st st' ch ch' r r' p p' b b' m m' cm cm' Hs F R P B M|r r' ch ch' R F|st st' r r' fo fo' sg Hs R Hf]; cbn [paint].
  - pose proof (hr_inflate r r' p p' R P) as R1. pose proof (hr_inflate _ _ b b' R1 B) as R2. pose proof (hr_inflate _ _ m m' R2 M) as R3.
    destruct (phys_level _ _ c c' R3 E) as (p1 & q1 & P1 & Q1 & Z1). destruct (phys_level _ _ c c' R2 E) as (p2 & q2 & P2 & Q2 & Z2).
    destruct (phys_level _ _ c c' R1 E) as (p3 & q3 & P3 & Q3 & Z3). destruct (phys_level _ _ c c' R E) as (p4 & q4 & P4 & Q4 & Z4).
    unfold margin_rect_of, border_rect_of, padding_rect_of. rewrite P1, P2, P3, P4, Q1, Q2, Q3, Q4. cbn [bind].
    eapply zres_bind; [apply K; [exact F|exact (proj1 Z4)]|]. intros cs cs' Hcs. cbn [zres].
    apply (seen_app [_] [_]); [apply seen_bbox, Z1|]. apply seen_app; [apply seen_background; assumption|].
    unfold seen. rewrite !flat_map_app, !unseen_top, !unseen_right, !unseen_bottom, !unseen_left. exact Hcs.
  - destruct (phys_level _ _ c c' R E) as (p4 & q4 & P4 & Q4 & Z4). rewrite P4, Q4. cbn [bind]. eapply zres_bind; [apply K; [exact F|exact (proj1 Z4)]|]. intros cs cs' Hcs. cbn [zres].
    apply (seen_app [_] [_]); [apply seen_bbox, Z4|exact Hcs].
  - destruct (phys_level _ _ c c' R E) as (p4 & q4 & P4 & Q4 & Z4). rewrite P4, Q4. cbn [bind zres]. apply (seen_app [_] [_]); [apply seen_bbox, Z4|].
    unfold seen. cbn. rewrite (Hfont fo fo' Hf), (proj1 Hs Lcolor eq_refl), (proj1 Z4). reflexivity.
Qed.
Lemma z_paint_page fs fs' page page' : Forall2 zfr fs fs' -> zres seen (paint_page font_of fs page) (paint_page font_of fs' page').
Proof.
  intros F. unfold paint_page. cbv zeta. induction F as [|x y l l' Hxy F IHF]; cbn [each]; [reflexivity|].
  eapply zres_bind; [apply (z_paint _ _ Hxy); reflexivity|]. intros d d' Hd. eapply zres_bind; [exact IHF|]. intros e e' He. cbn. apply seen_app; assumption.
Qed.
End Paint.
Lemma vert_anonymous s s' : vert s s' -> vert (anonymous_inheriting_from (Some s)) (anonymous_inheriting_from (Some s')).
Proof.
  intros [H D]. unfold anonymous_inheriting_from, style_new. split; [|reflexivity]. intros l Hl. destruct l; try discriminate Hl; cbn; rewrite ?H by reflexivity; reflexivity.
Qed.
Section Drawing.
Variables style_of style_of' : DomModel.node_id -> option style -> style.
Variable font_of : style -> font.
Variable width_of : style -> text -> Len.
Hypothesis Hs : styles_but is_vertical style_of style_of'.
Hypothesis Hf : by_font font_of.
Hypothesis Hw : by_font width_of.
Lemma looks {A} (g : style -> A) : by_font g -> forall s s', vert s s' -> g s' = g s.
Proof. intros L s s' [R _]. apply L; apply R; reflexivity. Qed.
Variable d : DomModel.doc.
Variable root : DomSpec.dtree.
Hypothesis N : not_from_right (style_of (match root with DomSpec.DT i _ => i end) None).
Hypothesis NK : Forall (boxes_styled not_from_right) (match root with DomSpec.DT i ts => map (styled style_of d (style_of i None)) ts end).
Lemma z_built : zout (zbfc vert) (construct_document style_of d root) (construct_document style_of' d root).
Proof. exact (z_construct_document vert (fun s s' l H => proj1 H l) vert_anonymous style_of style_of' Hs d root N NK). Qed.
Lemma z_drawing page page' : v_inline page' = v_inline page ->
  snd (drawing_calls font_of width_of style_of d root page) = Finished -> snd (drawing_calls font_of width_of style_of' d root page') = Finished ->
  seen (fst (drawing_calls font_of width_of style_of d root page)) (fst (drawing_calls font_of width_of style_of' d root page')).
Proof.
  intros E. unfold drawing_calls. pose proof z_built as C.
  destruct (construct_document style_of d root) as [bx| |], (construct_document style_of' d root) as [bx'| |]; try (exfalso; exact C); try discriminate.
  pose proof (z_layout_root vert (fun s s' l H => proj1 H l) (fun s s' H => proj2 H)
    (fun s => f_ascent (font_of s)) (fun s => f_descent (font_of s)) (fun s => f_ascent (font_of s)) (fun s => f_descent (font_of s)) width_of width_of (looks width_of Hw) _ _ page page' C E) as L.
  destruct (layout_root _ _ width_of bx page) as [fs| |], (layout_root _ _ width_of bx' page') as [fs'| |]; try discriminate.
  pose proof (z_paint_page font_of (looks font_of Hf) fs fs' page page' L) as P.
  destruct (paint_page font_of fs page), (paint_page font_of fs' page'); try discriminate. intros _ _. exact P.
Qed.
End Drawing.
End Any.
