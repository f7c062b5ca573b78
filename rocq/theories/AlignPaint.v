(** Painting what has moved sideways (proofs for C102). *)
From Verif Require Import Base Len GeomModel StyleModel StyleSpec InlineModel BlockModel TreeModel GfxModel PaintModel UnsetModel EdgesSpec EdgesProofs WrapSpec AlignSpec AlignProofs.
Local Open Scope len_scope.
Local Open Scope list_scope.
Local Open Scope result_scope.

Notation shifted dx r := (prect_translate r (PVec dx l0)).
Lemma phys_line r c dx x : exists dx', forall r', r' = Rect (Vec2 x (v_block (r_start r))) (r_size r) ->
  exists p, physical r c = Ok p /\ physical r' (shifted dx c) = Ok (shifted dx' p).
Proof.
  exists (x + dx - v_inline (r_start r)). intros r' ->. unfold physical. cbn. eexists. split; [reflexivity|]. unfold prect_translate, pvec_add. cbn. apply f_equal. apply (f_equal2 (@PRect Len)); [|reflexivity]. apply (f_equal2 (@PVec Len)); ring.
Qed.
Lemma phys_move r c dx : exists p, physical r c = Ok p /\ physical r (shifted dx c) = Ok (shifted dx p).
Proof. unfold physical. cbn. eexists. split; [reflexivity|]. unfold prect_translate, pvec_add. cbn. apply f_equal. apply (f_equal2 (@PRect Len)); [|reflexivity]. apply (f_equal2 (@PVec Len)); ring. Qed.
Lemma all_sideways dx l : Forall2 sideways l (map (moved dx l0) l).
Proof. induction l; cbn; constructor; [exists dx; reflexivity|assumption]. Qed.
Lemma bbox_move r dx : bbox_call (shifted dx r) = moved dx l0 (bbox_call r).
Proof. reflexivity. Qed.
Section Same.
Variables st st' : style.
Hypothesis H : realigned st st'.
Ltac vals := rewrite ?(fun l e => proj1 H l e) by reflexivity; unfold to_rgba; rewrite ?(fun l e => proj1 H l e) by reflexivity; reflexivity.
Lemma same_background r : paint_background st' r = paint_background st r. Proof. unfold paint_background. vals. Qed.
Lemma same_top r p : paint_top st' r p = paint_top st r p. Proof. unfold paint_top. vals. Qed.
Lemma same_right r p : paint_right st' r p = paint_right st r p. Proof. unfold paint_right. vals. Qed.
Lemma same_bottom r p : paint_bottom st' r p = paint_bottom st r p. Proof. unfold paint_bottom. vals. Qed.
Lemma same_left r p : paint_left st' r p = paint_left st r p. Proof. unfold paint_left. vals. Qed.
End Same.
Notation zfr := (zfrag realigned).
Section Paint.
Variable font_of : style -> font.
Hypothesis Hfont : forall s s', realigned s s' -> font_of s' = font_of s.
Lemma z_paint f f' (H : zfr f f') : forall c dx, zres (Forall2 sideways) (paint font_of c f) (paint font_of (shifted dx c) f').
Proof.
  revert f f' H. fix IH 3. intros f f' H c dx.
  assert (K : forall ch ch', Forall2 zfr ch ch' -> forall c dx, zres (Forall2 sideways) (each (paint font_of c) ch) (each (paint font_of (shifted dx c)) ch')).
  { clear c dx. intros ch ch' F c dx. induction F as [|x y l l' Hxy F IHF]; cbn [each]; [constructor|].
    eapply zres_bind; [exact (IH _ _ Hxy c dx)|]. intros d d' Hd. eapply zres_bind; [exact IHF|]. intros e e' He. cbn. apply Forall2_app; assumption. }
  destruct H as [st st' ch ch' r p b m cm Hs F|r ch ch' F|r x ch ch' F|st st' r fo fo' sg Hs Hf]; cbn [paint].
  - destruct (phys_move (margin_rect_of r p b m) c dx) as (p1 & -> & ->). destruct (phys_move (border_rect_of r p b) c dx) as (p2 & -> & ->).
    destruct (phys_move (padding_rect_of r p) c dx) as (p3 & -> & ->). destruct (phys_move r c dx) as (p4 & -> & ->). cbn [bind].
    eapply zres_bind; [apply K, F|]. intros cs cs' Hcs. cbn [zres].
    rewrite (same_background st st' Hs), (same_top st st' Hs), (same_right st st' Hs), (same_bottom st st' Hs), (same_left st st' Hs).
    rewrite background_move, top_move, right_move, bottom_move, left_move. constructor; [exists dx; reflexivity|].
    repeat (apply Forall2_app; [apply all_sideways|]). exact Hcs.
  - destruct (phys_move r c dx) as (p4 & -> & ->). cbn [bind]. eapply zres_bind; [apply K, F|]. intros cs cs' Hcs. cbn [zres]. constructor; [exists dx; reflexivity|exact Hcs].
  - destruct (phys_line r c dx x) as (dx' & P). destruct (P _ eq_refl) as (p4 & -> & ->). cbn [bind]. eapply zres_bind; [apply K, F|]. intros cs cs' Hcs. cbn [zres].
    constructor; [exists dx'; reflexivity|exact Hcs].
  - destruct (phys_move r c dx) as (p4 & -> & ->). cbn [bind zres]. constructor; [exists dx; reflexivity|]. constructor; [|constructor]. exists dx. cbn [moved].
    rewrite (Hfont fo fo' Hf), (proj1 Hs Lcolor eq_refl). cbn. f_equal. ring.
Qed.
Lemma z_paint_page fs fs' page : Forall2 zfr fs fs' -> zres (Forall2 sideways) (paint_page font_of fs page) (paint_page font_of fs' page).
Proof.
  intros F. unfold paint_page. cbv zeta. set (c := PRect _ _). assert (E : c = shifted l0 c) by (unfold c, prect_translate, pvec_add; cbn; apply (f_equal2 (@PRect Len)); [|reflexivity]; apply (f_equal2 (@PVec Len)); ring).
  rewrite E at 2. clearbody c. clear E. induction F as [|x y l l' Hxy F IHF]; cbn [each]; [constructor|].
  eapply zres_bind; [exact (z_paint _ _ Hxy c l0)|]. intros d d' Hd. eapply zres_bind; [exact IHF|]. intros e e' He. cbn. apply Forall2_app; assumption.
Qed.
End Paint.
Lemma realigned_anonymous s s' : realigned s s' -> realigned (anonymous_inheriting_from (Some s)) (anonymous_inheriting_from (Some s')).
Proof.
  intros [H D]. unfold anonymous_inheriting_from, style_new. split; [|reflexivity]. intros l Hl. destruct l; try discriminate Hl; cbn; rewrite ?H by reflexivity; reflexivity.
Qed.
Lemma z_drawing style_of style_of' font_of width_of d root page : realigned_styles style_of style_of' -> looks_at_font font_of -> looks_at_font width_of ->
  Forall2 sideways (fst (drawing_calls font_of width_of style_of d root page)) (fst (drawing_calls font_of width_of style_of' d root page)) /\
  snd (drawing_calls font_of width_of style_of' d root page) = snd (drawing_calls font_of width_of style_of d root page).
Proof.
  intros Hs Hf Hw. unfold drawing_calls.
  assert (G : forall A (g : style -> A), looks_at_font g -> forall s s', realigned s s' -> g s' = g s) by (intros A g L s s' [R _]; apply L; apply R; reflexivity).
  pose proof (z_construct_document realigned (fun s s' l H => proj1 H l) realigned_anonymous style_of style_of' Hs d root) as C.
  destruct (construct_document style_of d root) as [bx| |], (construct_document style_of' d root) as [bx'| |]; try (exfalso; exact C); try (split; [constructor|reflexivity]).
  pose proof (z_layout_root realigned (fun s s' l H => proj1 H l) (fun s s' H => proj2 H) (fun s => f_ascent (font_of s)) (fun s => f_descent (font_of s)) width_of) as L.
  specialize (L (fun s s' H => f_equal f_ascent (G _ font_of Hf s s' H)) (fun s s' H => f_equal f_descent (G _ font_of Hf s s' H)) (G _ width_of Hw) _ _ page C).
  destruct (layout_root _ _ width_of bx page) as [fs| |], (layout_root _ _ width_of bx' page) as [fs'| |]; try (exfalso; exact L); try (split; [constructor|reflexivity]).
  pose proof (z_paint_page font_of (G _ font_of Hf) fs fs' page L) as P.
  destruct (paint_page font_of fs page), (paint_page font_of fs' page); try (exfalso; exact P); (split; [|reflexivity]); [exact P|constructor|constructor].
Qed.
