(** Appending to inline content, in exact arithmetic (C88). *)
From Verif Require Import Base Len StyleModel GeomModel GfxModel InlineModel InlineSpec InlineProofs BlockModel BlockSpec BlockFrame BlockGen.
From Verif Require Import CStrModel PaintModel AppendSpec AppendBox AppendProofs.
Local Open Scope len_scope.
Local Open Scope result_scope.

Section Anon.
Variable st : style.
Variable cb : cblock.
Notation an := (anonymous_inheriting_from (Some st)).
Lemma anon_padding : if_padding cb an = Sides l0 l0 l0 l0. Proof. reflexivity. Qed.
Lemma anon_border : if_border cb an = Sides l0 l0 l0 l0. Proof. reflexivity. Qed.
Lemma anon_margin : if_margin cb an = Sides l0 l0 l0 l0. Proof. reflexivity. Qed.
Lemma anon_pb : if_pb cb an = Sides l0 l0 l0 l0.
Proof. unfold if_pb. rewrite anon_padding, anon_border. unfold sides_add. cbn. f_equal; ring. Qed.
Lemma anon_inline_size : if_inline_size cb an = cb_inline cb.
Proof. unfold if_inline_size. rewrite anon_pb, anon_margin. change (if_computed_inline_size cb an) with LAAuto. cbn. unfold inline_sum. cbn. ring. Qed.
Lemma anon_children_cb : cb_block cb = LAAuto -> if_children_cb cb an = cb.
Proof. intros H. unfold if_children_cb. rewrite anon_inline_size. change (if_block_size cb an) with LAAuto. destruct cb as [i b]. cbn in *. rewrite H. reflexivity. Qed.
Lemma anon_start same fl : r_start (if_content cb an same fl) = Vec2 l0 l0.
Proof. unfold if_content. rewrite anon_pb, anon_margin. cbn. f_equal; ring. Qed.
Lemma anon_margins : cb_through (if_margins cb an true cb_zero) = false /\ cb_start (if_margins cb an true cb_zero) = cm_zero.
Proof. unfold if_margins, if_start_collapse. rewrite anon_margin, anon_pb. cbn. rewrite andb_false_r. split; reflexivity. Qed.
End Anon.

Section Tree.
Variable font_of : style -> font.
Variable m_ascent m_descent : style -> Len.
Variable m_width : style -> text -> Len.
Lemma anonymous_same st l more cb rank abs floats col fl a rank' abs' floats' fl' a' :
  wf_container (BlockLevelBoxes (SameFC (anonymous_inheriting_from (Some st)) (InlineFC st l) :: more)) -> af_container (InlineFC st l) ->
  cb_block cb = LAAuto ->
  layout_container m_ascent m_descent m_width (InlineFC st l) cb rank abs floats col = Ok (fl, a) ->
  layout_container m_ascent m_descent m_width (BlockLevelBoxes (SameFC (anonymous_inheriting_from (Some st)) (InlineFC st l) :: more)) cb rank' abs' floats' col = Ok (fl', a') ->
  flow_longer font_of fl fl'.
Proof.
  intros W A Hb E E'. apply blocks_inv in E' as (fs & s1 & F & P & T & S); [|exact W]. right.
  destruct W as [W _].
  destruct (proj1 (proj2 (layout_framed m_ascent m_descent m_width)) (InlineFC st l) W cb col) as (fl0 & g & _ & Fr).
  assert (E0 : Ok (fl, a) = Ok (fl0, abs ++ map (with_rank rank) g)) by (rewrite <- E; exact (Fr rank abs floats)). injection E0 as <- _.
  assert (M : fl_margins fl = cb_zero) by exact (ifc_margins _ _ _ _ _ _ _ _ _ _ E).
  inversion F as [|? f ? fs' Hf _]; subst. apply lays_ok in Hf as [a0 Hf].
  change (layout_in_flow cb (anonymous_inheriting_from (Some st)) true [] (fun cb' abs' col => layout_container m_ascent m_descent m_width (InlineFC st l) cb' 0 abs' false col) = Ok (f, a0)) in Hf.
  apply in_flow_inv in Hf as (fl1 & abs1 & extra & Hl & -> & Hx). rewrite (Hx eq_refl) in *. rewrite app_nil_r in *.
  rewrite (anon_children_cb st cb Hb) in Hl.
  assert (fl1 = fl) as ->.
  { assert (Hk : forall r ab, Ok (fl1, abs1) = layout_container m_ascent m_descent m_width (InlineFC st l) cb r ab floats col -> fl1 = fl).
    { intros r ab X. assert (Y : Ok (fl1, abs1) = Ok (fl, ab ++ map (with_rank r) g)) by (rewrite X; exact (Fr r ab floats)). congruence. }
    exact (Hk _ _ (eq_sym Hl)). }
  rewrite M in P. destruct (anon_margins st cb) as [Mt Ms]. cbn [place_all place] in P. rewrite Mt, Ms in P.
  assert (K : exists r f1 rest s2, f1 = FBox (anonymous_inheriting_from (Some st)) (fl_fragments fl) r (if_padding cb (anonymous_inheriting_from (Some st)))
     (if_border cb (anonymous_inheriting_from (Some st))) (if_margin cb (anonymous_inheriting_from (Some st))) (if_margins cb (anonymous_inheriting_from (Some st)) true cb_zero) /\
     r_start r = Vec2 l0 l0 /\ fl_fragments fl' = f1 :: rest /\ pl_collapses s2 = false /\ pl_start s2 = cm_zero /\ place_all fs' s2 = Ok (rest, s1)).
  { destruct col; cbn [placement_start pl_collapses pl_margin pl_start pl_pos] in P.
    - change (leqb (cm_solve cm_zero) l0) with true in P. cbv iota in P.
      cbn [bind pl_collapses pl_margin pl_start pl_pos] in P.
      destruct (place_all fs' _) as [[fs2 s2]| |] eqn:Ep in P; cbn [bind] in P; try discriminate. injection P as P1 P2. subst s2.
      do 4 eexists. split; [reflexivity|]. split; [|split; [symmetry; exact P1|split; [|split; [|exact Ep]]]]; [|reflexivity|reflexivity].
      unfold shift_block. cbn [r_start]. rewrite anon_start. cbn [v_inline v_block]. reflexivity.
    - cbn [bind pl_collapses pl_margin pl_start pl_pos] in P.
      destruct (place_all fs' _) as [[fs2 s2]| |] eqn:Ep in P; cbn [bind] in P; try discriminate. injection P as P1 P2. subst s2.
      do 4 eexists. split; [reflexivity|]. split; [|split; [symmetry; exact P1|split; [|split; [|exact Ep]]]]; [|reflexivity|reflexivity].
      unfold shift_block. cbn [r_start]. rewrite anon_start. cbn [v_inline v_block]. reflexivity. }
  destruct K as (r & f1 & rest & s2 & -> & R & Ef & C2 & S2 & Ep). destruct (place_all_after _ _ _ _ Ep C2) as [C3 S3].
  rewrite M, T, S, C3, S3, S2, Ef. split; [reflexivity|]. split; [reflexivity|]. split; [reflexivity|].
  intros o. cbn [flat_map drawn]. unfold inside. rewrite R. cbn [v_inline v_block].
  replace (l0 + fst o, l0 + snd o) with o by (destruct o as [x y]; cbn [fst snd]; f_equal; ring). apply prefix_more, prefix_refl.
Qed.
End Tree.
