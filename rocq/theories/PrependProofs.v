(** Putting something in front of a document: layout (C94). *)
From Verif Require Import Base Len StyleModel GeomModel GfxModel InlineModel InlineSpec InlineProofs BlockModel BlockSpec BlockFrame BlockGen.
From Verif Require Import CStrModel PaintModel PaintProofs AppendSpec AppendBox AppendProofs AppendExact PrependSpec PrependBox.
Local Open Scope len_scope.
Local Open Scope result_scope.

Section Font.
Variable font_of : style -> font.
Notation drawn := (drawn font_of).

(** [b] is [a], lower by [d], after something else *)
Definition follows (d : Len) (a b : list dcall) : Prop := exists before, b = before ++ map (lower d) a.
Lemma follows_nil d b : follows d [] b. Proof. exists b. rewrite app_nil_r. reflexivity. Qed.
Lemma follows_app d a a' b : follows d a b -> follows d (a ++ a') (b ++ map (lower d) a').
Proof. intros [m ->]. exists m. rewrite map_app, app_assoc. reflexivity. Qed.
Lemma follows_after d a b c : follows d a b -> follows d a (c ++ b).
Proof. intros [m ->]. exists (c ++ m). rewrite app_assoc. reflexivity. Qed.
Lemma lower_lower d e c : lower d (lower e c) = lower (e + d) c.
Proof. destruct c; cbn; try reflexivity. f_equal. ring. Qed.
Lemma lower_0 c : lower l0 c = c.
Proof. destruct c; cbn; try reflexivity. f_equal. ring. Qed.
Lemma drawn_lower d f : forall x y, drawn (x, y + d) f = map (lower d) (drawn (x, y) f).
Proof.
  assert (L : forall ch, Forall (fun f => forall x y, drawn (x, y + d) f = map (lower d) (drawn (x, y) f)) ch ->
    forall x y, flat_map (drawn (x, y + d)) ch = map (lower d) (flat_map (drawn (x, y)) ch)).
  { induction 1 as [|f0 ch Hf _ IH]; intros x y; [reflexivity|]. cbn [flat_map]. rewrite map_app, Hf, IH. reflexivity. }
  induction f as [st ch r p b m cm IH|r ch IH|st r fo sg] using fragment_ind'; intros x y; cbn [AppendProofs.drawn]; unfold inside; cbn [fst snd].
  - rewrite <- (L _ IH). do 3 f_equal. ring.
  - rewrite <- (L _ IH). do 3 f_equal. ring.
  - cbn [map lower]. do 2 f_equal. ring.
Qed.
Lemma each_lower d fs x y : flat_map (drawn (x, y + d)) fs = map (lower d) (flat_map (drawn (x, y)) fs).
Proof. induction fs as [|f fs IH]; [reflexivity|]. cbn [flat_map]. rewrite map_app, drawn_lower, IH. reflexivity. Qed.
Lemma textless_dec f : {textless f} + {~ textless f}.
Proof.
  revert f. fix IH 1. intros f.
  assert (L : forall ch, {fold_right (fun x Q => textless x /\ Q) True ch} + {~ fold_right (fun x Q => textless x /\ Q) True ch}).
  { fix IHc 1. intros [|x ch]; [exact (left I)|]. cbn. destruct (IH x) as [H|H]; [|right; tauto]. destruct (IHc ch) as [K|K]; [left; tauto|right; tauto]. }
  destruct f as [st ch r p b m cm|r ch|st r fo sg]; [exact (L ch)|exact (L ch)|right; intros []].
Qed.

(* ------------------------------------------------------------------ *)
(** * Placing *)

(** the two layouts are at the same point, one lower by [d] *)
Definition sync (d : Len) (s s' : placement) : Prop :=
  pl_collapses s = false /\ pl_collapses s' = false /\ pl_margin s' = pl_margin s /\ pl_pos s' = pl_pos s + d.
Definition frag_moved (f f' : fragment) : Prop :=
  textless f \/
  exists d st ch ch' r r' p b m cm cm', f = FBox st ch r p b m cm /\ f' = FBox st ch' r' p b m cm' /\ r_start r' = r_start r /\
    v_block (r_size r') = v_block (r_size r) + d /\ cb_through cm = false /\ cb_through cm' = false /\ cb_end cm' = cb_end cm /\
    forall o, follows d (flat_map (drawn o) ch) (flat_map (drawn o) ch').
Definition flow_moved (fl fl' : flow) : Prop :=
  textlesses (fl_fragments fl) \/
  exists d, cb_through (fl_margins fl) = false /\ cb_through (fl_margins fl') = false /\ cb_end (fl_margins fl') = cb_end (fl_margins fl) /\
    fl_block_size fl' = fl_block_size fl + d /\ forall o, follows d (flat_map (drawn o) (fl_fragments fl)) (flat_map (drawn o) (fl_fragments fl')).

Lemma ok_pair {A B} (a c : A) (b d : B) : Ok (a, b) = Ok (c, d) -> c = a /\ d = b.
Proof. intros E. injection E. auto. Qed.
Lemma placed_box st ch r p b m cm s f1 s1 : cb_through cm = false -> place (FBox st ch r p b m cm) s = Ok (f1, s1) ->
  exists y, f1 = FBox st ch (shift_block r y) p b m cm /\ pl_collapses s1 = false /\ pl_margin s1 = cb_end cm /\
    pl_pos s1 = y + (block_sum p + block_sum b + v_block (r_size r)).
Proof.
  intros T. cbn [place]. rewrite T. destruct (pl_collapses s).
  - destruct (leqb _ _); [|discriminate]. intros X. apply ok_pair in X as [-> ->]. eexists. split; [reflexivity|]. cbn [pl_collapses pl_margin pl_pos]. split; [reflexivity|]. split; [reflexivity|]. ring.
  - intros X. apply ok_pair in X as [-> ->]. eexists. split; [reflexivity|]. cbn [pl_collapses pl_margin pl_pos]. split; [reflexivity|]. split; [reflexivity|]. ring.
Qed.
Lemma box_follows d ch ch' r r' y y' o : r_start r' = r_start r ->
  (forall o, follows d (flat_map (drawn o) ch) (flat_map (drawn o) ch')) ->
  follows (y' - y + d) (flat_map (drawn (inside o (shift_block r y))) ch) (flat_map (drawn (inside o (shift_block r' y'))) ch').
Proof.
  intros R P. unfold inside, shift_block. cbn [r_start v_inline v_block]. rewrite R.
  set (x := v_inline (r_start r) + fst o). set (z := v_block (r_start r)).
  replace (z + y' + snd o) with (z + y + snd o + (y' - y)) by ring.
  destruct (P (x, z + y + snd o + (y' - y))) as [before E]. exists before. rewrite E. f_equal. rewrite each_lower, map_map. apply map_ext.
  intros c. apply lower_lower.
Qed.
Lemma place_moved f f' s f1 s1 s' f1' s1' : frag_moved f f' -> place f s = Ok (f1, s1) -> place f' s' = Ok (f1', s1') ->
  textless f1 \/ exists d, sync d s1 s1' /\ forall o, follows d (drawn o f1) (drawn o f1').
Proof.
  intros [T|(d & st & ch & ch' & r & r' & p & b & m & cm & cm' & -> & -> & R & Z & T & T' & M & P)] H H'.
  - left. destruct (place_put _ _ _ _ H) as [y ->]. apply put_textless, T.
  - right. apply placed_box in H as (y & -> & C & Mg & Ps); [|exact T]. apply placed_box in H' as (y' & -> & C' & Mg' & Ps'); [|exact T'].
    exists (y' - y + d). split.
    + repeat split; try assumption; [congruence|]. rewrite Ps, Ps', Z. ring.
    + intros o. cbn [AppendProofs.drawn]. apply box_follows; assumption.
Qed.
Lemma same_moved f s f1 s1 : empty_if_through f -> place f s = Ok (f1, s1) -> frag_moved f f.
Proof.
  intros E H. destruct (textless_dec f) as [T|T]; [left; exact T|right].
  destruct f as [st ch r p b m cm|r ch|st r fo sg]; [| |discriminate].
  - exists l0, st, ch, ch, r, r, p, b, m, cm, cm. repeat split; try reflexivity; try ring;
      try (destruct (cb_through cm) eqn:C; [destruct (T (E C))|reflexivity]).
    intros o. exists []. cbn. rewrite <- map_id at 1. apply map_ext. intros c. symmetry. apply lower_0.
  - exfalso. destruct ch; [exact (T I)|discriminate].
Qed.
Lemma place_sync d f s f1 s1 s' f1' s1' : sync d s s' -> place f s = Ok (f1, s1) -> place f s' = Ok (f1', s1') ->
  sync d s1 s1' /\ forall o, drawn o f1' = map (lower d) (drawn o f1).
Proof.
  intros (C & C' & M & P) H H'. destruct f as [st ch r p b m cm|r ch|st r fo sg]; [| |discriminate].
  - cbn [place] in H, H'. rewrite C in H. rewrite C' in H'. cbn [pl_margin pl_pos] in *. rewrite M, P in H'.
    destruct (cb_through cm); injection H as <- <-; injection H' as <- <-; (split; [repeat split; cbn; try reflexivity; try assumption; try ring|]);
      intros o; cbn [AppendProofs.drawn]; unfold inside, shift_block; cbn [r_start v_inline v_block];
      rewrite <- each_lower; do 3 f_equal; ring.
  - cbn [place] in H, H'. destruct ch; [|discriminate]. destruct (leqb _ _); [|discriminate]. injection H as <- <-. injection H' as <- <-.
    split; [repeat split; assumption|]. intros o. reflexivity.
Qed.
Lemma place_all_sync d fs : forall s fs1 s1 s' fs1' s1', sync d s s' -> place_all fs s = Ok (fs1, s1) -> place_all fs s' = Ok (fs1', s1') ->
  sync d s1 s1' /\ forall o, flat_map (drawn o) fs1' = map (lower d) (flat_map (drawn o) fs1).
Proof.
  induction fs as [|f fs IH]; intros s fs1 s1 s' fs1' s1' S H H'; cbn [place_all] in H, H'.
  { injection H as <- <-. injection H' as <- <-. split; [exact S|reflexivity]. }
  destruct (place f s) as [[g s2]| |] eqn:E1; cbn [bind] in H; try discriminate. destruct (place f s') as [[g' s2']| |] eqn:E1'; cbn [bind] in H'; try discriminate.
  destruct (place_all fs s2) as [[gs s3]| |] eqn:E2; cbn [bind] in H; try discriminate. destruct (place_all fs s2') as [[gs' s3']| |] eqn:E2'; cbn [bind] in H'; try discriminate.
  injection H as <- <-. injection H' as <- <-. destruct (place_sync _ _ _ _ _ _ _ _ S E1 E1') as [S2 D]. destruct (IH _ _ _ _ _ _ S2 E2 E2') as [S3 Ds].
  split; [exact S3|]. intros o. cbn [flat_map]. rewrite map_app, D, Ds. reflexivity.
Qed.
Lemma place_all_moved fs : Forall empty_if_through fs -> forall s fs1 s1 s' fs1' s1', place_all fs s = Ok (fs1, s1) -> place_all fs s' = Ok (fs1', s1') ->
  textlesses fs1 \/ exists d, sync d s1 s1' /\ forall o, follows d (flat_map (drawn o) fs1) (flat_map (drawn o) fs1').
Proof.
  induction 1 as [|f fs Hf _ IH]; intros s fs1 s1 s' fs1' s1' H H'; cbn [place_all] in H, H'.
  { injection H as <- <-. left. exact I. }
  destruct (place f s) as [[g s2]| |] eqn:E1; cbn [bind] in H; try discriminate. destruct (place f s') as [[g' s2']| |] eqn:E1'; cbn [bind] in H'; try discriminate.
  destruct (place_all fs s2) as [[gs s3]| |] eqn:E2; cbn [bind] in H; try discriminate. destruct (place_all fs s2') as [[gs' s3']| |] eqn:E2'; cbn [bind] in H'; try discriminate.
  injection H as <- <-. injection H' as <- <-.
  destruct (place_moved _ _ _ _ _ _ _ _ (same_moved _ _ _ _ Hf E1) E1 E1') as [T|(d & S & D)].
  - destruct (IH _ _ _ _ _ _ E2 E2') as [T2|(d & S & D)]; [left; split; assumption|]. right. exists d. split; [exact S|].
    intros o. cbn [flat_map]. rewrite (textless_drawn _ _ T). apply follows_after, D.
  - right. destruct (place_all_sync _ _ _ _ _ _ _ _ S E2 E2') as [S3 Ds]. exists d. split; [exact S3|].
    intros o. cbn [flat_map]. rewrite Ds. apply follows_app, D.
Qed.
Lemma place_first_moved f f' fs : frag_moved f f' -> Forall empty_if_through fs -> forall s fs1 s1 s' fs1' s1',
  place_all (f :: fs) s = Ok (fs1, s1) -> place_all (f' :: fs) s' = Ok (fs1', s1') ->
  textlesses fs1 \/ exists d, sync d s1 s1' /\ forall o, follows d (flat_map (drawn o) fs1) (flat_map (drawn o) fs1').
Proof.
  intros F Hf s fs1 s1 s' fs1' s1' H H'. cbn [place_all] in H, H'.
  destruct (place f s) as [[g s2]| |] eqn:E1; cbn [bind] in H; try discriminate. destruct (place f' s') as [[g' s2']| |] eqn:E1'; cbn [bind] in H'; try discriminate.
  destruct (place_all fs s2) as [[gs s3]| |] eqn:E2; cbn [bind] in H; try discriminate. destruct (place_all fs s2') as [[gs' s3']| |] eqn:E2'; cbn [bind] in H'; try discriminate.
  injection H as <- <-. injection H' as <- <-.
  destruct (place_moved _ _ _ _ _ _ _ _ F E1 E1') as [T|(d & S & D)].
  - destruct (place_all_moved _ Hf _ _ _ _ _ _ E2 E2') as [T2|(d & S & D)]; [left; split; assumption|]. right. exists d. split; [exact S|].
    intros o. cbn [flat_map]. rewrite (textless_drawn _ _ T). apply follows_after, D.
  - right. destruct (place_all_sync _ _ _ _ _ _ _ _ S E2 E2') as [S3 Ds]. exists d. split; [exact S3|].
    intros o. cbn [flat_map]. rewrite Ds. apply follows_app, D.
Qed.

Section Tree.
Variable m_ascent m_descent : style -> Len.
Variable m_width : style -> text -> Len.
Notation layout_blb := (layout_blb m_ascent m_descent m_width).
Notation layout_container := (layout_container m_ascent m_descent m_width).
Notation layout_bfc := (layout_bfc m_ascent m_descent m_width).

Lemma all_inv l cb rank abs floats col fl abs' : wf_container (BlockLevelBoxes l) ->
  layout_container (BlockLevelBoxes l) cb rank abs floats col = Ok (fl, abs') ->
  exists fs s1, Forall2 (fun b => lays_as cb (layout_blb b)) l fs /\ place_all fs (placement_start col) = Ok (fl_fragments fl, s1) /\
    fl_block_size fl = pl_pos s1 /\ fl_margins fl = CBMargins (pl_collapses s1) (pl_start s1) (pl_margin s1).
Proof.
  intros W E. apply (children_result _ _ _ _ _ _ _ _ (wf_framed _ _ _ l W)) in E as (fs & gss & s1 & F & P & B & M).
  exists fs, s1. split; [|split; [exact P|split; assumption]]. apply framed_list_lays in F. clear - F.
  revert fs F. induction l as [|b l IH]; intros fs F; inversion F; subst; constructor; [assumption|apply IH; assumption].
Qed.
Lemma lays_same cb l fs fs' : Forall2 (fun b => lays_as cb (layout_blb b)) l fs -> Forall2 (fun b => lays_as cb (layout_blb b)) l fs' -> fs' = fs.
Proof.
  intros F. revert fs'. induction F as [|b f l fs H _ IH]; intros fs' F'; inversion F'; subst; [reflexivity|].
  f_equal; [eapply lays_unique; eassumption|apply IH; assumption].
Qed.
Lemma synced_flow d fl fl' s1 s1' before after after' : sync d s1 s1' ->
  fl_block_size fl = pl_pos s1 -> fl_block_size fl' = pl_pos s1' ->
  fl_margins fl = CBMargins (pl_collapses s1) (pl_start s1) (pl_margin s1) -> fl_margins fl' = CBMargins (pl_collapses s1') (pl_start s1') (pl_margin s1') ->
  fl_fragments fl = after -> fl_fragments fl' = before ++ after' -> (forall o, follows d (flat_map (drawn o) after) (flat_map (drawn o) after')) -> flow_moved fl fl'.
Proof.
  intros (C & C' & M & P) B B' G G' F F' D. right. exists d. rewrite G, G', B, B', F, F'. cbn. repeat split; try assumption.
  intros o. rewrite flat_map_app. apply follows_after, D.
Qed.
Lemma more_moved l pre cb rank abs floats col fl a rank' abs' floats' fl' a' :
  wf_container (BlockLevelBoxes l) -> wf_container (BlockLevelBoxes (pre ++ l)) -> af_container (BlockLevelBoxes l) ->
  layout_container (BlockLevelBoxes l) cb rank abs floats col = Ok (fl, a) ->
  layout_container (BlockLevelBoxes (pre ++ l)) cb rank' abs' floats' col = Ok (fl', a') -> flow_moved fl fl'.
Proof.
  intros W W' A E E'. apply all_inv in E as (fs & s1 & F & P & B & G); [|exact W]. apply all_inv in E' as (fs' & s1' & F' & P' & B' & G'); [|exact W'].
  pose proof (af_empty _ _ _ _ _ _ A F) as Em. apply Forall2_app_inv_l in F' as (x & y & Fx & Fy & ->). rewrite (lays_same _ _ _ _ F Fy) in *.
  destruct (place_all_app _ _ _ _ _ P') as (x2 & y2 & s' & Px' & Py' & Ex').
  destruct (place_all_moved _ Em _ _ _ _ _ _ P Py') as [T|(d & S & D)]; [left; exact T|].
  exact (synced_flow _ _ _ _ _ _ _ _ S B B' G G' eq_refl Ex' D).
Qed.
Lemma first_moved l b b' pre cb rank abs floats col fl a rank' abs' floats' fl' a' :
  wf_container (BlockLevelBoxes (b :: l)) -> wf_container (BlockLevelBoxes (pre ++ b' :: l)) -> af_container (BlockLevelBoxes (b :: l)) ->
  (forall f f', lays_as cb (layout_blb b) f -> lays_as cb (layout_blb b') f' -> frag_moved f f') ->
  layout_container (BlockLevelBoxes (b :: l)) cb rank abs floats col = Ok (fl, a) ->
  layout_container (BlockLevelBoxes (pre ++ b' :: l)) cb rank' abs' floats' col = Ok (fl', a') -> flow_moved fl fl'.
Proof.
  intros W W' A HL E E'. apply all_inv in E as (fs & s1 & F & P & B & G); [|exact W]. apply all_inv in E' as (fs' & s1' & F' & P' & B' & G'); [|exact W'].
  pose proof (af_empty _ _ _ _ _ _ A F) as Em. apply Forall2_app_inv_l in F' as (x & y & Fx & Fy & ->).
  inversion F as [|? f ? fs0 Hf Fl]; subst. inversion Fy as [|? f' ? fs0' Hf' Fl']; subst. rewrite (lays_same _ _ _ _ Fl Fl') in *.
  destruct (place_all_app _ _ _ _ _ P') as (x2 & y2 & s' & Px' & Py' & Ex'). inversion Em; subst.
  destruct (place_first_moved _ _ _ (HL _ _ Hf Hf') H2 _ _ _ _ _ _ P Py') as [T|(d & S & D)]; [left; exact T|].
  exact (synced_flow _ _ _ _ _ _ _ _ S B B' G G' eq_refl Ex' D).
Qed.
Lemma block_moved cb st same lay lay' f f' abs abs' a a' : auto_height st = true ->
  (forall cb abs col fl abs', lay cb abs col = Ok (fl, abs') -> abs' = abs) ->
  (forall cb abs col fl abs', lay' cb abs col = Ok (fl, abs') -> abs' = abs) ->
  (forall fl abs1 a1 fl' abs1' a1', lay (if_children_cb cb st) abs1 (if_start_collapse cb st same) = Ok (fl, a1) ->
     lay' (if_children_cb cb st) abs1' (if_start_collapse cb st same) = Ok (fl', a1') -> flow_moved fl fl') ->
  layout_in_flow cb st same abs lay = Ok (f, a) -> layout_in_flow cb st same abs' lay' = Ok (f', a') -> frag_moved f f'.
Proof.
  intros Ah Hf Hf' HL E E'. apply (in_flow_free _ _ _ _ _ _ _ Hf) in E as (fl & abs0 & E & -> & _).
  apply (in_flow_free _ _ _ _ _ _ _ Hf') in E' as (fl' & abs1 & E' & -> & _).
  destruct (HL _ _ _ _ _ _ E E') as [T|(d & T & T' & M & B & P)]; [left; exact T|]. right.
  assert (Au : if_block_size cb st = LAAuto).
  { revert Ah. unfold auto_height, if_block_size, box_size. cbn. destruct (sv st Lheight); [discriminate..|reflexivity]. }
  exists d. do 10 eexists. split; [reflexivity|]. split; [reflexivity|]. split; [reflexivity|].
  unfold if_content, if_height, if_margins, if_child_end. cbn [r_size v_block cb_through cb_end]. rewrite Au, T, T', M, B, !andb_false_r. cbn [auto_is].
  split; [destruct (if_end_collapse cb st same); ring|]. repeat split; try reflexivity. exact P.
Qed.
(** inline content that becomes that of an anonymous block *)
Lemma inline_moved st l pre cb rank abs floats col fl a rank' abs' floats' fl' a' :
  wf_container (BlockLevelBoxes (pre ++ [SameFC (anonymous_inheriting_from (Some st)) (InlineFC st l)])) ->
  cb_block cb = LAAuto ->
  layout_container (InlineFC st l) cb rank abs floats col = Ok (fl, a) ->
  layout_container (BlockLevelBoxes (pre ++ [SameFC (anonymous_inheriting_from (Some st)) (InlineFC st l)])) cb rank' abs' floats' col = Ok (fl', a') ->
  flow_moved fl fl'.
Proof.
  intros W Hb E E'. apply all_inv in E' as (fs' & s1' & F' & P' & B' & G'); [|exact W].
  apply Forall2_app_inv_l in F' as (x & y & Fx & Fy & ->). inversion Fy as [|? f ? fs0 Hf Fl]; subst. inversion Fl; subst.
  apply wf_app in W as [_ [W _]].
  destruct (proj1 (proj2 (layout_framed m_ascent m_descent m_width)) (InlineFC st l) W cb col) as (fl0 & g & _ & Fr).
  assert (E0 : Ok (fl, a) = Ok (fl0, abs ++ map (with_rank rank) g)) by (rewrite <- E; exact (Fr rank abs floats)). injection E0 as <- _.
  assert (M : fl_margins fl = cb_zero) by exact (ifc_margins _ _ _ _ _ _ _ _ _ _ E).
  apply lays_ok in Hf as [a0 Hf].
  change (layout_in_flow cb (anonymous_inheriting_from (Some st)) true [] (fun cb' abs' col => layout_container (InlineFC st l) cb' 0 abs' false col) = Ok (f, a0)) in Hf.
  apply in_flow_inv in Hf as (fl1 & abs1 & extra & Hl & -> & Hx). rewrite (Hx eq_refl) in *. rewrite app_nil_r in *.
  rewrite (anon_children_cb st cb Hb) in Hl.
  assert (fl1 = fl) as ->.
  { assert (Hk : forall r ab, Ok (fl1, abs1) = layout_container (InlineFC st l) cb r ab floats col -> fl1 = fl).
    { intros r ab X. assert (Y : Ok (fl1, abs1) = Ok (fl, ab ++ map (with_rank r) g)) by (rewrite X; exact (Fr r ab floats)). congruence. }
    exact (Hk _ _ (eq_sym Hl)). }
  rewrite M in P'. destruct (place_all_app _ _ _ _ _ P') as (x2 & y2 & s' & Px' & Py' & Ex').
  cbn [place_all] in Py'. destruct (place _ s') as [[f1 s2]| |] eqn:Ep in Py'; cbn [bind] in Py'; try discriminate. injection Py' as <- <-.
  apply placed_box in Ep as (y & -> & C & Mg & Ps); [|exact (proj1 (anon_margins st cb))].
  assert (Hs : pl_margin s2 = cm_zero).
  { rewrite Mg. unfold if_margins, if_child_end, if_end_collapse, if_start_collapse. rewrite anon_margin, anon_pb. cbn.
    destruct (leqb l0 l0); reflexivity. }
  assert (Hp : pl_pos s2 = fl_block_size fl + y).
  { rewrite Ps. rewrite anon_padding, anon_border. unfold if_content, if_height. cbn [r_size v_block]. change (if_block_size cb (anonymous_inheriting_from (Some st))) with LAAuto. cbn [auto_is].
    unfold if_child_end. rewrite M. cbn [cb_through cb_end cb_zero]. rewrite andb_false_r. unfold block_sum. cbn [s_block_start s_block_end].
    change (cm_solve cm_zero) with (l0 + l0). destruct (if_end_collapse _ _ _); ring. }
  right. exists y. rewrite M, G', B', Ex', C, Hs, Hp. split; [reflexivity|]. split; [reflexivity|]. split; [reflexivity|]. split; [reflexivity|].
  intros o. rewrite flat_map_app. apply follows_after. cbn [flat_map AppendProofs.drawn]. rewrite app_nil_r.
  unfold inside, shift_block. cbn [r_start v_inline v_block]. rewrite anon_start. cbn [v_inline v_block]. destruct o as [ox oy]. cbn [fst snd].
  replace (l0 + ox, l0 + y + oy) with (ox, oy + y) by (f_equal; ring). rewrite each_lower. exists []. reflexivity.
Qed.

Theorem later_layout h c c' : later h c c' -> wf_container c -> wf_container c' -> af_container c -> af_container c' ->
  forall cb, (h = true -> cb_block cb = LAAuto) -> forall rank abs floats col fl a rank' abs' floats' fl' a',
  layout_container c cb rank abs floats col = Ok (fl, a) -> layout_container c' cb rank' abs' floats' col = Ok (fl', a') -> flow_moved fl fl'.
Proof.
  assert (AH : forall cb st, auto_height st = true -> cb_block (if_children_cb cb st) = LAAuto).
  { intros cb st. unfold auto_height, if_children_cb, if_block_size, box_size. cbn. destruct (sv st Lheight); [discriminate..|reflexivity]. }
  induction 1 as [h pre l|st l pre|h pre st c c' l Ah L IH|h pre st fl fl' c c' l Ah L IH]; intros W W' A A' cb Hh rank abs floats col f0 a rank' abs' floats' f0' a' E E'.
  - exact (more_moved _ _ _ _ _ _ _ _ _ _ _ _ _ _ W W' A E E').
  - exact (inline_moved _ _ _ _ _ _ _ _ _ _ _ _ _ _ _ W' (Hh eq_refl) E E').
  - apply (first_moved _ _ _ _ _ _ _ _ _ _ _ _ _ _ _ _ W W' A) with (2 := E) (3 := E'). intros f f' F F'.
    destruct W as [W _]. apply wf_app in W' as [_ [W' _]]. destruct A as [A _]. apply af_app in A' as [_ [A' _]].
    apply lays_ok in F as [b1 F]. apply lays_ok in F' as [b1' F'].
    refine (block_moved _ _ true _ _ _ _ _ _ _ _ Ah _ _ _ F F').
    + intros cb0 abs0 col0 fl0 abs1 E0. exact (proj1 (proj1 (proj2 (free_layout _ _ _)) c A _ _ _ _ _ _ _ E0)).
    + intros cb0 abs0 col0 fl0 abs1 E0. exact (proj1 (proj1 (proj2 (free_layout _ _ _)) c' A' _ _ _ _ _ _ _ E0)).
    + intros fl abs1 a1 fl1 abs2 a2 E1 E2. exact (IH W W' A A' _ (fun _ => AH cb st Ah) _ _ _ _ _ _ _ _ _ _ _ E1 E2).
  - apply (first_moved _ _ _ _ _ _ _ _ _ _ _ _ _ _ _ _ W W' A) with (2 := E) (3 := E'). intros f f' F F'.
    destruct W as [W _]. apply wf_app in W' as [_ [W' _]]. destruct A as [A _]. apply af_app in A' as [_ [A' _]].
    apply lays_ok in F as [b1 F]. apply lays_ok in F' as [b1' F'].
    refine (block_moved _ _ false _ _ _ _ _ _ _ _ Ah _ _ _ F F').
    + intros cb0 abs0 col0 fl0 abs1 E0. exact (proj1 (proj2 (proj2 (free_layout _ _ _)) (BFC fl c) A _ _ _ _ _ E0)).
    + intros cb0 abs0 col0 fl0 abs1 E0. exact (proj1 (proj2 (proj2 (free_layout _ _ _)) (BFC fl' c') A' _ _ _ _ _ E0)).
    + intros f1 abs1 a1 f2 abs2 a2 E1 E2. apply bfc_inv in E1 as (g1 & E1 & X1 & Z1 & Y1). apply bfc_inv in E2 as (g2 & E2 & X2 & Z2 & Y2).
      unfold flow_moved. rewrite X1, X2, Y1, Y2, Z1, Z2. cbn [cb_through cb_end].
      destruct (IH W W' A A' _ (fun _ => AH cb st Ah) _ _ _ _ _ _ _ _ _ _ _ E1 E2) as [T|(d & _ & _ & S & B & P)]; [left; exact T|right].
      exists d. rewrite S, B. repeat split; try reflexivity; try ring. exact P.
Qed.
End Tree.
End Font.
