(** Facts about block layout that hold whatever the arithmetic on lengths is. *)
From Verif Require Import BlockModel InlineSpec InlineProofs BlockSpec BlockFrame.
Local Open Scope len_scope.

Section Any.
Context {ar : Arith} {Z : ZeroLaws ar}.

(** [f] with its top edge moved to [y]. *)
Definition put_top (y : Len) (f : fragment) : fragment :=
  match f with
  | FBox st ch r p b m cm => FBox st ch (Rect (Vec2 (v_inline (r_start r)) y) (r_size r)) p b m cm
  | FAnon r ch => FAnon (Rect (Vec2 (v_inline (r_start r)) y) (r_size r)) ch
  | FText _ _ _ _ => f
  end.
Lemma place_put f s f1 s1 : place f s = Ok (f1, s1) -> exists y, f1 = put_top y f.
Proof.
  unfold place. destruct f as [st ch r p b m cm| r ch |]; [| |discriminate].
  - destruct (pl_collapses s).
    + destruct (leqb _ _); [|discriminate]. destruct (cb_through cm); intros E; injection E as <- _.
      * exists (v_block (r_start r)). destruct r as [[x y] z]. reflexivity.
      * eexists. reflexivity.
    + destruct (cb_through cm); intros E; injection E as <- _; eexists; reflexivity.
  - destruct ch; [|discriminate]. destruct (leqb _ _); [|discriminate]. intros E; injection E as <- _. eexists; reflexivity.
Qed.
Lemma place_all_put fs : forall s fs1 s1, place_all fs s = Ok (fs1, s1) -> Forall2 (fun f f1 => exists y, f1 = put_top y f) fs fs1.
Proof.
  induction fs as [|f fs IH]; intros s fs1 s1 E; cbn [place_all] in E; [injection E as <- _; constructor|].
  destruct (place f s) as [[f1 s2]| |] eqn:E1; cbn [bind] in E; try discriminate.
  destruct (place_all fs s2) as [[fs2 s3]| |] eqn:E2; cbn [bind] in E; try discriminate. injection E as <- _.
  constructor; [eapply place_put; exact E1 | eapply IH; exact E2].
Qed.

Lemma in_flow_inv cb st same abs lay f abs' : layout_in_flow cb st same abs lay = Ok (f, abs') ->
  exists fl abs1 extra, lay (if_children_cb cb st) (if is_relatively_positioned (sv st Lposition) then [] else abs) (if_start_collapse cb st same) = Ok (fl, abs1) /\
    f = FBox st (fl_fragments fl ++ extra) (if_content cb st same fl) (if_padding cb st) (if_border cb st) (if_margin cb st)
          (if_margins cb st same (fl_margins fl)) /\
    (is_relatively_positioned (sv st Lposition) = false -> extra = []).
Proof.
  unfold layout_in_flow. intros E. destruct (is_relatively_positioned (sv st Lposition)).
  - destruct (lay _ [] _) as [[fl abs1]| |]; cbn [bind] in E; try discriminate. exists fl, abs1.
    unfold in_positioned_containing_block in E. destruct abs1 as [|a abs1].
    + cbn [bind] in E. injection E as <- _. exists []. rewrite app_nil_r. split; [reflexivity|]. split; [reflexivity|]. discriminate.
    + destruct (mapR _ _) as [fs| |]; cbn [bind] in E; try discriminate. injection E as <- _. eexists. split; [reflexivity|]. split; [reflexivity|]. discriminate.
  - destruct (lay _ abs _) as [[fl abs1]| |]; cbn [bind] in E; try discriminate. injection E as <- _. exists fl, abs1, [].
    rewrite app_nil_r. split; [reflexivity|]. split; reflexivity.
Qed.
Lemma used_height cb st : if_block_size cb st = height_used (sv st Lheight) (cb_block cb).
Proof. unfold if_block_size, used_block_size, height_used, box_size. cbn. destruct (sv st Lheight); try reflexivity. Qed.
Lemma ifc_margins ma md mw parent boxes cb rank abs fl abs' : ifc_layout ma md mw parent boxes cb rank abs = Ok (fl, abs') -> fl_margins fl = cb_zero.
Proof.
  unfold ifc_layout. intros E.
  repeat match type of E with
  | bind ?r _ = Ok _ => destruct r; cbn [bind] in E; try discriminate
  end. injection E as <- _. reflexivity.
Qed.
Lemma children_result lays cb rank abs floats col fl abs' : Forall framed lays ->
  layout_block_level_children lays cb rank abs floats col = Ok (fl, abs') ->
  exists fs gss s1, framed_list lays cb fs gss /\ place_all fs (placement_start col) = Ok (fl_fragments fl, s1) /\
    fl_block_size fl = pl_pos s1 /\ fl_margins fl = CBMargins (pl_collapses s1) (pl_start s1) (pl_margin s1).
Proof.
  intros H E. destruct (framed_list_ex lays cb H) as (fs & gss & F & G & T).
  exists fs, gss. unfold layout_block_level_children in E.
  rewrite (children_floats_framed _ _ _ _ F), (children_layout_framed _ _ _ _ F) in E. cbn [bind] in E.
  destruct (place_all fs (placement_start col)) as [[fs1 s1]| |]; [|destruct floats; discriminate..].
  destruct floats; cbn [bind] in E;
    (destruct (adjust_static_positions _ _ fs1 rank) as [abs2| |]; try discriminate; cbn [bind] in E; injection E as <- _; exists s1;
     split; [exact F|]; split; [reflexivity|]; split; reflexivity).
Qed.
Lemma children_formula lays cb rank abs floats col fs gss fs1 s1 : framed_list lays cb fs gss ->
  place_all fs (placement_start col) = Ok (fs1, s1) ->
  layout_block_level_children lays cb rank abs floats col =
  bind (mapR (adjust_one fs1 rank) (ranked O gss)) (fun late =>
    Ok (Flow fs1 (pl_pos s1) (CBMargins (pl_collapses s1) (pl_start s1) (pl_margin s1)), abs ++ late)).
Proof.
  intros F E. unfold layout_block_level_children.
  rewrite (children_floats_framed _ _ _ _ F), (children_layout_framed _ _ _ _ F), E. cbn [bind]. rewrite E. cbn [bind].
  assert (K : adjust_static_positions (List.length abs) (abs ++ ranked O gss) fs1 rank =
    bind (mapR (adjust_one fs1 rank) (ranked O gss)) (fun late => Ok (abs ++ late))).
  { unfold adjust_static_positions. rewrite skipn_app, firstn_app, Nat.sub_diag, skipn_all, firstn_all. cbn [skipn firstn app].
    rewrite app_nil_r. reflexivity. }
  destruct floats; cbn [bind]; rewrite K; destruct (mapR _ _); reflexivity.
Qed.


(* ------------------------------------------------------------------ *)
(** * Used values *)
Definition of_option (o : option Len) : la := match o with Some l => LALen l | None => LAAuto end.
Lemma lpa_rel_resolve v basis : lpa_rel v basis = of_option (resolve basis v).
Proof. destruct v; reflexivity. Qed.
Lemma lp_rel_resolve basis v : lp_rel v basis = resolve_lp basis v. Proof. destruct v; reflexivity. Qed.
Lemma own_offset_adjust st cb ch r p bd m cm : relative_adjustement st (v_inline (r_size r)) (height_used (sv st Lheight) (cb_block cb)) =
  own_offset st cb (FBox st ch r p bd m cm).
Proof.
  unfold relative_adjustement, own_offset. destruct (sv st Lposition); cbn [is_relatively_positioned]; try reflexivity.
  unfold sides_map_axes, box_offsets. cbn [s_inline_start s_inline_end s_block_start s_block_end sides_to_flow_relative the_writing_mode].
  rewrite !lpa_rel_resolve. cbn.
  destruct (height_used (sv st Lheight) (cb_block cb)); cbn [auto_is];
  destruct (resolve _ (sv st Lleft)), (resolve _ (sv st Lright)), (resolve _ (sv st Ltop)), (resolve _ (sv st Lbottom)); reflexivity.
Qed.
Lemma used_in_flow cb st same fl ch cm b : box_style b = st ->
  used_values cb b (FBox st ch (if_content cb st same fl) (if_padding cb st) (if_border cb st) (if_margin cb st) cm).
Proof.
  intros <-. set (st := box_style b). unfold used_values. fold st. cbv zeta.
  assert (Hm : if_margin cb st = sides_auto_is (solve_inline_margins (cb_inline cb) (of_option (resolve (cb_inline cb) (sv st Lwidth))) (if_pb cb st)
     (Sides (of_option (resolve (cb_inline cb) (sv st Lmargin_left))) (of_option (resolve (cb_inline cb) (sv st Lmargin_right)))
            (of_option (resolve (cb_inline cb) (sv st Lmargin_top))) (of_option (resolve (cb_inline cb) (sv st Lmargin_bottom))))) l0).
  { unfold if_margin, if_computed_inline_size, sides_lpa_rel, sides_map. rewrite !lpa_rel_resolve. reflexivity. }
  split; [reflexivity|].
  split; [unfold if_padding, sides_lp_rel, sides_map; rewrite !lp_rel_resolve; reflexivity|].
  split; [unfold if_border, sides_lp_rel, sides_map; rewrite !lp_rel_resolve; reflexivity|].
  split; [|split; [|split; [|split; [|split]]]].
  - intros x Hx. cbn [if_content r_size v_inline]. unfold if_inline_size, if_computed_inline_size. rewrite lpa_rel_resolve.
    change (v_inline (box_size st)) with (sv st Lwidth). rewrite Hx. reflexivity.
  - intros x Hx. rewrite Hm, Hx.
    destruct (resolve (cb_inline cb) (sv st Lwidth)), (resolve (cb_inline cb) (sv st Lmargin_right)); reflexivity.
  - intros Hw. rewrite Hm, Hw.
    destruct (resolve (cb_inline cb) (sv st Lmargin_left)), (resolve (cb_inline cb) (sv st Lmargin_right)); split; reflexivity.
  - rewrite Hm. destruct (resolve (cb_inline cb) (sv st Lwidth)), (resolve (cb_inline cb) (sv st Lmargin_left)), (resolve (cb_inline cb) (sv st Lmargin_right)),
      (resolve (cb_inline cb) (sv st Lmargin_top)); reflexivity.
  - rewrite Hm. destruct (resolve (cb_inline cb) (sv st Lwidth)), (resolve (cb_inline cb) (sv st Lmargin_left)), (resolve (cb_inline cb) (sv st Lmargin_right)),
      (resolve (cb_inline cb) (sv st Lmargin_bottom)); reflexivity.
  - rewrite <- own_offset_adjust. unfold if_content at 2. cbn [r_size v_inline]. rewrite <- used_height. reflexivity.
Qed.
Lemma solve_axis_used c pb ms me size o margins a sz m1 m2 :
  solve_axis c pb (of_option (resolve c ms)) (of_option (resolve c me)) margins o size = (a, sz, m1, m2) ->
  (forall x, resolve c size = Some x -> sz = LALen x) /\
  (forall x, resolve c ms = Some x -> m1 = x) /\ (forall x, resolve c me = Some x -> m2 = x).
Proof.
  intros E. unfold solve_axis in E. rewrite lpa_rel_resolve in E.
  destruct o as [x|s|e|s e].
  1-3: injection E as <- <- <- <-; (split; [intros x0 ->; reflexivity|]); split; intros x0 ->; reflexivity.
  destruct (resolve c size) as [z|] eqn:Ez; cbn [of_option] in E.
  - destruct (resolve c ms) as [s1|] eqn:E1, (resolve c me) as [e1|] eqn:E2; cbn [of_option] in E.
    4: destruct (margins _) as [u v].
    all: injection E as <- <- <- <-; (split; [intros x0 [= ->]; reflexivity|]); split; intros x0 [= ->]; reflexivity.
  - injection E as <- <- <- <-. split; [intros x [=]|]. split; intros x ->; reflexivity.
Qed.
Lemma abs_layout_used st lay oi ob size f : abs_layout st lay oi ob size = Ok f -> abs_used_values size st f.
Proof.
  unfold abs_layout. set (w := v_inline size).
  assert (Em : sides_lpa_rel (style_margin st) w =
     Sides (of_option (resolve w (sv st Lmargin_left))) (of_option (resolve w (sv st Lmargin_right)))
           (of_option (resolve w (sv st Lmargin_top))) (of_option (resolve w (sv st Lmargin_bottom)))).
  { unfold sides_lpa_rel, sides_map. rewrite !lpa_rel_resolve. reflexivity. }
  rewrite Em. cbn [s_inline_start s_inline_end s_block_start s_block_end].
  change (v_inline (box_size st)) with (sv st Lwidth). change (v_block (box_size st)) with (sv st Lheight).
  assert (Ep : sides_lp_rel (style_padding st) w = sides_map (resolve_lp w) (style_padding st)).
  { unfold sides_lp_rel, sides_map. rewrite !lp_rel_resolve. reflexivity. }
  assert (Eb : sides_lp_rel (style_border_width st) w = sides_map (resolve_lp w) (style_border_width st)).
  { unfold sides_lp_rel, sides_map. rewrite !lp_rel_resolve. reflexivity. }
  rewrite Ep, Eb.
  destruct (solve_axis w (inline_sum _) _ _ _ oi _) as [[[ai si] mi1] mi2] eqn:Ei.
  destruct (solve_axis w (block_sum _) _ _ _ ob _) as [[[ab sb] mb1] mb2] eqn:Eb'.
  destruct (solve_axis_used _ _ _ _ _ _ _ _ _ _ _ Ei) as (I2 & I3 & I4).
  destruct (solve_axis_used _ _ _ _ _ _ _ _ _ _ _ Eb') as (B2 & B3 & B4).
  set (isz := auto_is si _). intros E.
  destruct (lay (CBlock isz sb)) as [[fl abs]| |]; cbn [bind] in E; try discriminate.
  destruct (in_positioned_containing_block _ _ _ _) as [ch| |]; cbn [bind] in E; try discriminate. injection E as <-.
  unfold abs_used_values. split; [reflexivity|]. split; [reflexivity|]. split; [reflexivity|].
  cbn [r_size v_inline v_block]. split; [|split; [|split; [exact I3|split; [exact I4|split; [exact B3|exact B4]]]]].
  - intros x Hx. unfold isz. rewrite (I2 x Hx). reflexivity.
  - intros x Hx. rewrite (B2 x); [reflexivity|]. rewrite Hx. reflexivity.
Qed.

Section Tree.
Variable m_ascent m_descent : style -> Len.
Variable m_width : style -> text -> Len.
Notation layout_blb := (layout_blb m_ascent m_descent m_width).
Notation layout_container := (layout_container m_ascent m_descent m_width).
Notation layout_bfc := (layout_bfc m_ascent m_descent m_width).
Lemma wf_framed l : fold_right (fun x Q => wf_blb x /\ Q) True l -> Forall framed (map layout_blb l).
Proof.
  destruct (layout_framed m_ascent m_descent m_width) as (H & _ & _).
  induction l as [|b l IH]; intros W; [constructor|]. destruct W as [W1 W2]. constructor; [exact (H b W1) | exact (IH W2)].
Qed.
Lemma bfc_inv fl0 c cb rank abs fl abs' : layout_bfc (BFC fl0 c) cb rank abs = Ok (fl, abs') ->
  exists fl1, layout_container c cb rank abs fl0 false = Ok (fl1, abs') /\ fl_fragments fl = fl_fragments fl1 /\
    fl_block_size fl = fl_block_size fl1 + cm_solve (cb_end (fl_margins fl1)) /\
    fl_margins fl = CBMargins false (cb_start (fl_margins fl1)) cm_zero.
Proof.
  change (layout_bfc (BFC fl0 c) cb rank abs) with (bfc_finish (layout_container c cb rank abs fl0 false)). unfold bfc_finish. destruct (layout_container c cb rank abs fl0 false) as [[fl1 a]| |]; cbn [bind]; try discriminate.
  intros E. injection E as <- <-. exists fl1. split; [reflexivity|]. split; [reflexivity|]. split; reflexivity.
Qed.
End Tree.
End Any.
