(** Lemmas for C107: what the layout of absolutely positioned boxes that reach the page looks at. *)
From Verif Require Import Base Len GeomModel StyleModel InlineModel BlockModel BlockSpec BlockFrame TreeModel TreeSpec TreeFacts TreeProofs TreeInv PaintModel TallSpec.
Local Open Scope result_scope.

Section Any.
Context {ar : Arith}.

Definition no_end (o : offsets) : Prop := match o with OEnd _ => False | _ => True end.
(** A layout that does not look at the height of the containing block, unless it counts from an end. *)
Definition blind (lay : abs_lay) : Prop := forall oi ob s s', no_end oi -> no_end ob -> v_inline s = v_inline s' -> lay oi ob s = lay oi ob s'.
Definition abs_blind (a : abs_frag) : Prop := no_end (af_inline a) /\ no_end (af_block a) /\ blind (af_layout a).

Lemma solve_no_end c p ms me sm o sz : no_end o -> exists s b x y, solve_axis c p ms me sm o sz = (AStart s, b, x, y).
Proof.
  destruct o as [s|s|e|s e]; intros H; cbn [solve_axis]; [eauto 6|eauto 6|destruct H|].
  destruct (lpa_rel sz c); [|eauto 6]. destruct (match ms with LALen _ => _ | LAAuto => _ end) as [? ?]; eauto 6.
Qed.
Lemma abs_layout_blind st lay : blind (abs_layout st lay).
Proof.
  intros oi ob [i b] [i' b'] Hi Hb E. cbn [v_inline] in E. subst i'. unfold abs_layout. cbn [v_inline v_block].
  match goal with |- context [solve_axis ?c ?p ?ms ?me ?sm oi ?sz] => destruct (solve_no_end c p ms me sm oi sz Hi) as (s1 & b1 & x1 & y1 & ->) end.
  match goal with |- context [solve_axis ?c ?p ?ms ?me ?sm ob ?sz] => destruct (solve_no_end c p ms me sm ob sz Hb) as (s2 & b2 & x2 & y2 & ->) end.
  reflexivity.
Qed.
Lemma offsets_no_end x s e : (s = LPAAuto -> e = LPAAuto) -> no_end (absolute_box_offsets x s e).
Proof. intros H. unfold absolute_box_offsets. destruct s; cbn [lpa_non_auto]; [| |rewrite H by reflexivity; exact I]; destruct e; exact I. Qed.
Lemma box_blind st lay corner rank : from_start st -> is_absolutely_positioned (sv st Lposition) = true -> blind lay -> abs_blind (abs_box_layout st lay corner rank).
Proof.
  intros F P B. destruct (F P) as [Ft Fl]. split; [|split; [|exact B]]; apply offsets_no_end; assumption.
Qed.

(** The boxes whose absolutely positioned boxes reach the containing block are all of that kind. *)
Definition starts (st : style) : Prop := from_start st /\ is_absolutely_positioned (sv st Lposition) = true.
Fixpoint fs_blb (b : blb) : Prop :=
  match b with SameFC _ c => fs_container c | BAbspos st _ => starts st | BFloat _ _ => True | Indep _ c => fs_bfc c end
with fs_container (c : bcontainer) : Prop :=
  match c with
  | BlockLevelBoxes l => fold_right (fun x Q => fs_blb x /\ Q) True l
  | InlineFC _ l => fold_right (fun x Q => ilb_every (fun st _ => starts st) x /\ Q) True l
  end
with fs_bfc (c : bfc) : Prop := match c with BFC _ c' => fs_container c' end.
Lemma fs_built st kids c fl : Forall (boxes_styled from_start) kids -> construct_container st kids = TreeModel.Done (c, fl) -> fs_container c.
Proof.
  intros S H.
  refine (proj2 (container_keeps from_start (ilb_every (fun st _ => starts st)) fs_blb
           (fun c fl => fl = container_has_float c /\ fs_container c) _ _ _ _ _ _ _ _ _ _ _ _ st kids c fl S H)).
  - intros; exact I.
  - intros. apply ilb_every_eq. assumption.
  - intros st0 c0 fl0 G P _. split; assumption.
  - intros; exact I.
  - intros st0 ps l _ Hl. apply fold_forall. exact Hl.
  - intros st0 c0 fl0 _ [A B]. exact B.
  - intros st0 c0 fl0 _ [A B]. exact B.
  - intros st0 c0 fl0 G P _. split; assumption.
  - intros; exact I.
  - intros st0 l _ Hl. split; [reflexivity|]. apply fold_forall. exact Hl.
  - intros l Hl. split; [reflexivity|]. apply fold_forall. exact Hl.
  - intros c0 fl0 [A _]. exact A.
Qed.

Section Metrics.
Variable m_ascent m_descent : style -> Len.
Variable m_width : style -> text -> Len.
Notation layout_blb := (layout_blb m_ascent m_descent m_width).
Notation layout_container := (layout_container m_ascent m_descent m_width).
Notation layout_bfc := (layout_bfc m_ascent m_descent m_width).

Lemma loop_blind fuel cb ta rank : forall rems s s',
  Forall (Forall (ilb_every (fun st lay => starts st /\ blind lay))) rems -> Forall abs_blind (is_abs s) ->
  ifc_loop m_ascent m_descent m_width fuel cb ta rank rems s = Ok s' -> Forall abs_blind (is_abs s').
Proof.
  induction fuel as [|fuel IH]; intros rems s s' Hr Ha H; [discriminate|]. cbn [ifc_loop] in H.
  assert (Hh : Forall (ilb_every (fun st lay => starts st /\ blind lay)) (hd [] rems)) by (destruct Hr; [constructor | assumption]).
  assert (Ht : Forall (Forall (ilb_every (fun st lay => starts st /\ blind lay))) (tl rems)) by (destruct Hr; [constructor | assumption]).
  destruct (hd [] rems) as [|b rest].
  - destruct (is_stack s) as [|p stk].
    + injection H as <-. rewrite finish_line_is_abs. exact Ha.
    + destruct (finish_layout p (is_cur s) (is_pos s) false) as [p1 pos]. eapply IH; [| |exact H]; assumption.
  - inversion Hh as [|? ? Hb Hrest]; subst. destruct b as [st first last ch | st t fo | st lay | st lay].
    + eapply IH; [| |exact H]; [|exact Ha]. constructor; [|constructor; assumption]. apply fold_forall. exact Hb.
    + destruct (text_run_layout m_ascent m_descent m_width cb ta st fo t s) as [s1| |] eqn:E; cbn [bind] in H; try discriminate.
      eapply IH; [| |exact H]; [constructor; assumption|]. rewrite (text_run_keeps_abs _ _ _ _ _ _ _ _ _ _ E). exact Ha.
    + destruct (inline_static_corner st s) as [c| |]; cbn [bind] in H; try discriminate.
      eapply IH; [| |exact H]; [constructor; assumption|]. cbn [push_abs is_abs]. apply Forall_app. split; [exact Ha|].
      constructor; [|constructor]. destruct Hb as [[F P] B]. apply box_blind; assumption.
    + eapply IH; [| |exact H]; [constructor; assumption | exact Ha].
Qed.
Lemma adjust_blind so_far abs fs rank abs' : Forall abs_blind abs -> adjust_static_positions so_far abs fs rank = Ok abs' -> Forall abs_blind abs'.
Proof.
  intros H E. unfold adjust_static_positions in E. destruct (mapR _ (skipn so_far abs)) as [late| |] eqn:M; cbn [bind] in E; try discriminate. injection E as <-.
  assert (H1 : Forall abs_blind (firstn so_far abs)) by (rewrite <- (firstn_skipn so_far abs) in H; apply Forall_app in H; apply H).
  assert (H2 : Forall abs_blind (skipn so_far abs)) by (rewrite <- (firstn_skipn so_far abs) in H; apply Forall_app in H; apply H).
  apply Forall_app. split; [exact H1|]. revert late M. clear - H2. induction H2 as [|a l Ha _ IH]; intros late M; cbn [mapR] in M; [injection M as <-; constructor|].
  unfold adjust_one at 1 in M. destruct (nth_error fs (af_rank a)) as [f|]; [|discriminate]. destruct (frag_rect f) as [r| |]; cbn [bind] in M; try discriminate.
  destruct (mapR _ l) as [l'| |] eqn:E; cbn [bind] in M; try discriminate. injection M as <-. constructor; [|exact (IH _ eq_refl)].
  destruct Ha as (A & B & C). split; [|split; [|exact C]]; cbn [af_inline af_block]; [destruct (af_inline a)|destruct (af_block a)]; assumption.
Qed.
Lemma flow_blind cb st same abs lay f abs' : Forall abs_blind abs ->
  (forall a fl a', Forall abs_blind a -> lay (if_children_cb cb st) a (if_start_collapse cb st same) = Ok (fl, a') -> Forall abs_blind a') ->
  layout_in_flow cb st same abs lay = Ok (f, abs') -> Forall abs_blind abs'.
Proof.
  intros H L E. unfold layout_in_flow in E. destruct (is_relatively_positioned (sv st Lposition)).
  - destruct (lay _ [] _) as [[fl a]| |]; cbn [bind] in E; try discriminate. destruct (in_positioned_containing_block _ _ _ _); cbn [bind] in E; try discriminate. injection E as _ <-. exact H.
  - destruct (lay _ abs _) as [[fl a]| |] eqn:El; cbn [bind] in E; try discriminate. injection E as _ <-. exact (L _ _ _ H El).
Qed.
Lemma children_blind lays cb (F : Forall (fun lay : blb_lay => forall rank abs floats f abs', Forall abs_blind abs -> lay cb rank abs floats = Ok (f, abs') -> Forall abs_blind abs') lays) :
  (forall rank abs fs abs', Forall abs_blind abs -> children_layout lays cb rank abs = Ok (fs, abs') -> Forall abs_blind abs') /\
  (forall rank abs s fs abs' s', Forall abs_blind abs -> children_floats lays cb rank abs s = Ok (fs, abs', s') -> Forall abs_blind abs').
Proof.
  induction F as [|lay lays H _ [IH1 IH2]]; split.
  - intros rank abs fs abs' A [= <- <-]. exact A.
  - intros rank abs s fs abs' s' A [= <- <- <-]. exact A.
  - intros rank abs fs abs' A E. cbn [children_layout] in E. destruct (lay cb rank abs false) as [[f a]| |] eqn:El; cbn [bind] in E; try discriminate.
    destruct (children_layout lays cb (S rank) a) as [[g a2]| |] eqn:E2; cbn [bind] in E; try discriminate. injection E as _ <-. exact (IH1 _ _ _ _ (H _ _ _ _ _ A El) E2).
  - intros rank abs s fs abs' s' A E. cbn [children_floats] in E. destruct (lay cb rank abs true) as [[f a]| |] eqn:El; cbn [bind] in E; try discriminate.
    destruct (place f s) as [[f1 s1]| |]; cbn [bind] in E; try discriminate.
    destruct (children_floats lays cb (S rank) a s1) as [[[g a2] s2]| |] eqn:E2; cbn [bind] in E; try discriminate. injection E as _ <- _. exact (IH2 _ _ _ _ _ _ (H _ _ _ _ _ A El) E2).
Qed.
Theorem layout_blind :
  (forall b, fs_blb b -> forall cb rank abs floats f abs', Forall abs_blind abs -> layout_blb b cb rank abs floats = Ok (f, abs') -> Forall abs_blind abs') /\
  (forall c, fs_container c -> forall cb rank abs floats col fl abs', Forall abs_blind abs -> layout_container c cb rank abs floats col = Ok (fl, abs') -> Forall abs_blind abs') /\
  (forall c, fs_bfc c -> forall cb rank abs fl abs', Forall abs_blind abs -> layout_bfc c cb rank abs = Ok (fl, abs') -> Forall abs_blind abs').
Proof.
  set (P := fun b => fs_blb b -> forall cb rank abs floats f abs', Forall abs_blind abs -> layout_blb b cb rank abs floats = Ok (f, abs') -> Forall abs_blind abs').
  set (Q := fun c => fs_container c -> forall cb rank abs floats col fl abs', Forall abs_blind abs -> layout_container c cb rank abs floats col = Ok (fl, abs') -> Forall abs_blind abs').
  set (R := fun c => fs_bfc c -> forall cb rank abs fl abs', Forall abs_blind abs -> layout_bfc c cb rank abs = Ok (fl, abs') -> Forall abs_blind abs').
  assert (H1 : forall st c, Q c -> P (SameFC st c)).
  { intros st c Hc S cb rank abs floats f abs' A E. cbn [BlockModel.layout_blb] in E. eapply flow_blind; [exact A| |exact E].
    intros a fl a' Ha El. exact (Hc S _ _ _ _ _ _ _ Ha El). }
  assert (H2 : forall st c, R c -> P (BAbspos st c)).
  { intros st c _ [F Pp] cb rank abs floats f abs' A [= <- <-]. apply Forall_app. split; [exact A|]. constructor; [|constructor].
    apply box_blind; [exact F|exact Pp|apply abs_layout_blind]. }
  assert (H3 : forall st c, R c -> P (BFloat st c)) by (intros st c _ _ cb rank abs floats f abs' A [= <- <-]; exact A).
  assert (H4 : forall st c, R c -> P (Indep st c)).
  { intros st c Hc S cb rank abs floats f abs' A E. cbn [BlockModel.layout_blb] in E. eapply flow_blind; [exact A| |exact E].
    intros a fl a' Ha El. exact (Hc S _ _ _ _ _ Ha El). }
  assert (H5 : forall l, Forall P l -> Q (BlockLevelBoxes l)).
  { intros l Hl S cb rank abs floats col fl abs' A E. cbn [BlockModel.layout_container] in E. unfold layout_block_level_children in E.
    apply fold_forall in S.
    assert (F : Forall (fun lay : blb_lay => forall rank abs floats f abs', Forall abs_blind abs -> lay cb rank abs floats = Ok (f, abs') -> Forall abs_blind abs') (map layout_blb l)).
    { apply Forall_map. clear - Hl S. induction Hl as [|b l Hb _ IH]; [constructor|]. inversion S as [|? ? S1 S2]; subst. constructor; [|exact (IH S2)].
      intros rank abs floats f abs' A E. exact (Hb S1 _ _ _ _ _ _ A E). }
    destruct (children_blind _ _ F) as [F1 F2]. destruct floats.
    - destruct (children_floats _ _ _ _ _) as [[[fs a] s]| |] eqn:Ec; cbn [bind] in E; try discriminate.
      destruct (adjust_static_positions _ _ _ _) as [a2| |] eqn:Ea; cbn [bind] in E; try discriminate. injection E as _ <-.
      eapply adjust_blind; [exact (F2 _ _ _ _ _ _ A Ec)|exact Ea].
    - destruct (children_layout _ _ _ _) as [[fs a]| |] eqn:Ec; cbn [bind] in E; try discriminate.
      destruct (place_all _ _) as [[fs1 s]| |]; cbn [bind] in E; try discriminate.
      destruct (adjust_static_positions _ _ _ _) as [a2| |] eqn:Ea; cbn [bind] in E; try discriminate. injection E as _ <-.
      eapply adjust_blind; [exact (F1 _ _ _ _ A Ec)|exact Ea]. }
  assert (H6 : forall st l, Forall (ilb_every (fun _ => R)) l -> Q (InlineFC st l)).
  { intros st l _ S cb rank abs floats col fl abs' A E. cbn [BlockModel.layout_container] in E. unfold ifc_layout in E.
    destruct (ifc_loop _ _ _ _ _ _ _ _ _) as [s| |] eqn:El; cbn [bind] in E; try discriminate. injection E as _ <-.
    eapply loop_blind; [| |exact El]; [|exact A]. constructor; [|constructor]. apply Forall_map. apply fold_forall in S.
    eapply Forall_impl; [|exact S]. clear. fix IH 1. intros [st f la ch|st t fo|st c|st c] H; cbn [ilb_map].
    - apply ilb_every_eq. apply ilb_every_eq in H. induction ch as [|x ch IHc]; [constructor|]. inversion H as [|? ? H1 H2]; subst. constructor; [exact (IH x H1)|exact (IHc H2)].
    - exact I.
    - split; [exact H|apply abs_layout_blind].
    - exact I. }
  assert (H7 : forall fl c, Q c -> R (BFC fl c)).
  { intros fl0 c Hc S cb rank abs fl abs' A E. change (bfc_finish (layout_container c cb rank abs fl0 false) = Ok (fl, abs')) in E. unfold bfc_finish in E.
    destruct (layout_container c cb rank abs fl0 false) as [[fl1 a]| |] eqn:El; cbn [bind] in E; try discriminate. injection E as _ <-. exact (Hc S _ _ _ _ _ _ _ A El). }
  split; [|split].
  - exact (blb_tree P Q R H1 H2 H3 H4 H5 H6 H7).
  - exact (container_tree P Q R H1 H2 H3 H4 H5 H6 H7).
  - exact (bfc_tree P Q R H1 H2 H3 H4 H5 H6 H7).
Qed.

Lemma mapR_same {A B} (f g : A -> result B) l : Forall (fun a => f a = g a) l -> mapR f l = mapR g l.
Proof. induction 1 as [|a l E _ IH]; cbn; [reflexivity|]. rewrite E, IH. reflexivity. Qed.
(** An in-flow block looks at the height of its containing block only if its height is a percentage. *)
Lemma in_flow_height w h h' st same abs lay : not_percent (sv st Lheight) ->
  layout_in_flow (CBlock w h) st same abs lay = layout_in_flow (CBlock w h') st same abs lay.
Proof.
  intros N. assert (E : if_block_size (CBlock w h) st = if_block_size (CBlock w h') st).
  { unfold if_block_size. change (v_block (box_size st)) with (sv st Lheight). destruct (sv st Lheight); [reflexivity|destruct N|reflexivity]. }
  assert (C : if_children_cb (CBlock w h) st = if_children_cb (CBlock w h') st) by (unfold if_children_cb; rewrite E; reflexivity).
  assert (Ec : if_end_collapse (CBlock w h) st same = if_end_collapse (CBlock w h') st same) by (unfold if_end_collapse; rewrite E; reflexivity).
  assert (K : forall fl, if_content (CBlock w h) st same fl = if_content (CBlock w h') st same fl).
  { intros fl. unfold if_content, if_height. rewrite E, Ec. reflexivity. }
  unfold layout_in_flow. rewrite C. change (if_start_collapse (CBlock w h') st same) with (if_start_collapse (CBlock w h) st same).
  destruct (lay _ _ _) as [[fl a]| |]; cbn [bind]; [|reflexivity..]. rewrite K.
  change (if_padding (CBlock w h') st) with (if_padding (CBlock w h) st).
  assert (M : if_margins (CBlock w h) st same (fl_margins fl) = if_margins (CBlock w h') st same (fl_margins fl)).
  { unfold if_margins. rewrite Ec. reflexivity. }
  rewrite M. reflexivity.
Qed.
Lemma finish_abs w h h' (r : result (flow * list abs_frag)) : (forall fl abs, r = Ok (fl, abs) -> Forall abs_blind abs) ->
  (do (fl, abs) <- r; do fs <- mapR (fun a => af_layout a (af_inline a) (af_block a) (Vec2 w h)) abs; Ok (fl_fragments fl ++ fs)) =
  (do (fl, abs) <- r; do fs <- mapR (fun a => af_layout a (af_inline a) (af_block a) (Vec2 w h')) abs; Ok (fl_fragments fl ++ fs)).
Proof.
  intros H. destruct r as [[fl abs]| |]; cbn [bind]; [|reflexivity..]. rewrite (mapR_same _ (fun a => af_layout a (af_inline a) (af_block a) (Vec2 w h')) abs); [reflexivity|].
  eapply Forall_impl; [|exact (H fl abs eq_refl)]. intros a (A & B & C). apply C; [exact A|exact B|reflexivity].
Qed.
Lemma root_height st kids r w h h' : (is_absolutely_positioned (sv st Lposition) = true \/ not_percent (sv st Lheight)) -> from_start st -> Forall (boxes_styled from_start) kids ->
  construct_root st kids = TreeModel.Done r ->
  layout_root m_ascent m_descent m_width r (Vec2 w h) = layout_root m_ascent m_descent m_width r (Vec2 w h').
Proof.
  intros N F S H. unfold layout_root. cbn [v_inline v_block].
  assert (X : fs_bfc r /\ layout_bfc r (CBlock w (LALen h)) 0 [] = layout_bfc r (CBlock w (LALen h')) 0 []).
  { unfold construct_root, construct_bfc in H. destruct (sv st Ldisplay).
    1: { injection H as <-. split; [exact I|reflexivity]. }
    all: apply obind_done in H as (c & H1 & H); apply obind_done in H1 as ([c0 fl0] & H0 & H1); injection H1 as <-; pose proof (fs_built _ _ _ _ S H0) as C;
      destruct (is_absolutely_positioned (sv st Lposition)) eqn:P; [injection H as <-; split; [split; [split; assumption|exact I]|reflexivity]|];
      destruct (is_floating (sv st Lfloat)); injection H as <-; (split; [split; [exact C || exact I|exact I]|]); [reflexivity|];
      destruct N as [N|N]; [discriminate|];
      cbn [BlockModel.layout_bfc BlockModel.layout_container map]; unfold layout_block_level_children; cbn [children_layout BlockModel.layout_blb];
      rewrite (in_flow_height w (LALen h) (LALen h') st); [reflexivity|exact N]. }
  destruct X as [X <-]. apply finish_abs. intros fl abs E. eapply (proj2 (proj2 layout_blind)); [exact X|apply Forall_nil|exact E].
Qed.
End Metrics.

(** Painting looks at the origin of the page only. *)
Lemma paint_origin font_of f : forall c c', p_top_left c = p_top_left c' -> paint font_of c f = paint font_of c' f.
Proof.
  intros c c' E. assert (K : forall r, physical r c = physical r c') by (intros r; unfold physical; rewrite E; reflexivity).
  destruct f; cbn [paint]; rewrite !K; reflexivity.
Qed.
Lemma page_origin font_of fs w h h' : paint_page font_of fs (Vec2 w h) = paint_page font_of fs (Vec2 w h').
Proof.
  unfold paint_page, each. cbn [v_inline v_block]. induction fs as [|f fs IH]; [reflexivity|].
  rewrite (paint_origin font_of f (PRect (PVec l0 l0) (PVec w h)) (PRect (PVec l0 l0) (PVec w h')) eq_refl). destruct (paint font_of _ f); cbn [bind]; [|reflexivity..]. rewrite IH. reflexivity.
Qed.
End Any.
