(** Every box of a page is laid out where the specification of pages says. *)
From Verif Require Import BlockModel InlineSpec InlineProofs InlineFacts GeomSpec BlockSpec BlockFrame BlockGen PageSpec.
Local Open Scope len_scope.

Section Any.
Context {ar : Arith} {Z0 : ZeroLaws ar}.

(* ------------------------------------------------------------------ *)
(** * Absolutely positioned boxes met in inline content *)
Definition esc_lay {C} : ilb C -> list (style * C) :=
  fix go (b : ilb C) : list (style * C) :=
    match b with
    | InlineBox _ _ _ ch => flat_map go ch
    | IAbspos st c => [(st, c)]
    | TextRun _ _ _ | IFloat _ _ => []
    end.
Lemma esc_lay_map {C D} (F : style -> C -> D) : forall b, esc_lay (ilb_map F b) = map (fun sc => (fst sc, F (fst sc) (snd sc))) (esc_lay b).
Proof.
  fix IH 1. intros b. destruct b as [st fi la_ ch|st t fo|st c|st c]; try reflexivity.
  cbn [ilb_map esc_lay]. induction ch as [|x ch IHc]; [reflexivity|]. cbn [map flat_map]. rewrite map_app, IHc, IH. reflexivity.
Qed.
Lemma esc_lays_map {C D} (F : style -> C -> D) l : flat_map esc_lay (map (ilb_map F) l) = map (fun sc => (fst sc, F (fst sc) (snd sc))) (flat_map esc_lay l).
Proof. induction l as [|b l IH]; [reflexivity|]. cbn [map flat_map]. rewrite map_app, IH, esc_lay_map. reflexivity. Qed.
Lemma ilb_every_esc {C} (R : style -> C -> Prop) : forall b, ilb_every R b -> Forall (fun sc => R (fst sc) (snd sc)) (esc_lay b).
Proof.
  fix IH 1. intros b. destruct b as [st fi la_ ch|st t fo|st c|st c]; intros H; try constructor; try exact H; try constructor.
  cbn [esc_lay]. cbn [ilb_every] in H. induction ch as [|x ch IHc]; [constructor|]. cbn [flat_map fold_right] in *. destruct H as [H1 H2].
  apply Forall_app. split; [exact (IH x H1) | exact (IHc H2)].
Qed.

Section Loop.
Variable m_ascent m_descent : style -> Len.
Variable m_width : style -> text -> Len.
Variable cb : cblock.
Variable ta : text_align.
Variable rank : nat.
Definition met (sl : style * abs_lay) (a : abs_frag) : Prop := exists corner r, a = abs_box_layout (fst sl) (snd sl) corner r.
Lemma loop_met fuel : forall rems s s', List.length rems = S (List.length (is_stack s)) ->
  ifc_loop m_ascent m_descent m_width fuel cb ta rank rems s = Ok s' ->
  exists g, is_abs s' = is_abs s ++ g /\ Forall2 met (flat_map (flat_map esc_lay) rems) g.
Proof.
  induction fuel as [|fuel IH]; intros rems s s' L H; [discriminate|]. cbn [ifc_loop] in H.
  destruct rems as [|r rems]; [discriminate|]. cbn [hd tl] in H. cbn [List.length] in L. injection L as L. destruct r as [|b rest].
  - destruct (is_stack s) as [|p stk] eqn:Es.
    + injection H as <-. rewrite finish_line_is_abs. destruct rems; [|discriminate]. exists []. rewrite app_nil_r. split; [reflexivity | constructor].
    + destruct (finish_layout p (is_cur s) (is_pos s) false) as [p1 pos]. apply IH in H; [exact H|]. exact L.
  - cbn [flat_map]. destruct b as [st first last ch | st t fo | st lay | st lay].
    + apply IH in H; [|cbn [List.length]; unfold start_layout; cbn [is_stack List.length]; lia].
      destruct H as (g & H1 & H2). exists g. split; [exact H1|]. cbn [flat_map] in H2. cbn [esc_lay]. rewrite <- app_assoc. exact H2.
    + destruct (text_run_ok m_ascent m_descent m_width cb ta rank st fo t s) as (s1 & ls & H1 & _ & _ & H2). rewrite H1 in H. cbn [bind] in H.
      apply IH in H; [|cbn [List.length]; rewrite <- (Forall2_len _ _ _ H2); lia].
      rewrite (text_run_keeps_abs _ _ _ _ _ _ _ _ _ _ H1) in H. exact H.
    + destruct (inline_static_corner st s) as [c| |]; cbn [bind] in H; try discriminate.
      apply IH in H; [|cbn [List.length push_abs is_stack]; lia]. destruct H as (g & H1 & H2). cbn [push_abs is_abs] in H1.
      eexists (_ :: g). split; [rewrite H1, <- app_assoc; reflexivity|]. constructor; [|exact H2]. exists c, rank. reflexivity.
    + apply IH in H; [exact H|]. cbn [List.length]. lia.
Qed.
End Loop.

(* ------------------------------------------------------------------ *)
(** * Whole pages *)
Section Page.
Variable m_ascent m_descent : style -> Len.
Variable m_width : style -> text -> Len.
Notation layout_blb := (layout_blb m_ascent m_descent m_width).
Notation layout_container := (layout_container m_ascent m_descent m_width).
Notation layout_bfc := (layout_bfc m_ascent m_descent m_width).
Variable P : cblock -> blb -> fragment -> Prop.
Variable A : vec2 Len -> style -> fragment -> Prop.
Hypothesis HS : forall cb b f d, P cb b f -> P cb b (put_top d f).
Hypothesis HP : forall b cb rank abs floats f abs', wf_blb b -> in_flow b = true -> layout_blb b cb rank abs floats = Ok (f, abs') -> P cb b f.
Definition abs_box (st : style) (c : bfc) : abs_lay := abs_layout st (fun cb' => layout_bfc c cb' 0 []).
Definition ends_at (st : style) (c : bfc) (size : vec2 Len) (f : fragment) : Prop :=
  exists x y, abs_box st c (absolute_box_offsets x (sv st Lleft) (sv st Lright)) (absolute_box_offsets y (sv st Ltop) (sv st Lbottom)) size = Ok f.
Hypothesis HA : forall st c size f, ends_at st c size f -> A size st f.

Variable L : cblock -> style -> list (ilb bfc) -> list fragment -> Prop.
Hypothesis HL : forall st l cb rank abs fl abs', wf_container (InlineFC st l) ->
  ifc_layout m_ascent m_descent m_width st (map (ilb_map abs_box) l) cb rank abs = Ok (fl, abs') -> L cb st l (fl_fragments fl).

Notation box_laid := (box_laid P A L).
Notation contents_laid := (contents_laid P A L).
Notation boxes_laid := (boxes_laid P A L).
Notation abs_laid := (abs_laid P A L).

Definition came (sc : style * bfc) (a : abs_frag) : Prop :=
  (exists x, af_inline a = absolute_box_offsets x (sv (fst sc) Lleft) (sv (fst sc) Lright)) /\
  (exists y, af_block a = absolute_box_offsets y (sv (fst sc) Ltop) (sv (fst sc) Lbottom)) /\
  af_layout a = abs_box (fst sc) (snd sc).
Lemma came_rank sc r a : came sc a -> came sc (with_rank r a). Proof. exact (fun H => H). Qed.
Lemma shift_kind d x s e : exists y, shift_static d (absolute_box_offsets x s e) = absolute_box_offsets y s e.
Proof. exists (x + d). unfold absolute_box_offsets. destruct (lpa_non_auto s), (lpa_non_auto e); reflexivity. Qed.
Lemma came_adjust sc fs r a a' : came sc a -> adjust_one fs r a = Ok a' -> came sc a'.
Proof.
  unfold adjust_one. destruct (nth_error fs (af_rank a)) as [f|]; [|discriminate]. destruct (frag_rect f) as [re| |]; cbn [bind]; try discriminate.
  intros ((x & Hx) & (y & Hy) & Hl) E. injection E as <-. split; [|split]; cbn [af_inline af_block af_layout].
  - rewrite Hx. apply shift_kind.
  - rewrite Hy. apply shift_kind.
  - exact Hl.
Qed.
Lemma came_adjusts fs r : forall l g g', Forall2 came l g -> mapR (adjust_one fs r) g = Ok g' -> Forall2 came l g'.
Proof.
  intros l g g' H. revert g'. induction H as [|sc a l g H1 H2 IH]; intros g' E; cbn [mapR] in E; [injection E as <-; constructor|].
  destruct (adjust_one fs r a) as [a'| |] eqn:Ea; cbn [bind] in E; try discriminate.
  destruct (mapR (adjust_one fs r) g) as [g1| |]; cbn [bind] in E; try discriminate. injection E as <-.
  constructor; [eapply came_adjust; eassumption | apply IH; reflexivity].
Qed.

(** what the boxes that came up will be *)
Definition abs_good (sc : style * bfc) : Prop := forall size f, ends_at (fst sc) (snd sc) size f -> abs_laid size [sc] [f].
Lemma abs_laid_cons size sc f l fs : abs_laid size [sc] [f] -> abs_laid size l fs -> abs_laid size (sc :: l) (f :: fs).
Proof. intros H Hl. inversion H; subst. econstructor; eassumption. Qed.
Lemma came_laid size : forall l g fs, Forall abs_good l -> Forall2 came l g ->
  mapR (fun a => af_layout a (af_inline a) (af_block a) size) g = Ok fs -> abs_laid size l fs.
Proof.
  intros l g fs Hg H. revert fs. induction H as [|sc a l g ((x & H1) & (y & H2) & H3) H4 IH]; intros fs E; cbn [mapR] in E; [injection E as <-; constructor|].
  inversion Hg as [|? ? G1 G2]; subst.
  destruct (af_layout a _ _ _) as [f| |] eqn:Ea; cbn [bind] in E; try discriminate.
  destruct (mapR _ g) as [fs1| |]; cbn [bind] in E; try discriminate. injection E as <-.
  apply abs_laid_cons; [|apply IH; [exact G2 | reflexivity]]. apply G1. exists x, y. rewrite <- H1, <- H2, <- H3. exact Ea.
Qed.
Lemma inflate_padding st ch x s p bd m cm : inflate (Rect vec2_zero s) p = padding_rect (FBox st ch (Rect x s) p bd m cm).
Proof.
  reflexivity.
Qed.
Lemma hosts l g fs ch st x s p bd m cm : Forall abs_good l -> Forall2 came l g ->
  in_positioned_containing_block g fs s p = Ok ch ->
  exists abs, ch = fs ++ abs_group (FBox st ch (Rect x s) p bd m cm) abs /\
    abs_laid (r_size (padding_rect (FBox st ch (Rect x s) p bd m cm))) l abs.
Proof.
  intros Hl Hg E. unfold in_positioned_containing_block in E. rewrite (inflate_padding st ch x s p bd m cm) in E.
  destruct g as [|a g].
  - injection E as <-. exists []. inversion Hg; subst. cbn [abs_group]. rewrite app_nil_r. split; [reflexivity | constructor].
  - destruct (mapR _ (a :: g)) as [afs| |] eqn:Ea; cbn [bind] in E; try discriminate. injection E as E.
    exists afs. split.
    + rewrite <- E at 1. f_equal. cbn [mapR] in Ea. destruct (af_layout a _ _ _); cbn [bind] in Ea; try discriminate.
      destruct (mapR _ g); cbn [bind] in Ea; try discriminate. injection Ea as <-. reflexivity.
    + eapply came_laid; eassumption.
Qed.

Definition blb_page (b : blb) : Prop := wf_blb b ->
  Forall abs_good (escaping_blb b) /\
  forall cb rank abs floats f abs', layout_blb b cb rank abs floats = Ok (f, abs') ->
    box_laid cb b f /\ exists g, abs' = abs ++ g /\ Forall2 came (escaping_blb b) g.
Definition container_page (c : bcontainer) : Prop := wf_container c ->
  Forall abs_good (escaping c) /\
  forall cb rank abs floats col fl abs', layout_container c cb rank abs floats col = Ok (fl, abs') ->
    contents_laid cb c (fl_fragments fl) /\ exists g, abs' = abs ++ g /\ Forall2 came (escaping c) g.
Definition bfc_page (c : bfc) : Prop := match c with BFC _ c' => container_page c' end.

Lemma abs_layout_inv st lay oi ob size f : abs_layout st lay oi ob size = Ok f ->
  exists x isz bsz h fl abs ch p bd m, f = FBox st ch (Rect x (Vec2 isz bsz)) p bd m cb_zero /\
    lay (CBlock isz h) = Ok (fl, abs) /\ (h = LAAuto \/ h = LALen bsz) /\
    in_positioned_containing_block abs (fl_fragments fl) (Vec2 isz bsz) p = Ok ch.
Proof.
  unfold abs_layout. destruct (solve_axis _ _ _ _ _ oi _) as [[[ai si] mi1] mi2]. destruct (solve_axis _ _ _ _ _ ob _) as [[[ab sb] mb1] mb2].
  intros E. destruct (lay _) as [[fl abs]| |] eqn:El; cbn [bind] in E; try discriminate.
  destruct (in_positioned_containing_block _ _ _ _) as [ch| |] eqn:Ec; cbn [bind] in E; try discriminate. injection E as <-.
  eexists _, _, _, sb, fl, abs, ch, _, _, _. split; [reflexivity|]. split; [exact El|]. split; [destruct sb; [right | left]; reflexivity|]. exact Ec.
Qed.
Lemma abs_page st c : wf_bfc c -> bfc_page c -> abs_good (st, c).
Proof.
  intros W H size f E. destruct c as [fl0 c]. cbn [bfc_page] in H. destruct (H W) as (Hg & Hl).
  pose proof E as E0. destruct E as (x & y & E). cbn [fst snd] in E. apply abs_layout_inv in E.
  destruct E as (x' & isz & bsz & h & fl & abs & ch & p & bd & m & Ef & El & Hh & Ec).
  apply bfc_inv in El. destruct El as (fl1 & El & Efr & _). rewrite Efr in Ec.
  destruct (Hl _ _ _ _ _ _ _ El) as (Hc & g & Eg & Hcame). cbn [app] in Eg. subst abs.
  destruct (hosts _ _ _ _ st x' (Vec2 isz bsz) p bd m cb_zero Hg Hcame Ec) as (afs & E1 & E2). rewrite <- Ef in E1, E2.
  econstructor; [exact (HA _ _ _ _ E0) | rewrite Ef at 1; exact E1 | | | exact E2 | constructor].
  - destruct Hh as [Hh|Hh]; [left; exact Hh | right]. exists bsz. split; [exact Hh|]. rewrite Ef. reflexivity.
  - rewrite Ef. cbn [r_size v_inline]. exact Hc.
Qed.

Lemma box_put cb b f d : box_laid cb b f -> box_laid cb b (put_top d f).
Proof.
  intros H. inversion H as [? ? [? ?] H1|? ? c same ? ch abs H1 H2 H3 H4 H5]; subst; [apply bl_out; exact H1|].
  apply (bl_in P A L cb b c same _ ch abs); try assumption; [apply HS; exact H2 | | |]; destruct f as [? ? [? ?] ? ? ? ?| |]; assumption.
Qed.
Lemma in_flow_page cb st same abs lay f abs' l c (b : blb) : layout_in_flow cb st same abs lay = Ok (f, abs') ->
  l = escaping c -> Forall abs_good l -> P cb b f -> contents_of b = Some (c, same) -> box_style b = st ->
  (forall cb' abs0 col fl abs1, lay cb' abs0 col = Ok (fl, abs1) -> contents_laid cb' c (fl_fragments fl) /\ exists g, abs1 = abs0 ++ g /\ Forall2 came l g) ->
  box_laid cb b f /\ exists g, abs' = abs ++ g /\ Forall2 came (if positioned st then [] else l) g.
Proof.
  intros E -> Hl Hp Hc Hst H. unfold layout_in_flow in E.
  assert (Er : is_relatively_positioned (sv st Lposition) = positioned st) by (unfold positioned; destruct (sv st Lposition); reflexivity). rewrite Er in E.
  assert (Ec : forall ch fl, content_cb cb st (FBox st ch (if_content cb st same fl) (if_padding cb st) (if_border cb st) (if_margin cb st)
            (if_margins cb st same (fl_margins fl))) = if_children_cb cb st).
  { intros ch fl. cbn [content_cb]. unfold if_content. cbn [r_size v_inline]. rewrite <- used_height. reflexivity. }
  destruct (positioned st) eqn:Ep.
  - destruct (lay _ [] _) as [[fl abs1]| |] eqn:El; cbn [bind] in E; try discriminate.
    destruct (in_positioned_containing_block _ _ _ _) as [ch| |] eqn:Ei; cbn [bind] in E; try discriminate. injection E as <- <-.
    destruct (H _ _ _ _ _ El) as (H1 & g & H2 & H3). cbn [app] in H2. subst abs1.
    destruct (hosts _ _ _ _ st (r_start (if_content cb st same fl)) _ _ (if_border cb st) (if_margin cb st) (if_margins cb st same (fl_margins fl)) Hl H3 Ei) as (afs & E1 & E2).
    split; [|exists []; rewrite app_nil_r; split; [reflexivity | constructor]].
    eapply bl_in; [exact Hc | exact Hp | exact E1 | rewrite Hst, Ec; exact H1 | rewrite Hst, Ep; exact E2].
  - destruct (lay _ abs _) as [[fl abs1]| |] eqn:El; cbn [bind] in E; try discriminate. injection E as <- <-.
    destruct (H _ _ _ _ _ El) as (H1 & H2). split; [|exact H2].
    eapply bl_in with (abs := []); [exact Hc | exact Hp | cbn [abs_group frag_children]; rewrite app_nil_r; reflexivity | rewrite Hst, Ec; exact H1 |].
    rewrite Hst, Ep. constructor.
Qed.
Lemma boxes_page cb : forall l, Forall blb_page l -> fold_right (fun x Q => wf_blb x /\ Q) True l -> forall fs gss fs1,
  framed_list (map layout_blb l) cb fs gss -> Forall2 (fun f f1 => exists d, f1 = put_top d f) fs fs1 ->
  boxes_laid cb l fs1 /\ forall r, Forall2 came (flat_map escaping_blb l) (ranked r gss).
Proof.
  induction 1 as [|b l Hb Hl IH]; intros W fs gss fs1 (F & L1 & L2) S.
  - destruct fs, gss; try discriminate. inversion S; subst. split; constructor.
  - destruct W as [W1 W2]. destruct fs as [|f fs], gss as [|g gss]; try discriminate. inversion S as [|? f1 ? fs2 [d S1] S2]; subst.
    cbn [map combine] in F. inversion F as [|? ? ? ? F1 F2]; subst. cbn [fst snd] in F1.
    destruct (IH W2 fs gss fs2) as [I1 I2]; [split; [exact F2|]; cbn in L1, L2; split; congruence | exact S2|].
    destruct (Hb W1) as [_ Hb2]. destruct (Hb2 _ _ _ _ _ _ (F1 O [] false)) as (B1 & g' & B2 & B3). cbn [app] in B2.
    split; [constructor; [apply box_put; exact B1 | exact I1]|].
    intros r. cbn [flat_map ranked]. apply Forall2_app; [|apply I2].
    assert (E : map (with_rank r) g = map (with_rank r) g').
    { rewrite <- B2, map_map. apply map_ext. intros a. reflexivity. }
    rewrite E. clear - B3. induction B3 as [|sc a l' g' H1 H2 IH]; [constructor|]. cbn [map]. constructor; [apply came_rank; exact H1 | exact IH].
Qed.
Lemma page_all : (forall b, blb_page b) /\ (forall c, container_page c) /\ (forall c, bfc_page c).
Proof.
  assert (H1 : forall st c, container_page c -> blb_page (SameFC st c)).
  { intros st c Hc W. destruct (Hc W) as [Hg Hl]. cbn [escaping_blb]. split; [destruct (positioned st); [constructor | exact Hg]|].
    intros cb rank abs floats f abs' E. pose proof (HP _ _ _ _ _ _ _ W eq_refl E) as Hp. cbn [BlockModel.layout_blb] in E.
    eapply (in_flow_page _ _ _ _ _ _ _ _ c); [exact E | reflexivity | exact Hg | exact Hp | reflexivity | reflexivity |].
    intros cb' abs0 col fl abs1 El. exact (Hl _ _ _ _ _ _ _ El). }
  assert (H2 : forall st c, bfc_page c -> blb_page (BAbspos st c)).
  { intros st c Hc W. cbn [escaping_blb]. split; [constructor; [apply abs_page; assumption | constructor]|].
    intros cb rank abs floats f abs' E. cbn [BlockModel.layout_blb] in E. injection E as <- <-. split; [apply bl_out; reflexivity|].
    eexists. split; [reflexivity|]. constructor; [|constructor]. split; [eexists; reflexivity|]. split; [eexists; reflexivity | reflexivity]. }
  assert (H3 : forall st c, bfc_page c -> blb_page (BFloat st c)).
  { intros st c _ _. cbn [escaping_blb]. split; [constructor|]. intros cb rank abs floats f abs' E. cbn [BlockModel.layout_blb] in E.
    injection E as <- <-. split; [apply bl_out; reflexivity|]. exists []. rewrite app_nil_r. split; [reflexivity | constructor]. }
  assert (H4 : forall st c, bfc_page c -> blb_page (Indep st c)).
  { intros st [fl0 c] Hc W. destruct (Hc W) as [Hg Hl]. cbn [escaping_blb]. split; [destruct (positioned st); [constructor | exact Hg]|].
    intros cb rank abs floats f abs' E. pose proof (HP _ _ _ _ _ _ _ W eq_refl E) as Hp. cbn [BlockModel.layout_blb] in E.
    eapply (in_flow_page _ _ _ _ _ _ _ _ c); [exact E | reflexivity | exact Hg | exact Hp | reflexivity | reflexivity |].
    intros cb' abs0 col fl abs1 El. apply bfc_inv in El. destruct El as (fl1 & El & Ef & _). rewrite Ef. exact (Hl _ _ _ _ _ _ _ El). }
  assert (H5 : forall l, Forall blb_page l -> container_page (BlockLevelBoxes l)).
  { intros l Hl W. cbn [escaping]. split.
    - clear - Hl W. cbn [wf_container] in W. induction Hl as [|b l Hb Hl IH]; [constructor|]. destruct W as [W1 W2]. cbn [flat_map].
      apply Forall_app. split; [exact (proj1 (Hb W1)) | exact (IH W2)].
    - intros cb rank abs floats col fl abs' E. change (layout_block_level_children (map layout_blb l) cb rank abs floats col = Ok (fl, abs')) in E.
      destruct (children_result _ _ _ _ _ _ _ _ (wf_framed _ _ _ l W) E) as (fs & gss & s1 & F & Ep & _).
      destruct (boxes_page cb l Hl W fs gss (fl_fragments fl) F (place_all_put _ _ _ _ Ep)) as [I1 I2].
      split; [constructor; exact I1|]. rewrite (children_formula _ _ _ _ _ _ _ _ _ _ F Ep) in E.
      destruct (mapR _ _) as [late| |] eqn:Em; cbn [bind] in E; try discriminate. injection E as _ <-.
      exists late. split; [reflexivity|]. eapply came_adjusts; [exact (I2 O) | exact Em]. }
  assert (H6 : forall st l, Forall (ilb_every (fun _ => bfc_page)) l -> container_page (InlineFC st l)).
  { intros st l Hl W. change (escaping (InlineFC st l)) with (flat_map (@esc_lay bfc) l). cbn [wf_container] in W. split.
    - clear - HA Hl W. induction Hl as [|b l Hb Hl IH]; [constructor|]. destruct W as [W1 W2]. cbn [flat_map].
      apply Forall_app. split; [|exact (IH W2)]. apply ilb_every_esc in Hb. apply ilb_every_esc in W1.
      rewrite Forall_forall in *. intros [st' c'] Hin. apply abs_page; [exact (proj2 (W1 _ Hin)) | exact (Hb _ Hin)].
    - intros cb rank abs floats col fl abs' E.
      change (ifc_layout m_ascent m_descent m_width st (map (ilb_map abs_box) l) cb rank abs = Ok (fl, abs')) in E.
      split; [constructor; exact (HL _ _ _ _ _ _ _ W E)|]. unfold ifc_layout in E. destruct (ifc_loop _ _ _ _ _ _ _ _ _) as [s| |] eqn:El; cbn [bind] in E; try discriminate.
      injection E as _ <-. apply loop_met in El; [|reflexivity]. destruct El as (g & G1 & G2). exists g. split; [exact G1|].
      cbn [flat_map] in G2. rewrite app_nil_r, esc_lays_map in G2. clear - G2. remember (map _ _) as ml eqn:Em. revert Em.
      generalize (flat_map (@esc_lay bfc) l). induction G2 as [|sl a ml g (corner & r & H1) H2 IH]; intros l0 Em; destruct l0 as [|[st c] l0]; try discriminate; [constructor|].
      cbn [map fst snd] in Em. injection Em as -> Em. constructor; [|apply IH; exact Em].
      rewrite H1. split; [eexists; reflexivity|]. split; [eexists; reflexivity | reflexivity]. }
  assert (H7 : forall fl c, container_page c -> bfc_page (BFC fl c)) by (intros fl c H; exact H).
  split; [|split].
  - apply (blb_tree blb_page container_page bfc_page); assumption.
  - apply (container_tree blb_page container_page bfc_page); assumption.
  - apply (bfc_tree blb_page container_page bfc_page); assumption.
Qed.
Theorem page_everywhere floats c viewport fs : wf_container c ->
  layout_root m_ascent m_descent m_width (BFC floats c) viewport = Ok fs -> page_laid_with P A L viewport c fs.
Proof.
  intros W E. unfold layout_root in E. destruct (layout_bfc _ _ _ _) as [[fl abs]| |] eqn:El; cbn [bind] in E; try discriminate.
  destruct (mapR _ abs) as [fs'| |] eqn:Em; cbn [bind] in E; try discriminate. injection E as <-.
  apply bfc_inv in El. destruct El as (fl1 & El & -> & _).
  destruct (proj1 (proj2 page_all) c W) as [Hg Hl]. destruct (Hl _ _ _ _ _ _ _ El) as (Hc & g & Eg & Hcame). cbn [app] in Eg. subst abs.
  exists (fl_fragments fl1), fs'. split; [reflexivity|]. split; [exact Hc|]. eapply came_laid; eassumption.
Qed.
End Page.
End Any.
