(** Static positions: what the code does, for every box of a page. *)
From Verif Require Import BlockModel InlineSpec InlineProofs InlineFacts GeomSpec BlockSpec BlockFrame BlockGen BlockStack BlockProofs BlockFlow BlockAbs BlockMove PageSpec PageProofs StaticSpec.
Local Open Scope len_scope.

(* ------------------------------------------------------------------ *)
(** * In lines *)
Section Lines.
Variable m_ascent m_descent : style -> Len.
Variable m_width : style -> text -> Len.
Variable cb : cblock.
Variable ta : text_align.
Variable rank : nat.
Notation cbw := (cb_inline cb).
Notation trans := (trans m_ascent m_descent m_width cb ta rank).
Notation trace := (trace m_ascent m_descent m_width cb ta rank).
Notation ifc_loop := (ifc_loop m_ascent m_descent m_width).

Definition grows (s s' : ifc) (k : nat) : Prop :=
  (k = O /\ is_lines s' = is_lines s) \/
  exists f rest, ln_boxes (is_lines s') = ln_boxes (is_lines s) ++ f :: rest /\ k = Datatypes.S (List.length rest) /\
    v_block (frag_start f) = ln_next (is_lines s).
Lemma grows_refl s : grows s s O. Proof. left. split; reflexivity. Qed.
Lemma grows_length s s' k : grows s s' k -> List.length (ln_boxes (is_lines s')) = (List.length (ln_boxes (is_lines s)) + k)%nat.
Proof. intros [[-> ->]|(f & rest & -> & -> & _)]; [lia|]. rewrite app_length. cbn. reflexivity. Qed.
Lemma grows_trans s s1 s2 k1 k2 : grows s s1 k1 -> grows s1 s2 k2 -> grows s s2 (k1 + k2).
Proof.
  intros [[-> E]|(f & rest & E1 & -> & E2)] H2.
  - destruct H2 as [[-> E']|(f & rest & E1 & -> & E2)]; [left; split; [reflexivity | congruence] | right].
    exists f, rest. rewrite <- E. split; [exact E1|]. split; [lia | exact E2].
  - right. destruct H2 as [[-> E']|(f' & rest' & E1' & -> & E2')].
    + exists f, rest. rewrite E'. split; [exact E1|]. split; [lia | exact E2].
    + exists f, (rest ++ f' :: rest'). rewrite E1', E1, <- app_assoc. split; [reflexivity|]. split; [rewrite app_length; cbn; lia | exact E2].
Qed.
Lemma breaks_app a b : breaks (a ++ b) = (breaks a + breaks b)%nat.
Proof. unfold breaks. rewrite map_app, count_occ_app. reflexivity. Qed.
Lemma trans_grows s e s' : trans s e s' -> grows s s' (breaks e).
Proof.
  intros H. destruct H as [st fo sg nlf s H | s | st first last s | s p stack p1 pos H1 H2 | s st lay corner].
  - assert (E : breaks (piece_events st fo (seg_glyphs sg)) = O) by (destruct (seg_glyphs sg); reflexivity). rewrite E. left. split; [reflexivity|].
    unfold add_text. destruct (seg_advance (m_width fo) sg) as [w sh]. destruct (line_ascent_descent _ _ _ _). destruct (negb (seg_empty sh)); reflexivity.
  - right. unfold finish_line. destruct (finish_partials _ _ _) as [[stack top] pos]. cbn [is_lines lines_finish ln_boxes].
    eexists _, []. split; [reflexivity|]. split; reflexivity.
  - left. split; reflexivity.
  - left. split; reflexivity.
  - left. split; reflexivity.
Qed.
Lemma trace_grows s e s' : trace s e s' -> grows s s' (breaks e).
Proof. induction 1 as [s|s e s1 es s2 H1 H2 IH]; [apply grows_refl|]. rewrite breaks_app. eapply grows_trans; [apply trans_grows; exact H1 | exact IH]. Qed.

Definition corner_x (st : style) (x : Len) : Len := match s_specified_display st with DispBox OInline _ => x | _ => l0 end.
Definition met_at (s' : ifc) (sp : style * abs_lay * (nat * Len)) (a : abs_frag) : Prop :=
  exists y, a = abs_box_layout (fst (fst sp)) (snd (fst sp)) (Vec2 (corner_x (fst (fst sp)) (snd (snd sp))) y) rank /\
    forall sF k, grows s' sF (Datatypes.S k) -> exists line, nth_error (ln_boxes (is_lines sF)) (fst (snd sp)) = Some line /\ v_block (frag_start line) = y.
Lemma met_later s1 s' k sp a : grows s1 s' k -> met_at s1 sp a -> met_at s' sp a.
Proof.
  intros G (y & H1 & H2). exists y. split; [exact H1|]. intros sF k' G'. apply (H2 sF (k + k')%nat).
  replace (Datatypes.S (k + k')) with (k + Datatypes.S k')%nat by lia. eapply grows_trans; eassumption.
Qed.
Lemma met_laters s1 s' k sps g : grows s1 s' k -> Forall2 (met_at s1) sps g -> Forall2 (met_at s') sps g.
Proof. intros G. induction 1; constructor; [eapply met_later; eassumption | assumption]. Qed.

Lemma run_lines_any ok st fo pos t ls : run_lines m_width ok cbw st fo pos t ls -> run_lines m_width (fun _ _ _ => True) cbw st fo pos t ls.
Proof. intros H. destruct H as [H|ls H1 H2 H3]; [apply rl_nowrap; exact H|]. apply rl_wrap; [exact H1 | exact H2|]. eapply wrapped_weaken; [|exact H3]. intros; exact I. Qed.
Lemma text_abs st fo t s s1 : text_run_layout m_ascent m_descent m_width cb ta st fo t s = Ok s1 -> is_abs s1 = is_abs s.
Proof. intros H. exact (text_run_keeps_abs _ _ _ _ _ _ _ _ _ _ H). Qed.

Lemma loop_spots : forall n (l : list (ilb abs_lay)), (boxes_steps l <= n)%nat -> abspos_oks l ->
  forall r rs s fuel, exists s' es sps g,
    ifc_loop (boxes_steps l + fuel) cb ta rank ((l ++ r) :: rs) s = ifc_loop fuel cb ta rank (r :: rs) s' /\
    trace s es s' /\ boxes_spots m_width cbw (List.length (ln_boxes (is_lines s))) (is_pos s) l es sps /\
    Forall2 same_box (is_stack s) (is_stack s') /\
    is_abs s' = is_abs s ++ g /\ Forall2 (met_at s') sps g.
Proof.
  induction n as [n IHn] using lt_wf_ind. intros l. destruct l as [|b bs]; intros Hn Hok r rs s fuel.
  { exists s, [], [], []. rewrite app_nil_r. repeat split; [constructor | constructor | apply same_refl | constructor]. }
  cbn [abspos_oks fold_right] in Hok. destruct Hok as [Hb Hbs].
  change (boxes_steps (b :: bs)) with (ilb_steps b + boxes_steps bs)%nat in *.
  assert (Hrest : forall s1 e1 sp1 g1, trace s e1 s1 -> box_spots m_width cbw (List.length (ln_boxes (is_lines s))) (is_pos s) b e1 sp1 ->
      Forall2 same_box (is_stack s) (is_stack s1) -> is_abs s1 = is_abs s ++ g1 -> Forall2 (met_at s1) sp1 g1 ->
      exists s' es sps g, ifc_loop (boxes_steps bs + fuel) cb ta rank ((bs ++ r) :: rs) s1 = ifc_loop fuel cb ta rank (r :: rs) s' /\
        trace s es s' /\ boxes_spots m_width cbw (List.length (ln_boxes (is_lines s))) (is_pos s) (b :: bs) es sps /\ Forall2 same_box (is_stack s) (is_stack s') /\
        is_abs s' = is_abs s ++ g /\ Forall2 (met_at s') sps g).
  { intros s1 e1 sp1 g1 T1 B1 S1 A1 M1.
    assert (Hlt : (boxes_steps bs < n)%nat) by (destruct b; cbn [ilb_steps] in Hn; lia).
    destruct (IHn _ Hlt bs (le_n _) Hbs r rs s1 fuel) as (s' & es & sps & g & H1 & H2 & H3 & H4 & H5 & H6).
    exists s', (e1 ++ es), (sp1 ++ sps), (g1 ++ g). split; [exact H1|]. split; [eapply trace_app; eassumption|]. split; [|split; [|split]].
    - apply bps_cons; [exact B1|]. rewrite <- (trace_pos _ _ _ _ _ _ _ _ _ T1), <- (grows_length _ _ _ (trace_grows _ _ _ T1)). exact H3.
    - eapply same_trans; eassumption.
    - rewrite H5, A1, app_assoc. reflexivity.
    - apply Forall2_app; [|exact H6]. eapply met_laters; [apply trace_grows; exact H2 | exact M1]. }
  destruct b as [st first last ch | st t fo | st lay | st lay].
  - change (ilb_steps (InlineBox st first last ch)) with (Datatypes.S (Datatypes.S (boxes_steps ch))) in *.
    replace (Datatypes.S (Datatypes.S (boxes_steps ch)) + boxes_steps bs + fuel)%nat with (Datatypes.S (boxes_steps ch + Datatypes.S (boxes_steps bs + fuel)))%nat by lia.
    cbn [InlineModel.ifc_loop hd tl app].
    set (s0 := start_layout m_ascent m_descent cb st first last s).
    assert (Hlt : (boxes_steps ch < n)%nat) by lia.
    destruct (IHn _ Hlt ch (le_n _) Hb [] ((bs ++ r) :: rs) s0 (Datatypes.S (boxes_steps bs + fuel))) as (s1 & es & sps & g & H1 & H2 & H3 & H4 & H5 & H6).
    rewrite app_nil_r in H1. rewrite H1. clear H1. cbn [InlineModel.ifc_loop hd tl].
    destruct (start_layout_end_mark m_ascent m_descent cb st first last s) as (p & P1 & P2 & P3 & P4).
    fold s0 in P1. rewrite P1 in H4. inversion H4 as [|? q ? stk [Q1 [Q2 Q3]] Hstk E1 E2]; subst.
    destruct (finish_layout q (is_cur s1) (is_pos s1) false) as [p1 pos1] eqn:Ef.
    assert (T0 : trans s1 [EMark (end_mark cbw (pt_style p) (pt_last p))] (Ifc (is_lines s1) pos1 stk (pt_parent p1) (is_abs s1))).
    { rewrite <- P4, Q3. eapply tr_close; [symmetry; exact E2 | exact Ef]. }
    assert (T1 : trace s (EMark (start_mark cbw (pt_style p) first) :: es ++ [EMark (end_mark cbw (pt_style p) (pt_last p))])
       (Ifc (is_lines s1) pos1 stk (pt_parent p1) (is_abs s1))).
    { change (EMark (start_mark cbw (pt_style p) first) :: ?x) with ([EMark (start_mark cbw (pt_style p) first)] ++ x).
      eapply tc_cons; [apply tr_open with (last := pt_last p)|]. eapply trace_app; [exact H2|]. apply trace_one. exact T0. }
    edestruct (Hrest _ _ sps g T1) as (s' & es' & sps' & g' & G).
    + apply bp_box. unfold s0 in H3. rewrite (trans_pos _ _ _ _ _ _ _ _ _ (tr_open m_ascent m_descent m_width cb ta rank (pt_style p) first (pt_last p) s)) in H3. exact H3.
    + exact Hstk.
    + exact H5.
    + eapply met_laters; [apply trans_grows; exact T0 | exact H6].
    + exists s', es', sps', g'. exact G.
  - cbn [ilb_steps Nat.add InlineModel.ifc_loop hd tl app].
    destruct (text_run_ok m_ascent m_descent m_width cb ta rank st fo t s) as (s1 & ls & H1 & H2 & H3 & H4). rewrite H1. cbn [bind].
    eapply (Hrest _ _ [] []); [exact H3 | apply bp_text; eapply run_lines_any; exact H2 | exact H4 | rewrite app_nil_r; eapply text_abs; exact H1 | constructor].
  - cbn [ilb_steps Nat.add InlineModel.ifc_loop hd tl app].
    cbn [abspos_ok] in Hb. unfold inline_static_corner. destruct (s_specified_display st) as [| |o i] eqn:Ed; try contradiction.
    destruct o; cbn [bind]; (eapply Hrest; [apply trace_one, tr_abs | apply bp_abs | apply same_refl | reflexivity|]);
      (constructor; [|constructor]); (eexists; split; [unfold corner_x; cbn [fst snd]; rewrite Ed; reflexivity|]);
      (intros sF k [[E _]|(f & rest & E1 & _ & E2)]; [discriminate|]); exists f; cbn [fst snd]; rewrite E1;
      (rewrite nth_error_app2 by apply le_n); rewrite Nat.sub_diag; (split; [reflexivity | exact E2]).
  - cbn [ilb_steps Nat.add InlineModel.ifc_loop hd tl app].
    eapply (Hrest _ _ [] []); [constructor | apply bp_float | apply same_refl | rewrite app_nil_r; reflexivity | constructor].
Qed.
End Lines.

(** a whole inline formatting context *)
Definition spot_map {C D} (F : style -> C -> D) (s : style * C * (nat * Len)) : style * D * (nat * Len) :=
  (fst (fst s), F (fst (fst s)) (snd (fst s)), snd s).
Lemma spots_unmap {C D} (F : style -> C -> D) mw cbw : forall n (l : list (ilb C)), (boxes_steps l <= n)%nat ->
  forall k pos es sps', boxes_spots mw cbw k pos (map (ilb_map F) l) es sps' ->
  exists sps, boxes_spots mw cbw k pos l es sps /\ sps' = map (spot_map F) sps.
Proof.
  induction n as [n IHn] using lt_wf_ind. intros l. destruct l as [|b bs]; intros Hn k pos es sps' H; cbn [map] in H.
  { inversion H; subst. exists []. split; constructor. }
  change (boxes_steps (b :: bs)) with (ilb_steps b + boxes_steps bs)%nat in *.
  inversion H as [|? ? ? ? e es2 sp sps H1 H2]; subst.
  assert (Hlt : (boxes_steps bs < n)%nat) by (destruct b; cbn [ilb_steps] in Hn; lia).
  destruct (IHn _ Hlt bs (le_n _) _ _ _ _ H2) as (sps2 & G1 & ->).
  assert (K : exists sp1, box_spots mw cbw k pos b e sp1 /\ sp = map (spot_map F) sp1).
  { destruct b as [st first last ch | st t fo | st c | st c]; cbn [ilb_map] in H1; inversion H1; subst.
    - change (ilb_steps (InlineBox st first last ch)) with (Datatypes.S (Datatypes.S (boxes_steps ch))) in *.
      assert (Hl2 : (boxes_steps ch < n)%nat) by lia.
      match goal with HH : boxes_spots _ _ _ _ _ _ _ |- _ => first [destruct (IHn _ Hl2 ch (le_n _) _ _ _ _ HH) as (sp1 & K1 & ->)] end.
      exists sp1. split; [constructor; exact K1 | reflexivity].
    - exists []. split; [constructor; assumption | reflexivity].
    - eexists. split; [constructor | reflexivity].
    - exists []. split; [constructor | reflexivity]. }
  destruct K as (sp1 & K1 & ->). exists (sp1 ++ sps2). split; [constructor; assumption | rewrite map_app; reflexivity].
Qed.

Section Ifc.
Variable m_ascent m_descent : style -> Len.
Variable m_width : style -> text -> Len.
Lemma ifc_spots parent boxes cb rank abs fl abs' : abspos_oks boxes ->
  ifc_layout m_ascent m_descent m_width parent boxes cb rank abs = Ok (fl, abs') ->
  exists es sps g, boxes_spots m_width (cb_inline cb) O l0 boxes es sps /\ map line_marks (fl_fragments fl) = cut [] es /\
    abs' = abs ++ g /\
    Forall2 (fun sp a => exists line, nth_error (fl_fragments fl) (fst (snd sp)) = Some line /\
      a = abs_box_layout (fst (fst sp)) (snd (fst sp)) (Vec2 (corner_x (fst (fst sp)) (snd (snd sp))) (v_block (frag_start line))) rank) sps g.
Proof.
  intros Hok E. unfold ifc_layout in E. set (ta := sv parent Ltext_align) in *.
  destruct (loop_spots m_ascent m_descent m_width cb ta rank (boxes_steps boxes) boxes (le_n _) Hok [] [] (ifc_start m_ascent m_descent parent abs) 1)
    as (s & es & sps & g & H1 & H2 & H3 & H4 & H5 & H6).
  rewrite app_nil_r in H1. replace (boxes_steps boxes + 1)%nat with (Datatypes.S (boxes_steps boxes)) in H1 by lia. rewrite H1 in E.
  cbn [ifc_loop hd] in E. cbn [ifc_start is_stack] in H4. assert (E0 : is_stack s = []) by (inversion H4; congruence). rewrite E0 in E. cbn [bind] in E. injection E as <- <-.
  cbn [fl_fragments]. exists es, sps, g. split; [exact H3|].
  pose proof (tr_break m_ascent m_descent m_width cb ta rank s) as Tb.
  split; [|split].
  - pose proof (trace_exec _ _ _ _ _ _ _ _ _ H2) as X. pose proof (exec_cut es (done (ifc_start m_ascent m_descent parent abs)) (pend (ifc_start m_ascent m_descent parent abs)) (opens (ifc_start m_ascent m_descent parent abs))) as Y.
    rewrite X in Y. cbn in Y.
    pose proof (trans_exec _ _ _ _ _ _ _ _ _ Tb) as Z. cbn [exec] in Z.
    unfold opens in Z. rewrite E0 in Z. cbn [map] in Z. rewrite app_nil_r in Z. injection Z as Z1 Z2 Z3.
    unfold done in Z1 at 2. rewrite <- Z1, Y. destruct (cut [] es) eqn:Ec; [exfalso; revert Ec; apply cut_nonempty | reflexivity].
  - rewrite finish_line_is_abs. exact H5.
  - clear - H6 Tb. apply trans_grows in Tb. induction H6 as [|sp a sps g (y & M1 & M2) H6 IH]; constructor; [|exact IH].
    destruct (M2 _ _ Tb) as (line & L1 & L2). exists line. split; [exact L1|]. rewrite L2. exact M1.
Qed.
End Ifc.

(* ------------------------------------------------------------------ *)
(** * In a page *)
Lemma abspos_ok_map {D} (F : style -> bfc -> D) : forall b : ilb bfc, ilb_every (fun st c => generates_box st /\ wf_bfc c) b -> abspos_ok (ilb_map F b).
Proof.
  fix IH 1. intros b H. destruct b as [st fi la_ ch|st t fo|st c|st c]; try exact I.
  - cbn [ilb_map abspos_ok]. cbn [ilb_every] in H. induction ch as [|x ch IHc]; [exact I|]. cbn [map fold_right] in *. destruct H as [H1 H2].
    split; [exact (IH x H1) | exact (IHc H2)].
  - cbn [ilb_map abspos_ok]. destruct H as [H _]. unfold generates_box in H. destruct (s_specified_display st); try contradiction; exact I.
Qed.
Lemma abspos_oks_map {D} (F : style -> bfc -> D) st l : wf_container (InlineFC st l) -> abspos_oks (map (ilb_map F) l).
Proof. cbn [wf_container]. induction l as [|b l IH]; intros W; [exact I|]. destruct W as [W1 W2]. split; [apply abspos_ok_map; exact W1 | exact (IH W2)]. Qed.

Section Page.
Variable m_ascent m_descent : style -> Len.
Variable m_width : style -> text -> Len.
Notation layout_blb := (layout_blb m_ascent m_descent m_width).
Notation layout_container := (layout_container m_ascent m_descent m_width).
Notation layout_bfc := (layout_bfc m_ascent m_descent m_width).
Notation abs_box := (abs_box m_ascent m_descent m_width).
Notation spots := (spots m_width code_spot code_line_spot).
Notation spots_from := (spots_from m_width code_spot code_line_spot).
Notation kept := (kept m_width code_spot code_line_spot code_stays).
Notation kept_box := (kept_box m_width code_spot code_line_spot code_stays).
Notation kept_boxes := (kept_boxes m_width code_spot code_line_spot code_stays).
Notation kept_abs := (kept_abs m_width code_spot code_line_spot code_stays).

Definition came_from (s : spot) (a : abs_frag) : Prop :=
  af_inline a = absolute_box_offsets (v_inline (snd s)) (sv (fst (fst s)) Lleft) (sv (fst (fst s)) Lright) /\
  af_block a = absolute_box_offsets (v_block (snd s)) (sv (fst (fst s)) Ltop) (sv (fst (fst s)) Lbottom) /\
  af_layout a = abs_box (fst (fst s)) (snd (fst s)).
Definition lands (s : spot) (size : vec2 Len) (f : fragment) : Prop :=
  abs_box (fst (fst s)) (snd (fst s))
    (absolute_box_offsets (v_inline (snd s)) (sv (fst (fst s)) Lleft) (sv (fst (fst s)) Lright))
    (absolute_box_offsets (v_block (snd s)) (sv (fst (fst s)) Ltop) (sv (fst (fst s)) Lbottom)) size = Ok f.
Lemma lands_stays pad s size f : lands s size f -> code_stays pad (fst (fst s)) (snd s) f.
Proof.
  intros E. apply abs_layout_axes in E. destruct E as (ch & r & p & bd & m & _ & _ & _ & _ & _ & _ & _ & _ & _ & Hi & Hb).
  split; intros [E1 E2]; [rewrite E1, E2 in Hi; exact Hi | rewrite E1, E2 in Hb; exact Hb].
Qed.
Lemma shift_offset d x s e : shift_static d (absolute_box_offsets x s e) = absolute_box_offsets (x + d) s e.
Proof. unfold absolute_box_offsets. destruct (lpa_non_auto s), (lpa_non_auto e); reflexivity. Qed.
Lemma came_adjusted fs r s a a' f : came_from s a -> nth_error fs (af_rank a) = Some f -> adjust_one fs r a = Ok a' -> came_from (moved_by (frag_start f) s) a'.
Proof.
  unfold adjust_one. intros (Hx & Hy & Hl) -> E. destruct (frag_rect f) as [re| |] eqn:Ef; cbn [bind] in E; try discriminate.
  assert (Er : frag_start f = r_start re) by (destruct f; try discriminate; injection Ef as ->; reflexivity).
  injection E as <-. unfold came_from, moved_by. cbn [af_inline af_block af_layout fst snd]. rewrite Hx, Hy, !shift_offset, Er. split; [|split].
  - reflexivity.
  - reflexivity.
  - exact Hl.
Qed.

Definition good_spot (sc : style * bfc) : Prop := forall pad p size f, lands (sc, p) size f -> kept_abs pad [(sc, p)] [f].
Lemma kept_abs_cons pad s f l fs : kept_abs pad [s] [f] -> kept_abs pad l fs -> kept_abs pad (s :: l) (f :: fs).
Proof. intros H Hl. inversion H; subst. econstructor; eassumption. Qed.
Lemma came_kept pad size : forall l g fs, Forall (fun s => good_spot (fst s)) l -> Forall2 came_from l g ->
  mapR (fun a => af_layout a (af_inline a) (af_block a) size) g = Ok fs -> kept_abs pad l fs.
Proof.
  intros l g fs Hg H. revert fs. induction H as [|s a l g (H1 & H2 & H3) H4 IH]; intros fs E; cbn [mapR] in E; [injection E as <-; constructor|].
  inversion Hg as [|? ? G1 G2]; subst.
  destruct (af_layout a _ _ _) as [f| |] eqn:Ea; cbn [bind] in E; try discriminate.
  destruct (mapR _ g) as [fs1| |]; cbn [bind] in E; try discriminate. injection E as <-.
  apply kept_abs_cons; [|apply IH; [exact G2 | reflexivity]]. destruct s as [sc p]. apply (G1 pad p size). unfold lands. cbn [fst snd] in *.
  rewrite <- H1, <- H2, <- H3. exact Ea.
Qed.
Lemma hosts_kept pad l g fs ch st x s p bd m cm : Forall (fun s => good_spot (fst s)) l -> Forall2 came_from l g ->
  in_positioned_containing_block g fs s p = Ok ch ->
  exists abs, ch = fs ++ abs_group (FBox st ch (Rect x s) p bd m cm) abs /\ kept_abs pad l abs.
Proof.
  intros Hl Hg E. unfold in_positioned_containing_block in E. rewrite (inflate_padding st ch x s p bd m cm) in E.
  destruct g as [|a g].
  - injection E as <-. exists []. inversion Hg; subst. cbn [abs_group]. rewrite app_nil_r. split; [reflexivity | constructor].
  - destruct (mapR _ (a :: g)) as [afs| |] eqn:Ea; cbn [bind] in E; try discriminate. injection E as E.
    exists afs. split.
    + rewrite <- E at 1. f_equal. cbn [mapR] in Ea. destruct (af_layout a _ _ _); cbn [bind] in Ea; try discriminate.
      destruct (mapR _ g); cbn [bind] in Ea; try discriminate. injection Ea as <-. reflexivity.
    + eapply came_kept; eassumption.
Qed.

(** what a box contributes, relative to its own fragment *)
Definition box_spots_at (cb : cblock) (b : blb) (f : fragment) (ps : list spot) : Prop :=
  match b with
  | BAbspos st c => ps = [(st, c, vec2_zero)]
  | BFloat _ _ => ps = []
  | SameFC st c => if positioned st then ps = [] else spots (content_cb cb st f) (true && open_top f) c (frag_children f) ps
  | Indep st (BFC _ c) => if positioned st then ps = [] else spots (content_cb cb st f) (false && open_top f) c (frag_children f) ps
  end.
Definition blb_static (b : blb) : Prop := wf_blb b ->
  forall cb rank abs floats f abs', layout_blb b cb rank abs floats = Ok (f, abs') ->
    kept_box cb b f /\ exists g ps, abs' = abs ++ g /\ Forall2 came_from ps g /\ box_spots_at cb b f ps /\ Forall (fun s => good_spot (fst s)) ps.
Definition container_static (c : bcontainer) : Prop := wf_container c ->
  forall cb rank abs floats col fl abs', layout_container c cb rank abs floats col = Ok (fl, abs') ->
    kept cb c (fl_fragments fl) /\ exists g ps, abs' = abs ++ g /\ Forall2 came_from ps g /\ spots cb col c (fl_fragments fl) ps /\ Forall (fun s => good_spot (fst s)) ps.
Definition bfc_static (c : bfc) : Prop := match c with BFC _ c' => container_static c' end.

Lemma abs_static st c : wf_bfc c -> bfc_static c -> good_spot (st, c).
Proof.
  intros W H pad p0 size f E. destruct c as [fl0 c]. cbn [bfc_static] in H.
  pose proof (lands_stays pad _ _ _ E) as E0. unfold lands in E. cbn [fst snd] in E, E0. apply abs_layout_inv in E.
  destruct E as (x' & isz & bsz & h & fl & abs & ch & p & bd & m & Ef & El & Hh & Ec).
  apply bfc_inv in El. destruct El as (fl1 & El & Efr & _). rewrite Efr in Ec.
  destruct (H W _ _ _ _ _ _ _ El) as (Hk & g & ps & Eg & Hcame & Hs & Hg). cbn [app] in Eg. subst abs.
  destruct (hosts_kept (padding_start f) _ _ _ _ st x' (Vec2 isz bsz) p bd m cb_zero Hg Hcame Ec) as (afs & E1 & E2). rewrite <- Ef in E1.
  econstructor; [exact E0 | rewrite Ef at 1; exact E1 | | | | exact E2 | constructor].
  - destruct Hh as [Hh|Hh]; [left; exact Hh | right]. exists bsz. split; [exact Hh|]. rewrite Ef. reflexivity.
  - rewrite Ef. cbn [r_size v_inline]. exact Hk.
  - rewrite Ef. cbn [r_size v_inline]. exact Hs.
Qed.
Lemma content_cb_shift cb st d f : content_cb cb st (shift_frag d f) = content_cb cb st f. Proof. destruct f as [? ? [? ?] ? ? ? ?| |]; reflexivity. Qed.
Lemma children_shift d f : frag_children (shift_frag d f) = frag_children f. Proof. destruct f as [? ? [? ?] ? ? ? ?| |]; reflexivity. Qed.
Lemma open_top_shift d f : open_top (shift_frag d f) = open_top f. Proof. destruct f as [? ? [? ?] ? ? ? ?| |]; reflexivity. Qed.
Lemma padding_shift d f : padding_start (shift_frag d f) = padding_start f. Proof. destruct f as [? ? [? ?] ? ? ? ?| |]; reflexivity. Qed.
Lemma abs_group_shift d f abs : abs_group (shift_frag d f) abs = abs_group f abs. Proof. destruct f as [? ? [? ?] ? ? ? ?| |]; reflexivity. Qed.
Lemma kept_shift cb b f d : kept_box cb b f -> kept_box cb b (shift_frag d f).
Proof.
  intros H. inversion H as [? ? [? ?] H1|? ? c same ? H1 H2 H3|? ? c same ? ch ps abs H1 H2 H3 H4 H5 H6]; subst; [apply kb_out; exact H1| |].
  - eapply kb_in; [exact H1 | exact H2 |]. rewrite content_cb_shift, children_shift. exact H3.
  - eapply kb_positioned; [exact H1 | exact H2 | rewrite children_shift, abs_group_shift; exact H3 | rewrite content_cb_shift; exact H4 |
      rewrite content_cb_shift, open_top_shift; exact H5 | rewrite padding_shift; exact H6].
Qed.
Lemma spots_at_shift cb b f ps d : box_spots_at cb b f ps -> box_spots_at cb b (shift_frag d f) ps.
Proof. destruct b as [st c|st c|st c|st [fl c]]; cbn [box_spots_at]; try exact (fun H => H); rewrite content_cb_shift, children_shift, open_top_shift; exact (fun H => H). Qed.

Lemma in_flow_static cb st same abs lay f abs' c (b : blb) : layout_in_flow cb st same abs lay = Ok (f, abs') ->
  contents_of b = Some (c, same) -> box_style b = st ->
  (forall cb' abs0 col fl abs1, lay cb' abs0 col = Ok (fl, abs1) -> (same = false -> col = false) ->
     kept cb' c (fl_fragments fl) /\ exists g ps, abs1 = abs0 ++ g /\ Forall2 came_from ps g /\ spots cb' col c (fl_fragments fl) ps /\ Forall (fun s => good_spot (fst s)) ps) ->
  kept_box cb b f /\ exists g ps, abs' = abs ++ g /\ Forall2 came_from ps g /\ Forall (fun s => good_spot (fst s)) ps /\
    if positioned st then ps = [] else spots (content_cb cb st f) (same && open_top f) c (frag_children f) ps.
Proof.
  intros E Hc Hst H. unfold layout_in_flow in E.
  assert (Er : is_relatively_positioned (sv st Lposition) = positioned st) by (unfold positioned; destruct (sv st Lposition); reflexivity). rewrite Er in E.
  assert (Ec : forall ch fl, content_cb cb st (FBox st ch (if_content cb st same fl) (if_padding cb st) (if_border cb st) (if_margin cb st)
            (if_margins cb st same (fl_margins fl))) = if_children_cb cb st).
  { intros ch fl. cbn [content_cb]. unfold if_content. cbn [r_size v_inline]. rewrite <- used_height. reflexivity. }
  assert (Eo : forall ch fl, same && open_top (FBox st ch (if_content cb st same fl) (if_padding cb st) (if_border cb st) (if_margin cb st)
            (if_margins cb st same (fl_margins fl))) = if_start_collapse cb st same) by reflexivity.
  assert (Es : same = false -> if_start_collapse cb st same = false) by (intros ->; reflexivity).
  destruct (positioned st) eqn:Ep.
  - destruct (lay _ [] _) as [[fl abs1]| |] eqn:El; cbn [bind] in E; try discriminate.
    destruct (in_positioned_containing_block _ _ _ _) as [ch| |] eqn:Ei; cbn [bind] in E; try discriminate. injection E as <- <-.
    destruct (H _ _ _ _ _ El Es) as (H1 & g & ps & H2 & H3 & H4 & H5). cbn [app] in H2. subst abs1.
    split; [|exists [], []; rewrite app_nil_r; repeat split; constructor].
    match goal with |- kept_box _ _ ?F => destruct (hosts_kept (padding_start F) _ _ _ _ st (r_start (if_content cb st same fl)) _ _ (if_border cb st) (if_margin cb st) (if_margins cb st same (fl_margins fl)) H5 H3 Ei) as (afs & E1 & E2) end.
    eapply kb_positioned; [exact Hc | rewrite Hst; exact Ep | exact E1 | rewrite Hst, Ec; exact H1 | rewrite Hst, Ec, Eo; exact H4 | exact E2].
  - destruct (lay _ abs _) as [[fl abs1]| |] eqn:El; cbn [bind] in E; try discriminate. injection E as <- <-.
    destruct (H _ _ _ _ _ El Es) as (H1 & g & ps & H2 & H3 & H4 & H5). split.
    + eapply kb_in; [exact Hc | rewrite Hst; exact Ep | rewrite Hst, Ec; exact H1].
    + exists g, ps. split; [exact H2|]. split; [exact H3|]. split; [exact H5|]. rewrite Ec, Eo. exact H4.
Qed.

Lemma combine_app_eq {X Y} (a1 : list X) (b1 : list Y) a2 b2 : List.length a1 = List.length b1 -> combine (a1 ++ a2) (b1 ++ b2) = combine a1 b1 ++ combine a2 b2.
Proof. revert b1. induction a1 as [|x a1 IH]; intros [|y b1] L; try discriminate; [reflexivity|]. cbn. f_equal. apply IH. cbn in L; congruence. Qed.
Lemma mapR_app {X Y} (h : X -> result Y) a b r : mapR h (a ++ b) = Ok r -> exists r1 r2, mapR h a = Ok r1 /\ mapR h b = Ok r2 /\ r = r1 ++ r2.
Proof.
  revert r. induction a as [|x a IH]; intros r E; cbn [app mapR] in E; [exists [], r; split; [reflexivity|]; split; [exact E | reflexivity]|].
  destruct (h x) as [y| |] eqn:Ex; cbn [bind] in E; try discriminate. destruct (mapR h (a ++ b)) as [r0| |]; cbn [bind] in E; try discriminate. injection E as <-.
  destruct (IH _ eq_refl) as (r1 & r2 & H1 & H2 & ->). exists (y :: r1), r2. cbn [mapR]. rewrite Ex. cbn [bind]. rewrite H1. split; [reflexivity|]. split; [exact H2 | reflexivity].
Qed.
Lemma came_all_adjusted fs r n f : nth_error fs n = Some f -> forall ps g late, Forall2 came_from ps g ->
  mapR (adjust_one fs r) (map (with_rank n) g) = Ok late -> Forall2 came_from (map (moved_by (frag_start f)) ps) late.
Proof.
  intros Hn ps g late H. revert late. induction H as [|s a ps g H1 H2 IH]; intros late E; cbn [map mapR] in E; [injection E as <-; constructor|].
  destruct (adjust_one fs r (with_rank n a)) as [a'| |] eqn:Ea; cbn [bind] in E; try discriminate.
  destruct (mapR _ _) as [g1| |]; cbn [bind] in E; try discriminate. injection E as <-.
  cbn [map]. constructor; [|apply IH; reflexivity]. eapply (came_adjusted _ _ _ (with_rank n a)); [exact H1 | exact Hn | exact Ea].
Qed.
Lemma seq_start col : seq_inv col [] (placement_start col).
Proof. unfold seq_inv. cbn. rewrite andb_true_r. split; [reflexivity|]. split; destruct col; reflexivity. Qed.

Lemma boxes_static cb col rank : forall l2, Forall blb_static l2 -> fold_right (fun x Q => wf_blb x /\ Q) True l2 ->
  forall prs P1 s1 fs2 gss2 B s2 late,
  Forall (laid (cb_block cb)) prs -> place_all (map snd prs) (placement_start col) = Ok (P1, s1) ->
  framed_list (map layout_blb l2) cb fs2 gss2 -> place_all fs2 s1 = Ok (B, s2) ->
  mapR (adjust_one (P1 ++ B) rank) (ranked (List.length P1) gss2) = Ok late ->
  kept_boxes cb l2 B /\ exists ps, Forall2 came_from ps late /\ spots_from cb col (combine (map fst prs) P1) l2 B ps /\ Forall (fun s => good_spot (fst s)) ps.
Proof.
  induction 1 as [|b l Hb Hl IH]; intros W prs P1 s1 fs gss B s2 late HL HP (F & L1 & L2) HB Hm.
  { destruct fs, gss; try discriminate. cbn [place_all] in HB. injection HB as <- <-. cbn [ranked mapR] in Hm. injection Hm as <-.
    split; [constructor|]. exists []. repeat split; constructor. }
  destruct W as [W1 W2]. destruct fs as [|f fs], gss as [|g gss]; try discriminate.
  cbn [map combine] in F. inversion F as [|? ? ? ? F1 F2]; subst. cbn [fst snd] in F1.
  cbn [place_all] in HB. destruct (place f s1) as [[f1 s3]| |] eqn:Ef; cbn [bind] in HB; try discriminate.
  destruct (place_all fs s3) as [[B1 s4]| |] eqn:Es; cbn [bind] in HB; try discriminate. injection HB as <- <-.
  cbn [ranked] in Hm. apply mapR_app in Hm. destruct Hm as (late1 & late2 & M1 & M2 & ->).
  destruct (Hb W1 _ _ _ _ _ _ (F1 O [] false)) as (K & g' & ps & Eg & C & SP & G). cbn [app] in Eg.
  destruct (place_shift _ _ _ _ Ef) as (d & Ed).
  assert (Hlaid : laid (cb_block cb) (b, f)) by (exact (laid_all m_ascent m_descent m_width b W1 cb O [] false f _ (F1 O [] false))).
  assert (LP : List.length (map fst prs) = List.length P1).
  { pose proof (place_all_shift _ _ _ _ HP) as X. rewrite map_length. apply Forall2_len in X. rewrite map_length in X. exact X. }
  assert (E2 : place_all (map snd (prs ++ [(b, f)])) (placement_start col) = Ok (P1 ++ [f1], s3)).
  { rewrite map_app, place_all_app, HP. cbn [bind map snd place_all]. rewrite Ef. reflexivity. }
  destruct (IH W2 (prs ++ [(b, f)]) (P1 ++ [f1]) s3 fs gss B1 s4 late2) as (K2 & ps2 & C2 & SP2 & G2).
  { apply Forall_app. split; [exact HL | constructor; [exact Hlaid | constructor]]. }
  { exact E2. }
  { split; [exact F2|]. cbn in L1, L2. split; congruence. }
  { exact Es. }
  { rewrite <- app_assoc. cbn [app]. rewrite app_length. cbn [List.length]. rewrite Nat.add_1_r. exact M2. }
  split; [constructor; [rewrite Ed; apply kept_shift; exact K | exact K2]|].
  rewrite map_app, (combine_app_eq _ _ _ _ LP) in SP2. cbn [map fst combine] in SP2.
  assert (Hn : nth_error (P1 ++ f1 :: B1) (List.length P1) = Some f1) by (rewrite nth_error_app2, Nat.sub_diag by apply le_n; reflexivity).
  assert (C1 : Forall2 came_from (map (moved_by (frag_start f1)) ps) late1).
  { eapply (came_all_adjusted _ rank _ _ Hn ps g'); [exact C|]. rewrite <- M1. f_equal. rewrite <- Eg, map_map. apply map_ext. intros a. reflexivity. }
  exists (map (moved_by (frag_start f1)) ps ++ ps2). split; [apply Forall2_app; assumption|]. split.
  2:{ apply Forall_app. split; [|exact G2]. clear - G. induction G as [|s ps H1 H2 IHG]; constructor; assumption. }
  apply (spots_at_shift _ _ _ _ d) in SP. rewrite <- Ed in SP.
  destruct b as [st c|st c|st c|st [fl0 c]]; cbn [box_spots_at] in SP.
  - destruct (positioned st) eqn:Ep.
    + subst ps. cbn [map app]. apply sf_positioned; [reflexivity | exact Ep | exact SP2].
    + eapply sf_in; [reflexivity | exact Ep | exact SP | exact SP2].
  - subst ps. cbn [map app]. unfold moved_by at 1. cbn [fst snd].
    assert (Ev : vec2_add vec2_zero (frag_start f1) = Vec2 l0 (pl_pos s1)).
    { unfold laid in Hlaid. cbn [fst snd margin_sets] in Hlaid. destruct f as [| r ch |]; try contradiction. destruct ch; [|contradiction]. subst r.
      cbn [place] in Ef. destruct (leqb _ _); [|discriminate]. injection Ef as <- _. unfold vec2_add, vec2_zero, rect_zero, shift_block. cbn.
      f_equal; ring. }
    rewrite Ev. apply sf_abs; [|exact SP2]. unfold code_spot, last_bottom.
    destruct (place_all_placed (cb_block cb) col prs _ _ _ _ (seq_start col) HL HP) as [Pd _].
    rewrite (placed_bottom _ _ _ _ _ _ _ Pd HL). reflexivity.
  - subst ps. cbn [map app]. apply sf_float. exact SP2.
  - destruct (positioned st) eqn:Ep.
    + subst ps. cbn [map app]. apply sf_positioned; [reflexivity | exact Ep | exact SP2].
    + eapply sf_in; [reflexivity | exact Ep | exact SP | exact SP2].
Qed.

Lemma static_all : (forall b, blb_static b) /\ (forall c, container_static c) /\ (forall c, bfc_static c).
Proof.
  assert (H1 : forall st c, container_static c -> blb_static (SameFC st c)).
  { intros st c Hc W cb rank abs floats f abs' E. cbn [BlockModel.layout_blb] in E.
    destruct (in_flow_static _ _ _ _ _ _ _ c (SameFC st c) E eq_refl eq_refl) as (K & g & ps & A1 & A2 & A3 & A4).
    - intros cb' abs0 col fl abs1 El _. exact (Hc W _ _ _ _ _ _ _ El).
    - split; [exact K|]. exists g, ps. split; [exact A1|]. split; [exact A2|]. split; [exact A4 | exact A3]. }
  assert (H2 : forall st c, bfc_static c -> blb_static (BAbspos st c)).
  { intros st c Hc W cb rank abs floats f abs' E. cbn [BlockModel.layout_blb] in E. injection E as <- <-. split; [apply kb_out; reflexivity|].
    eexists _, [(st, c, vec2_zero)]. split; [reflexivity|]. split; [|split; [reflexivity|]].
    - constructor; [|constructor]. split; [reflexivity|]. split; reflexivity.
    - constructor; [|constructor]. cbn [fst]. apply abs_static; assumption. }
  assert (H3 : forall st c, bfc_static c -> blb_static (BFloat st c)).
  { intros st c _ _ cb rank abs floats f abs' E. cbn [BlockModel.layout_blb] in E. injection E as <- <-. split; [apply kb_out; reflexivity|].
    exists [], []. rewrite app_nil_r. repeat split; constructor. }
  assert (H4 : forall st c, bfc_static c -> blb_static (Indep st c)).
  { intros st [fl0 c] Hc W cb rank abs floats f abs' E. cbn [BlockModel.layout_blb] in E.
    destruct (in_flow_static _ _ _ _ _ _ _ c (Indep st (BFC fl0 c)) E eq_refl eq_refl) as (K & g & ps & A1 & A2 & A3 & A4).
    - intros cb' abs0 col fl abs1 El Hcol. apply bfc_inv in El. destruct El as (fl1 & El & -> & _). rewrite (Hcol eq_refl). exact (Hc W _ _ _ _ _ _ _ El).
    - split; [exact K|]. exists g, ps. split; [exact A1|]. split; [exact A2|]. split; [exact A4 | exact A3]. }
  assert (H5 : forall l, Forall blb_static l -> container_static (BlockLevelBoxes l)).
  { intros l Hl W cb rank abs floats col fl abs' E. change (layout_block_level_children (map layout_blb l) cb rank abs floats col = Ok (fl, abs')) in E.
    destruct (children_result _ _ _ _ _ _ _ _ (wf_framed _ _ _ l W) E) as (fs & gss & s1 & F & Ep & _).
    rewrite (children_formula _ _ _ _ _ _ _ _ _ _ F Ep) in E.
    destruct (mapR _ _) as [late| |] eqn:Em; cbn [bind] in E; try discriminate. injection E as E <-.
    destruct (boxes_static cb col rank l Hl W [] [] (placement_start col) fs gss (fl_fragments fl) s1 late) as (K & ps & A1 & A2 & A3);
      [constructor | reflexivity | exact F | exact Ep | exact Em |].
    split; [constructor; exact K|]. exists late, ps. split; [reflexivity|]. split; [exact A1|]. split; [constructor; exact A2 | exact A3]. }
  assert (H6 : forall st l, Forall (ilb_every (fun _ => bfc_static)) l -> container_static (InlineFC st l)).
  { intros st l Hl W cb rank abs floats col fl abs' E.
    change (ifc_layout m_ascent m_descent m_width st (map (ilb_map abs_box) l) cb rank abs = Ok (fl, abs')) in E.
    split; [constructor|]. apply ifc_spots in E; [|eapply abspos_oks_map; exact W].
    destruct E as (es & sps & g & B1 & B2 & -> & B3). apply (spots_unmap abs_box m_width (cb_inline cb) _ l (le_n _)) in B1.
    destruct B1 as (sps0 & B1 & ->).
    assert (Hsp : forall n (l : list (ilb bfc)), (boxes_steps l <= n)%nat -> forall k pos es sps, boxes_spots m_width (cb_inline cb) k pos l es sps -> map fst sps = flat_map esc_lay l).
    { clear. induction n as [n IHn] using lt_wf_ind. intros l. destruct l as [|b bs]; intros Hn k pos es sps H.
      { inversion H; reflexivity. }
      change (boxes_steps (b :: bs)) with (ilb_steps b + boxes_steps bs)%nat in *.
      inversion H as [|? ? ? ? e es2 sp sps' H1 H2]; subst.
      assert (Hlt : (boxes_steps bs < n)%nat) by (destruct b; cbn [ilb_steps] in Hn; lia).
      rewrite map_app. cbn [flat_map]. f_equal; [|exact (IHn _ Hlt bs (le_n _) _ _ _ _ H2)].
      destruct b as [st first last ch | st t fo | st c | st c]; inversion H1; subst; try reflexivity.
      change (ilb_steps (InlineBox st first last ch)) with (Datatypes.S (Datatypes.S (boxes_steps ch))) in *.
      assert (Hl2 : (boxes_steps ch < n)%nat) by lia. cbn [esc_lay]. eapply (IHn _ Hl2 ch (le_n _)); eassumption. }
    pose proof (Hsp _ l (le_n _) _ _ _ _ B1) as Hfst.
    assert (Hgood : Forall (fun s => good_spot (fst s)) sps0).
    { assert (Hg : Forall good_spot (flat_map esc_lay l)).
      { clear - Hl W. cbn [wf_container] in W. induction Hl as [|b l Hb Hl IH]; [constructor|]. destruct W as [W1 W2]. cbn [flat_map].
        apply Forall_app. split; [|exact (IH W2)]. apply ilb_every_esc in Hb. apply ilb_every_esc in W1.
        rewrite Forall_forall in *. intros [st' c'] Hin. apply abs_static; [exact (proj2 (W1 _ Hin)) | exact (Hb _ Hin)]. }
      rewrite <- Hfst in Hg. clear - Hg. induction sps0 as [|s sps0 IH]; [constructor|]. cbn [map] in Hg. inversion Hg; subst. constructor; [assumption | apply IH; assumption]. }
    assert (K : exists ps, Forall2 came_from ps g /\ Forall2 (line_spot code_line_spot (fl_fragments fl)) sps0 ps /\ Forall (fun s => good_spot (fst s)) ps).
    { clear - B3 Hgood. remember (map (spot_map abs_box) sps0) as ms eqn:Em. revert sps0 Em Hgood.
      induction B3 as [|sp a ms g (line & N & Ea) B3 IH]; intros sps0 Em Hgood; destruct sps0 as [|[[st c] [k x]] sps0]; try discriminate; [exists []; repeat split; constructor|].
      cbn [map] in Em. injection Em as -> Em. inversion Hgood as [|? ? G1 G2]; subst. destruct (IH sps0 eq_refl G2) as (ps & I1 & I2 & I3).
      unfold spot_map in *. cbn [fst snd] in *.
      exists ((st, c, Vec2 (corner_x st x) (v_block (frag_start line))) :: ps). split; [|split; constructor; try assumption].
      - constructor; [|exact I1]. split; [reflexivity|]. split; reflexivity.
      - split; [reflexivity|]. exists line. cbn [fst snd]. split; [exact N|]. unfold code_line_spot, corner_x.
        destruct (s_specified_display st) as [| |[] ?]; reflexivity. }
    destruct K as (ps & K1 & K2 & K3). exists g, ps. split; [reflexivity|]. split; [exact K1|]. split; [|exact K3].
    eapply sp_lines; [exact B1 | exact B2 | exact K2]. }
  assert (H7 : forall fl c, container_static c -> bfc_static (BFC fl c)) by (intros fl c H; exact H).
  split; [|split].
  - apply (blb_tree blb_static container_static bfc_static); assumption.
  - apply (container_tree blb_static container_static bfc_static); assumption.
  - apply (bfc_tree blb_static container_static bfc_static); assumption.
Qed.
Theorem page_static floats c viewport fs : wf_container c ->
  layout_root m_ascent m_descent m_width (BFC floats c) viewport = Ok fs ->
  page_kept m_width code_spot code_line_spot code_stays viewport c fs.
Proof.
  intros W E. unfold layout_root in E. destruct (layout_bfc _ _ _ _) as [[fl abs]| |] eqn:El; cbn [bind] in E; try discriminate.
  destruct (mapR _ abs) as [fs'| |] eqn:Em; cbn [bind] in E; try discriminate. injection E as <-.
  apply bfc_inv in El. destruct El as (fl1 & El & -> & _).
  destruct (proj1 (proj2 static_all) c W _ _ _ _ _ _ _ El) as (Hk & g & ps & Eg & Hcame & Hs & Hg). cbn [app] in Eg. subst abs.
  exists (fl_fragments fl1), ps, fs'. split; [reflexivity|]. split; [exact Hk|]. split; [exact Hs|]. eapply came_kept; eassumption.
Qed.
End Page.

(* ------------------------------------------------------------------ *)
(** * Monotonicity in the places *)
Scheme spots_ind2 := Induction for spots Sort Prop with spots_from_ind2 := Induction for spots_from Sort Prop.
Combined Scheme spots_mut from spots_ind2, spots_from_ind2.
Scheme kept_box_ind4 := Induction for kept_box Sort Prop with kept_ind4 := Induction for kept Sort Prop
  with kept_boxes_ind4 := Induction for kept_boxes Sort Prop with kept_abs_ind4 := Induction for kept_abs Sort Prop.
Combined Scheme kept_mut from kept_box_ind4, kept_ind4, kept_boxes_ind4, kept_abs_ind4.
Section Mono.
Variable m_width : style -> text -> Len.
Variables (S1 S2 : la -> bool -> list (blb * fragment) -> Len -> Prop) (I1 I2 : style -> fragment -> Len -> vec2 Len -> Prop)
  (A1 A2 : vec2 Len -> style -> vec2 Len -> fragment -> Prop).
Hypothesis HS : forall h open pre y, S1 h open pre y -> S2 h open pre y.
Hypothesis HI : forall st line x p, I1 st line x p -> I2 st line x p.
Hypothesis HA : forall pad st p f, A1 pad st p f -> A2 pad st p f.
Lemma spots_mono : (forall cb open c fs ps, spots m_width S1 I1 cb open c fs ps -> spots m_width S2 I2 cb open c fs ps) /\
  (forall cb open pre l fs ps, spots_from m_width S1 I1 cb open pre l fs ps -> spots_from m_width S2 I2 cb open pre l fs ps).
Proof.
  apply (spots_mut m_width S1 I1 (fun cb open c fs ps _ => spots m_width S2 I2 cb open c fs ps)
    (fun cb open pre l fs ps _ => spots_from m_width S2 I2 cb open pre l fs ps)); intros; try (econstructor; eauto; fail).
  econstructor; eauto. clear b e. induction f as [|a b ? ? Hx Hf IHf]; constructor; [|exact IHf].
  destruct Hx as (E & line & En & H). split; [exact E|]. exists line. auto.
Qed.
Lemma kept_mono : (forall cb b f, kept_box m_width S1 I1 A1 cb b f -> kept_box m_width S2 I2 A2 cb b f) /\
  (forall cb c fs, kept m_width S1 I1 A1 cb c fs -> kept m_width S2 I2 A2 cb c fs) /\
  (forall cb l fs, kept_boxes m_width S1 I1 A1 cb l fs -> kept_boxes m_width S2 I2 A2 cb l fs) /\
  (forall pad l fs, kept_abs m_width S1 I1 A1 pad l fs -> kept_abs m_width S2 I2 A2 pad l fs).
Proof.
  destruct spots_mono as [M _].
  apply (kept_mut m_width S1 I1 A1 (fun cb b f _ => kept_box m_width S2 I2 A2 cb b f) (fun cb c fs _ => kept m_width S2 I2 A2 cb c fs)
    (fun cb l fs _ => kept_boxes m_width S2 I2 A2 cb l fs) (fun pad l fs _ => kept_abs m_width S2 I2 A2 pad l fs)); intros;
  try (econstructor; eauto; fail).
Qed.
Lemma page_kept_mono viewport c fs : page_kept m_width S1 I1 A1 viewport c fs -> page_kept m_width S2 I2 A2 viewport c fs.
Proof.
  intros (ch & ps & abs & E & H1 & H2 & H3). exists ch, ps, abs. split; [exact E|].
  split; [apply kept_mono, H1|]. split; [apply spots_mono, H2 | apply kept_mono, H3].
Qed.
End Mono.
Lemma bottom_through h pre : all_through (pair_sets h pre) = true -> last_bottom h pre = l0.
Proof.
  unfold last_bottom. generalize l0 as y. induction pre as [|bf pre IH]; intros y H; [reflexivity|].
  cbn [fold_left pair_sets flat_map] in *. unfold all_through in H. rewrite forallb_app in H. apply andb_prop in H. destruct H as [H1 H2].
  destruct (margin_sets h (fst bf) (snd bf)) as [i|]; [|exact (IH y H2)].
  cbn in H1. rewrite andb_true_r in H1. rewrite H1. exact (IH y H2).
Qed.
