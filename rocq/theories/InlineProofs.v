(** Proofs about inline layout. *)
From Verif Require Import InlineModel InlineSpec InlineWrap.
Local Open Scope len_scope.

Lemma Len_ring : ring_theory l0 (px 1) ladd lmul lsub lneg (@eq Len).
Proof. exact Qcrt. Qed.
Add Ring LenRing : Len_ring.
Ltac lring := ring.
#[global] Arguments ladd : simpl never.
#[global] Arguments lsub : simpl never.
#[global] Arguments lmul : simpl never.
#[global] Arguments lneg : simpl never.
#[global] Arguments lmax : simpl never.
#[global] Arguments lmin : simpl never.
#[global] Arguments lhalf : simpl never.

Section Any.
Context {ar : Arith}.
Section Proofs.
Variable m_ascent m_descent : style -> Len.
Variable m_width : style -> text -> Len.
Variable cb : cblock.
Variable ta : text_align.
Variable rank : nat.

Notation cbw := (cb_inline cb).
Notation add_text := (add_text m_ascent m_descent m_width).
Notation start_layout := (start_layout m_ascent m_descent).
Notation wrap_loop := (wrap_loop m_ascent m_descent m_width).
Notation nowrap_loop := (nowrap_loop m_ascent m_descent m_width).
Notation ifc_loop := (ifc_loop m_ascent m_descent m_width).

Definition line_ok (fo : style) (avail : Len) (p : text) : Prop :=
  space_monotone m_width fo -> fits_or_unbreakable (m_width fo) avail p.

(* ------------------------------------------------------------------ *)
(** * Primitive steps *)

Definition pt_end_mark (p : partial) : mark :=
  if pt_last p then MClose (pt_style p) (s_inline_end (pt_padding p)) (s_inline_end (pt_border p)) (s_inline_end (pt_margin p))
  else close0 (pt_style p).

Inductive trans : ifc -> list event -> ifc -> Prop :=
| tr_text st fo sg nlf s : seg_ok m_width fo sg -> trans s (piece_events st fo (seg_glyphs sg)) (add_text st fo sg nlf s)
| tr_break s : trans s [EBreak] (finish_line cb ta s)
| tr_open st first last s : trans s [EMark (start_mark cbw st first)] (start_layout cb st first last s)
| tr_close s p stack p1 pos : is_stack s = p :: stack -> finish_layout p (is_cur s) (is_pos s) false = (p1, pos) ->
    trans s [EMark (pt_end_mark p)] (Ifc (is_lines s) pos stack (pt_parent p1) (is_abs s))
| tr_abs s st lay corner : trans s [] (push_abs s (abs_box_layout st lay corner rank)).

Inductive trace : ifc -> list event -> ifc -> Prop :=
| tc_nil s : trace s [] s
| tc_cons s e s1 es s2 : trans s e s1 -> trace s1 es s2 -> trace s (e ++ es) s2.
Lemma trace_one s e s1 : trans s e s1 -> trace s e s1.
Proof. intros H. rewrite <- (app_nil_r e). eapply tc_cons; [exact H | constructor]. Qed.
Lemma trace_app s e1 s1 e2 s2 : trace s e1 s1 -> trace s1 e2 s2 -> trace s (e1 ++ e2) s2.
Proof. induction 1; intros H2; [exact H2|]. rewrite <- app_assoc. eapply tc_cons; eauto. Qed.

(* ------------------------------------------------------------------ *)
(** * Positions *)

Lemma events_pos_app pos e1 e2 :
  events_pos m_width pos (e1 ++ e2) = events_pos m_width (events_pos m_width pos e1) e2.
Proof. revert pos. induction e1 as [|[m|] e1 IH]; intros pos; cbn; auto. Qed.
Lemma finish_partials_pos stack : forall lv pos, snd (finish_partials stack lv pos) = pos.
Proof.
  induction stack as [|p rest IH]; intros lv pos; [reflexivity|].
  cbn [finish_partials]. unfold finish_layout. rewrite andb_false_r. cbn [pt_parent].
  specialize (IH (push_fragment (max_assign (pt_parent p) (lv_max_ascent lv) (lv_max_descent lv))
    (FBox (pt_style p) (lv_fragments lv)
      (Rect (Vec2 (v_inline (pt_start p)) (v_block (pt_start p) + (lv_ascent (pt_parent p) - pt_ascent p)))
         (Vec2 (pos - lv_inline_start lv) (pt_ascent p + pt_descent p))) (zero_inline_end (pt_padding p))
      (zero_inline_end (pt_border p)) (zero_inline_end (pt_margin p)) cb_zero)) pos).
  destruct (finish_partials rest _ pos) as [[r' t'] p']. exact IH.
Qed.
Lemma is_pos_finish_line s : is_pos (finish_line cb ta s) = l0.
Proof. unfold finish_line. destruct (finish_partials _ _ _) as [[? ?] ?]. reflexivity. Qed.
Lemma seg_empty_cached w g : seg_empty (Seg g w) = match g with [] => true | _ => false end.
Proof. destruct g as [|c g]; [reflexivity|]. destruct (seg_empty _) eqn:E; [apply seg_empty_iff in E; discriminate | reflexivity]. Qed.

Lemma is_pos_add_text st fo sg nlf s : seg_ok m_width fo sg ->
  is_pos (add_text st fo sg nlf s) = events_pos m_width (is_pos s) (piece_events st fo (seg_glyphs sg)).
Proof.
  intros Hs. unfold InlineModel.add_text. rewrite seg_advance_ok by exact Hs. unfold line_ascent_descent.
  rewrite seg_empty_cached. destruct (seg_glyphs sg) as [|c g]; cbn; reflexivity.
Qed.
(** Text and line breaks move the position as [events_pos] says. *)
Definition no_edge (e : event) : Prop :=
  match e with EMark (MOpen _ _ _ _) | EMark (MClose _ _ _ _) => False | _ => True end.
Lemma trans_text_pos s e s' : trans s e s' -> Forall no_edge e -> is_pos s' = events_pos m_width (is_pos s) e.
Proof.
  intros H He. inversion H as [st fo sg nlf s0 Hs E1 E2 E3 | s0 | st first last s0 | s0 p stack p1 pos Hst Hf | s0 st lay corner]; subst.
  - apply is_pos_add_text; exact Hs.
  - apply is_pos_finish_line.
  - inversion He as [|? ? He1 _]. exfalso; revert He1. unfold start_mark. destruct first; intros [].
  - inversion He as [|? ? He1 _]. exfalso; revert He1. unfold pt_end_mark. destruct (pt_last p); intros [].
  - reflexivity.
Qed.
Lemma trace_text_pos s e s' : trace s e s' -> Forall no_edge e -> is_pos s' = events_pos m_width (is_pos s) e.
Proof.
  induction 1 as [s | s e s1 es s2 H1 H2 IH]; intros He; [reflexivity|]. apply Forall_app in He. destruct He as [He1 He2].
  rewrite IH, (trans_text_pos _ _ _ H1), <- events_pos_app by assumption. reflexivity.
Qed.
Lemma lines_no_edge st fo ls : Forall no_edge (lines_events st fo ls).
Proof.
  assert (Hp : forall p, Forall no_edge (piece_events st fo p)) by (intros [|c p]; repeat constructor).
  induction ls as [|p [|q ls] IH]; [constructor | apply Hp |].
  change (lines_events st fo (p :: q :: ls)) with (piece_events st fo p ++ EBreak :: lines_events st fo (q :: ls)).
  apply Forall_app. split; [apply Hp|]. constructor; [exact I | exact IH].
Qed.
Lemma start_layout_pos st first last s :
  is_pos (start_layout cb st first last s) = past_edge m_width (is_pos s) first (start_mark cbw st first).
Proof. destruct first; reflexivity. Qed.
Lemma finish_layout_pos p lv pos p1 pos1 : finish_layout p lv pos false = (p1, pos1) ->
  pos1 = past_edge m_width pos (pt_last p) (pt_end_mark p).
Proof.
  intros H. unfold finish_layout in H. injection H as <- <-. unfold past_edge, pt_end_mark. rewrite andb_true_r.
  destruct (pt_last p); reflexivity.
Qed.

(* ------------------------------------------------------------------ *)
(** * The open boxes *)

Definition same_box (p q : partial) : Prop :=
  pt_style p = pt_style q /\ pt_last p = pt_last q /\ pt_end_mark p = pt_end_mark q.
Lemma same_refl l : Forall2 same_box l l.
Proof. induction l; constructor; [repeat split | assumption]. Qed.
Lemma same_trans a b c : Forall2 same_box a b -> Forall2 same_box b c -> Forall2 same_box a c.
Proof.
  intros H. revert c. induction H as [|x y l l' [H1 [H2 H3]] H IH]; intros c Hc; inversion Hc as [|? z ? l'' [G1 [G2 G3]]]; subst; constructor.
  - repeat split; congruence. - apply IH; assumption.
Qed.
Lemma finish_partials_same stack : forall lv pos, Forall2 same_box stack (fst (fst (finish_partials stack lv pos))).
Proof.
  induction stack as [|p rest IH]; intros lv pos; [constructor|].
  cbn [finish_partials]. unfold finish_layout. rewrite andb_false_r. cbn [pt_parent].
  match goal with |- context [finish_partials rest ?l ?q] => specialize (IH l q); destruct (finish_partials rest l q) as [[r' t'] p'] end.
  cbn [fst] in *. constructor; [|exact IH]. repeat split.
Qed.
Lemma is_stack_finish_line s : Forall2 same_box (is_stack s) (is_stack (finish_line cb ta s)).
Proof.
  unfold finish_line. pose proof (finish_partials_same (is_stack s) (is_cur s) (is_pos s)) as H.
  destruct (finish_partials _ _ _) as [[? ?] ?]. exact H.
Qed.
Lemma is_stack_add_text st fo sg nlf s : is_stack (add_text st fo sg nlf s) = is_stack s.
Proof.
  unfold InlineModel.add_text. destruct (seg_advance _ _). destruct (line_ascent_descent _ _ _ _).
  destruct (negb (seg_empty s0)); reflexivity.
Qed.

(* ------------------------------------------------------------------ *)
(** * Text runs *)

Lemma wrapped_nonempty w ok cw f a t ls : wrapped w ok cw f a t ls -> ls <> [].
Proof. inversion 1; discriminate. Qed.
Lemma lines_events_cons st fo p ls : ls <> [] ->
  lines_events st fo (p :: ls) = piece_events st fo p ++ EBreak :: lines_events st fo ls.
Proof. destruct ls; [congruence|reflexivity]. Qed.

Lemma wrap_loop_ok st fo : forall fuel first t sh lb s,
  seg_ok m_width fo sh -> seg_glyphs sh = [] ->
  lb_ok m_width fo first (cbw - is_pos s) [] t lb ->
  (List.length t + (if first then 1 else 0) < fuel)%nat ->
  exists s' ls,
    wrap_loop fuel cb ta st fo t sh lb s = Ok s' /\
    wrapped (m_width fo) (line_ok fo) (cbw - l0) first (cbw - is_pos s) t ls /\
    trace s (lines_events st fo ls) s' /\ Forall2 same_box (is_stack s) (is_stack s').
Proof.
  induction fuel as [|fuel IH]; intros first t sh lb s Hs Hg Hlb Hfuel; [lia|].
  cbn [InlineModel.wrap_loop].
  destruct (wrap_line_ok m_width fo first (cbw - is_pos s) t sh lb) as (sh' & rest & newline & H1 & H2 & H3).
  { exact Hs. } { rewrite Hg. intros []. } { rewrite Hg; exact Hlb. }
  rewrite H1. cbn [bind]. rewrite Hg in H3. cbn [app] in H3.
  destruct H3 as (d & HT & Hnn & Hfit & Hcase).
  set (s1 := add_text st fo sh' newline s).
  assert (Hcontinue : rest <> [] \/ newline = true ->
     (List.length rest < fuel)%nat ->
     exists s' ls,
      wrap_loop fuel cb ta st fo rest (if seg_empty sh' then snd (seg_advance (m_width fo) sh') else seg_new) None (finish_line cb ta s1) = Ok s' /\
      wrapped (m_width fo) (line_ok fo) (cbw - l0) false (cbw - l0) rest ls /\
      trace s (piece_events st fo (seg_glyphs sh') ++ EBreak :: lines_events st fo ls) s' /\ Forall2 same_box (is_stack s) (is_stack s')).
  { intros _ Hlen.
    destruct (IH false rest (if seg_empty sh' then snd (seg_advance (m_width fo) sh') else seg_new) None (finish_line cb ta s1))
      as (s' & ls & G1 & G2 & G3 & G4).
    - destruct (seg_empty sh'); [rewrite seg_advance_ok by exact H2; right; reflexivity | apply seg_new_ok].
    - destruct (seg_empty sh') eqn:Ee; [rewrite seg_advance_ok by exact H2; apply seg_empty_iff in Ee; exact Ee | reflexivity].
    - split; [constructor | reflexivity].
    - lia.
    - rewrite is_pos_finish_line in G2.
      exists s', ls. split; [exact G1|]. split; [exact G2|]. split.
      + eapply tc_cons; [apply tr_text; exact H2|]. change (EBreak :: lines_events st fo ls) with ([EBreak] ++ lines_events st fo ls).
        eapply tc_cons; [apply tr_break | exact G3].
      + eapply same_trans; [|exact G4]. unfold s1. rewrite <- (is_stack_add_text st fo sh' newline s) at 1. apply is_stack_finish_line. }
  assert (Hlens : List.length t = (List.length (seg_glyphs sh') + List.length d + List.length rest)%nat)
    by (rewrite HT, !app_length; lia).
  destruct Hcase as [[Hnl Hd] | [(Hnl & Hr & Hd) | (Hnl & Hr & Hd & Hroom)]].
  - (* newline *)
    rewrite Hnl, orb_true_r.
    destruct Hcontinue as (s' & ls & G1 & G2 & G3 & G4); [auto | destruct Hd; subst d; cbn in Hlens; lia |].
    exists s', (seg_glyphs sh' :: ls). split; [exact G1|]. split; [|split; [|exact G4]].
    + rewrite HT. apply wr_newline; auto.
    + rewrite lines_events_cons by (eapply wrapped_nonempty; exact G2). exact G3.
  - (* end *)
    subst rest. rewrite Hnl. cbn [negb orb]. exists s1, [seg_glyphs sh']. split; [reflexivity|].
    rewrite app_nil_r in HT. split; [rewrite HT; apply wr_last; auto|]. split.
    + apply trace_one. apply tr_text; exact H2.
    + unfold s1. rewrite is_stack_add_text. apply same_refl.
  - (* soft break *)
    destruct Hcontinue as (s' & ls & G1 & G2 & G3 & G4); [auto | |].
    { inversion Hd as [E | q Hq E | Hf Hp E | c Hc Ho E]; subst d; cbn in Hlens; try lia.
      - rewrite Hq, app_length in Hlens. cbn in Hlens. lia.
      - rewrite Hp in Hlens. cbn in Hlens. subst first. lia. }
    exists s', (seg_glyphs sh' :: ls). split.
    { destruct rest as [|c r]; [congruence|]. cbn [negb orb]. exact G1. }
    split; [|split; [|exact G4]].
    + rewrite HT. apply wr_soft; auto.
    + rewrite lines_events_cons by (eapply wrapped_nonempty; exact G2). exact G3.
Qed.

Lemma nowrap_line_ok t : forall sh,
  exists p rest newline, nowrap_line t sh = (Seg (seg_glyphs sh ++ p) (match p with [] => seg_width sh | _ => None end), rest, newline) /\
    (if newline then split_nl t = p :: split_nl rest /\ (List.length rest < List.length t)%nat
     else rest = [] /\ split_nl t = [p]).
Proof.
  induction t as [|c t IH]; intros sh.
  - exists [], [], false. cbn. rewrite app_nil_r. destruct sh; auto.
  - cbn [nowrap_line]. destruct (c =? nl)%N eqn:Ec.
    + exists [], t, true. rewrite app_nil_r. split; [destruct sh; reflexivity|]. split; [|cbn; lia].
      cbn [split_nl]. rewrite Ec. destruct (split_nl t) eqn:E; [|reflexivity].
      exfalso. clear - E. destruct t as [|c t]; cbn in E; [discriminate|]. destruct (split_nl t); [discriminate|]. destruct (c =? nl)%N; discriminate.
    + destruct (IH (seg_append_char sh c)) as (p & rest & newline & H1 & H2).
      exists (c :: p), rest, newline. split.
      { rewrite H1. cbn [seg_append_char seg_glyphs seg_width]. rewrite <- app_assoc. destruct p; reflexivity. }
      destruct newline.
      * destruct H2 as [H2 H3]. split; [|cbn; lia]. cbn [split_nl]. rewrite Ec, H2. reflexivity.
      * destruct H2 as [H2 H3]. split; [exact H2|]. cbn [split_nl]. rewrite Ec, H3. reflexivity.
Qed.
Lemma split_nl_nonempty t : split_nl t <> [].
Proof. destruct t as [|c t]; cbn; [discriminate|]. destruct (split_nl t); [discriminate|]. destruct (c =? nl)%N; discriminate. Qed.

Lemma nowrap_loop_ok st fo : forall fuel t s, (List.length t < fuel)%nat ->
  exists s', nowrap_loop fuel cb ta st fo t s = Ok s' /\
    trace s (lines_events st fo (split_nl t)) s' /\ Forall2 same_box (is_stack s) (is_stack s').
Proof.
  induction fuel as [|fuel IH]; intros t s Hf; [lia|]. cbn [InlineModel.nowrap_loop].
  destruct (nowrap_line_ok t seg_new) as (p & rest & newline & H1 & H2). rewrite H1. clear H1. cbn [seg_glyphs seg_new app].
  set (sg := Seg p _).
  assert (Hsg : seg_ok m_width fo sg) by (left; unfold sg; destruct p; reflexivity).
  set (s1 := add_text st fo sg newline s).
  destruct newline.
  - destruct H2 as [H2 H3]. rewrite orb_true_r.
    destruct (IH rest (finish_line cb ta s1)) as (s' & G1 & G2 & G3); [lia|].
    exists s'. split; [exact G1|]. split.
    + rewrite H2, lines_events_cons by apply split_nl_nonempty.
      change p with (seg_glyphs sg) at 1. eapply tc_cons; [apply tr_text; exact Hsg|].
      change (EBreak :: lines_events st fo (split_nl rest)) with ([EBreak] ++ lines_events st fo (split_nl rest)).
      eapply tc_cons; [apply tr_break | exact G2].
    + eapply same_trans; [|exact G3]. unfold s1. rewrite <- (is_stack_add_text st fo sg true s) at 1. apply is_stack_finish_line.
  - destruct H2 as [-> H3]. cbn [negb orb]. exists s1. split; [reflexivity|]. split.
    + rewrite H3. change p with (seg_glyphs sg). apply trace_one. apply tr_text; exact Hsg.
    + unfold s1. rewrite is_stack_add_text. apply same_refl.
Qed.

Lemma text_run_ok st fo t s : exists s' ls,
  text_run_layout m_ascent m_descent m_width cb ta st fo t s = Ok s' /\
  run_lines m_width line_ok cbw st fo (is_pos s) t ls /\
  trace s (lines_events st fo ls) s' /\ Forall2 same_box (is_stack s) (is_stack s').
Proof.
  assert (Hn : sv st Lwhite_space = WSNowrap \/ sv st Lwhite_space = WSPre ->
    exists s', nowrap_loop (S (List.length t)) cb ta st fo t s = Ok s' /\
    run_lines m_width line_ok cbw st fo (is_pos s) t (split_nl t) /\
    trace s (lines_events st fo (split_nl t)) s' /\ Forall2 same_box (is_stack s) (is_stack s')).
  { intros Hw. destruct (nowrap_loop_ok st fo (S (List.length t)) t s) as (s' & H1 & H2 & H3); [lia|].
    exists s'. repeat split; try assumption. apply rl_nowrap; exact Hw. }
  assert (Hw : sv st Lwhite_space <> WSNowrap -> sv st Lwhite_space <> WSPre ->
    exists s' ls, layout_wrap m_ascent m_descent m_width cb ta st fo t s = Ok s' /\
    run_lines m_width line_ok cbw st fo (is_pos s) t ls /\
    trace s (lines_events st fo ls) s' /\ Forall2 same_box (is_stack s) (is_stack s')).
  { intros Hw1 Hw2. unfold layout_wrap.
    destruct (wrap_loop_ok st fo (S (S (List.length t))) true t seg_new (Some (seg_save seg_new, t)) s) as (s' & ls & H1 & H2 & H3 & H4).
    - apply seg_new_ok. - reflexivity.
    - exists [], [], []. split; [reflexivity|]. split; [constructor|]. split; [reflexivity|]. split; [reflexivity|].
      split; [left; reflexivity|]. right; right. auto.
    - lia.
    - exists s', ls. repeat split; try assumption. apply rl_wrap; assumption. }
  unfold text_run_layout. destruct (sv st Lwhite_space) eqn:E;
    try (destruct Hw as (s' & ls & H); [discriminate | discriminate | exists s', ls; exact H]);
    (destruct Hn as (s' & H); [auto | exists s', (split_nl t); exact H]).
Qed.

(* ------------------------------------------------------------------ *)
(** * The loop over the boxes *)

Lemma start_layout_end_mark st first last s :
  exists p, is_stack (start_layout cb st first last s) = p :: is_stack s /\ pt_style p = st /\ pt_last p = last /\
    pt_end_mark p = end_mark cbw st last.
Proof.
  eexists. split; [reflexivity|]. split; [reflexivity|]. split; [reflexivity|].
  unfold pt_end_mark, end_mark. cbn [pt_last pt_style pt_padding pt_border pt_margin].
  destruct last; [|reflexivity]. destruct first; reflexivity.
Qed.

Lemma loop_ok : forall n (l : list (ilb abs_lay)), (boxes_steps l <= n)%nat -> abspos_oks l ->
  forall r rs s fuel, exists s' es,
    ifc_loop (boxes_steps l + fuel) cb ta rank ((l ++ r) :: rs) s = ifc_loop fuel cb ta rank (r :: rs) s' /\
    trace s es s' /\ boxes_events m_width line_ok cbw (is_pos s) l es (is_pos s') /\ Forall2 same_box (is_stack s) (is_stack s').
Proof.
  induction n as [n IHn] using lt_wf_ind. intros l. destruct l as [|b bs]; intros Hn Hok r rs s fuel.
  { exists s, []. repeat split; [constructor | constructor | apply same_refl]. }
  cbn [abspos_oks fold_right] in Hok. destruct Hok as [Hb Hbs].
  change (boxes_steps (b :: bs)) with (ilb_steps b + boxes_steps bs)%nat in *.
  (* the rest of the list, from any state *)
  assert (Hrest : forall s1 e1, trace s e1 s1 -> box_events m_width line_ok cbw (is_pos s) b e1 (is_pos s1) ->
      Forall2 same_box (is_stack s) (is_stack s1) ->
      exists s' es, ifc_loop (boxes_steps bs + fuel) cb ta rank ((bs ++ r) :: rs) s1 = ifc_loop fuel cb ta rank (r :: rs) s' /\
        trace s es s' /\ boxes_events m_width line_ok cbw (is_pos s) (b :: bs) es (is_pos s') /\ Forall2 same_box (is_stack s) (is_stack s')).
  { intros s1 e1 T1 B1 S1.
    assert (Hlt : (boxes_steps bs < n)%nat) by (destruct b; cbn [ilb_steps] in Hn; lia).
    destruct (IHn _ Hlt bs (le_n _) Hbs r rs s1 fuel) as (s' & es & H1 & H2 & H3 & H4).
    exists s', (e1 ++ es). split; [exact H1|]. split; [eapply trace_app; eassumption|]. split.
    - eapply bes_cons; [exact B1 | exact H3].
    - eapply same_trans; eassumption. }
  destruct b as [st first last ch | st t fo | st lay | st lay].
  - change (ilb_steps (InlineBox st first last ch)) with (S (S (boxes_steps ch))) in *.
    replace (S (S (boxes_steps ch)) + boxes_steps bs + fuel)%nat with (S (boxes_steps ch + S (boxes_steps bs + fuel)))%nat by lia.
    cbn [InlineModel.ifc_loop hd tl app].
    set (s0 := start_layout cb st first last s).
    assert (Hlt : (boxes_steps ch < n)%nat) by lia.
    destruct (IHn _ Hlt ch (le_n _) Hb [] ((bs ++ r) :: rs) s0 (S (boxes_steps bs + fuel))) as (s1 & es & H1 & H2 & H3 & H4).
    rewrite app_nil_r in H1. rewrite H1. clear H1. cbn [InlineModel.ifc_loop hd tl].
    destruct (start_layout_end_mark st first last s) as (p & P1 & P2 & P3 & P4).
    fold s0 in P1. rewrite P1 in H4. inversion H4 as [|? q ? stk [Q1 [Q2 Q3]] Hstk E1 E2]; subst.
    destruct (finish_layout q (is_cur s1) (is_pos s1) false) as [p1 pos1] eqn:Ef.
    assert (T1 : trace s (EMark (start_mark cbw (pt_style p) first) :: es ++ [EMark (end_mark cbw (pt_style p) (pt_last p))])
       (Ifc (is_lines s1) pos1 stk (pt_parent p1) (is_abs s1))).
    { change (EMark (start_mark cbw (pt_style p) first) :: ?x) with ([EMark (start_mark cbw (pt_style p) first)] ++ x).
      eapply tc_cons; [apply tr_open with (last := pt_last p)|]. eapply trace_app; [exact H2|].
      apply trace_one. rewrite <- P4, Q3. eapply tr_close; [symmetry; exact E2 | exact Ef]. }
    edestruct (Hrest _ _ T1) as (s' & es' & G).
    + cbn [is_pos]. rewrite (finish_layout_pos _ _ _ _ _ Ef), <- Q3, P4, <- Q2. apply be_box.
      unfold s0 in H3. rewrite start_layout_pos in H3. exact H3.
    + exact Hstk.
    + exists s', es'. exact G.
  - cbn [ilb_steps Nat.add InlineModel.ifc_loop hd tl app].
    destruct (text_run_ok st fo t s) as (s1 & ls & H1 & H2 & H3 & H4). rewrite H1. cbn [bind].
    eapply Hrest; [exact H3 | | exact H4].
    rewrite (trace_text_pos _ _ _ H3 (lines_no_edge st fo ls)). apply be_text; exact H2.
  - cbn [ilb_steps Nat.add InlineModel.ifc_loop hd tl app].
    cbn [abspos_ok] in Hb. unfold inline_static_corner. destruct (s_specified_display st) as [| |o i]; try contradiction.
    destruct o; cbn [bind]; (eapply Hrest; [apply trace_one, tr_abs | apply be_abs | apply same_refl]).
  - cbn [ilb_steps Nat.add InlineModel.ifc_loop hd tl app].
    eapply Hrest; [constructor | apply be_float | apply same_refl].
Qed.

(* ------------------------------------------------------------------ *)
(** * Marks *)

Notation marks := (flat_map frag_marks).
Definition open_mark (p : partial) : mark :=
  MOpen (pt_style p) (s_inline_start (pt_padding p)) (s_inline_start (pt_border p)) (s_inline_start (pt_margin p)).
Fixpoint stack_marks (stack : list partial) : list mark :=
  match stack with
  | [] => []
  | p :: rest => stack_marks rest ++ marks (lv_fragments (pt_parent p)) ++ [open_mark p]
  end.
Definition pend (s : ifc) : list mark := stack_marks (is_stack s) ++ marks (lv_fragments (is_cur s)).
Definition done (s : ifc) : list (list mark) := map line_marks (ln_boxes (is_lines s)).
Definition opens (s : ifc) : list style := map pt_style (is_stack s).

Fixpoint exec (es : list event) (d : list (list mark)) (p : list mark) (o : list style) :=
  match es with
  | [] => (d, p, o)
  | EMark m :: es' => exec es' d (p ++ [m]) (mark_opens m o)
  | EBreak :: es' => exec es' (d ++ [p ++ map close0 o]) (map open0 (rev o)) o
  end.
Lemma exec_app e1 : forall e2 d p o, exec (e1 ++ e2) d p o = let '(d1, p1, o1) := exec e1 d p o in exec e2 d1 p1 o1.
Proof. induction e1 as [|[m|] e1 IH]; intros e2 d p o; cbn; [reflexivity | apply IH | apply IH]. Qed.
Lemma cut_nonempty o es : cut o es <> [].
Proof. revert o. induction es as [|[m|] es IH]; intros o; cbn; try discriminate. specialize (IH (mark_opens m o)). destruct (cut (mark_opens m o) es); cbn; congruence. Qed.
Lemma app_hd_app {A} (a b : list A) ls : ls <> [] -> app_hd a (app_hd b ls) = app_hd (a ++ b) ls.
Proof. destruct ls; [congruence|]. intros _. cbn. rewrite app_assoc. reflexivity. Qed.
Lemma exec_cut es : forall d p o, let '(d1, p1, _) := exec es d p o in d1 ++ [p1] = d ++ app_hd p (cut o es).
Proof.
  induction es as [|[m|] es IH]; intros d p o; cbn.
  - rewrite app_nil_r. reflexivity.
  - specialize (IH d (p ++ [m]) (mark_opens m o)). destruct (exec es _ _ _) as [[d1 p1] o1]. rewrite IH.
    change ([m] ++ ?x) with (m :: x). rewrite app_hd_app by apply cut_nonempty. reflexivity.
  - specialize (IH (d ++ [p ++ map close0 o]) (map open0 (rev o)) o). destruct (exec es _ _ _) as [[d1 p1] o1]. rewrite IH.
    rewrite <- app_assoc. reflexivity.
Qed.

Lemma marks_translate d f : frag_marks (translate_block d f) = frag_marks f.
Proof. destruct f; reflexivity. Qed.
Lemma marks_translate_all d fs : marks (map (translate_block d) fs) = marks fs.
Proof. induction fs as [|f fs IH]; cbn; [reflexivity|]. rewrite marks_translate, IH. reflexivity. Qed.
Lemma marks_app a b : marks (a ++ b) = marks a ++ marks b. Proof. apply flat_map_app. Qed.

Lemma finish_partials_marks stack : forall lv pos stack' top pos',
  finish_partials stack lv pos = (stack', top, pos') ->
  marks (lv_fragments top) = stack_marks stack ++ marks (lv_fragments lv) ++ map close0 (map pt_style stack) /\
  stack_marks stack' = map open0 (rev (map pt_style stack)).
Proof.
  induction stack as [|p rest IH]; intros lv pos stack' top pos' H.
  - cbn in H. injection H as <- <- <-. cbn. rewrite app_nil_r. auto.
  - cbn [finish_partials] in H. unfold finish_layout in H. rewrite andb_false_r in H. cbn [pt_parent pt_style pt_start pt_padding pt_border pt_margin pt_ascent pt_descent pt_last partial_next_line] in H.
    match type of H with context [finish_partials rest ?l ?q] => destruct (finish_partials rest l q) as [[r' t'] p'] eqn:E end.
    injection H as <- <- <-. apply IH in E. destruct E as [E1 E2]. split.
    + rewrite E1. cbn [stack_marks push_fragment max_assign lv_fragments map]. rewrite marks_app. cbn [flat_map frag_marks app].
      cbn [zero_inline_end s_inline_start s_inline_end]. rewrite app_nil_r, <- !app_assoc. cbn [app].
      rewrite <- !app_assoc. reflexivity.
    + cbn [stack_marks pt_parent lv_fragments level_next_line flat_map app]. rewrite E2.
      cbn [map rev]. rewrite map_app. reflexivity.
Qed.

Lemma trans_exec s e s' : trans s e s' ->
  exec e (done s) (pend s) (opens s) = (done s', pend s', opens s').
Proof.
  intros H. inversion H as [st fo sg nlf s0 Hs E1 E2 E3 | s0 | st first last s0 | s0 p stack p1 pos Hst Hf | s0 st lay corner]; subst.
  - unfold InlineModel.add_text. rewrite seg_advance_ok by exact Hs. unfold line_ascent_descent. rewrite seg_empty_cached.
    destruct (seg_glyphs sg) as [|c g] eqn:Eg; cbn [negb orb piece_events].
    + destruct nlf; reflexivity.
    + cbn [exec mark_opens]. unfold done, pend, opens. cbn [is_lines is_stack is_cur push_fragment max_assign lv_fragments].
      rewrite marks_app. cbn [flat_map frag_marks seg_glyphs app]. rewrite !app_assoc. reflexivity.
  - cbn [exec]. unfold finish_line. destruct (finish_partials (is_stack s) (is_cur s) (is_pos s)) as [[stk top] pos] eqn:E.
    pose proof (finish_partials_same (is_stack s) (is_cur s) (is_pos s)) as Hsame. rewrite E in Hsame. cbn [fst] in Hsame.
    apply finish_partials_marks in E. destruct E as [E1 E2].
    unfold done, pend, opens. cbn [is_lines lines_finish ln_boxes is_stack is_cur level_next_line lv_fragments flat_map].
    rewrite map_app. cbn [map line_marks frag_marks]. rewrite marks_translate_all, E1, E2, app_nil_r, <- app_assoc.
    f_equal. clear - Hsame. induction Hsame as [|a b l l' [H1 _] H IH]; cbn; [reflexivity|]. rewrite H1, IH. reflexivity.
  - cbn [exec]. unfold done, pend, opens, InlineModel.start_layout. cbn [is_lines is_stack is_cur stack_marks pt_parent lv_fragments map pt_style flat_map app].
    rewrite app_nil_r, <- !app_assoc. cbn [app]. unfold start_mark, open_mark. cbn [pt_padding pt_border pt_margin pt_style].
    destruct first; reflexivity.
  - cbn [exec]. unfold finish_layout in Hf. rewrite andb_true_r in Hf. injection Hf as <- <-.
    unfold done, pend, opens. rewrite Hst.
    cbn [is_lines is_stack is_cur stack_marks pt_parent push_fragment max_assign lv_fragments map]. rewrite marks_app.
    assert (Em : mark_opens (pt_end_mark p) (pt_style p :: map pt_style stack) = map pt_style stack)
      by (unfold pt_end_mark; destruct (pt_last p); reflexivity).
    rewrite Em. f_equal. f_equal. cbn [flat_map frag_marks]. rewrite app_nil_r, <- !app_assoc. cbn [app].
    unfold open_mark, pt_end_mark. destruct (pt_last p); cbn [zero_inline_end s_inline_start s_inline_end]; reflexivity.
  - reflexivity.
Qed.
Lemma trace_exec s e s' : trace s e s' -> exec e (done s) (pend s) (opens s) = (done s', pend s', opens s').
Proof.
  induction 1 as [s | s e s1 es s2 H1 H2 IH]; [reflexivity|].
  rewrite exec_app, (trans_exec _ _ _ H1). exact IH.
Qed.

(* ------------------------------------------------------------------ *)
(** * Absolutely positioned boxes *)
Lemma add_text_abs st fo sg nlf s : is_abs (add_text st fo sg nlf s) = is_abs s.
Proof.
  unfold InlineModel.add_text. destruct (seg_advance _ _). destruct (line_ascent_descent _ _ _ _).
  destruct (negb (seg_empty s0)); reflexivity.
Qed.
Lemma finish_line_abs s : is_abs (finish_line cb ta s) = is_abs s.
Proof. unfold finish_line. destruct (finish_partials _ _ _) as [[? ?] ?]. reflexivity. Qed.
Lemma trace_abs s e s' : trace s e s' -> exists new, is_abs s' = is_abs s ++ new /\ Forall (fun a => af_rank a = rank) new.
Proof.
  induction 1 as [s | s e s1 es s2 H1 H2 IH].
  - exists []. rewrite app_nil_r. auto.
  - destruct IH as (new & IH1 & IH2).
    inversion H1 as [st fo sg nlf s0 Hs E1 E2 E3 | s0 | st first last s0 | s0 p stack p1 pos Hst Hf | s0 st lay corner]; subst.
    + rewrite add_text_abs in IH1. eauto.
    + rewrite finish_line_abs in IH1. eauto.
    + eauto.
    + eauto.
    + cbn [push_abs is_abs] in IH1. exists (abs_box_layout st lay corner rank :: new).
      rewrite IH1, <- app_assoc. split; [reflexivity|]. constructor; [reflexivity | exact IH2].
Qed.
End Proofs.

(* ------------------------------------------------------------------ *)
(** * A whole inline formatting context *)
Section Ifc.
Variable m_ascent m_descent : style -> Len.
Variable m_width : style -> text -> Len.

Theorem ifc_layout_trace parent boxes cb rank abs : abspos_oks boxes ->
  exists fl abs' es s pos,
    ifc_layout m_ascent m_descent m_width parent boxes cb rank abs = Ok (fl, abs ++ abs') /\
    Forall (fun a => af_rank a = rank) abs' /\
    boxes_events m_width (line_ok m_width) (cb_inline cb) l0 boxes es pos /\
    map line_marks (fl_fragments fl) = cut [] es /\
    fl_margins fl = cb_zero /\
    trace m_ascent m_descent m_width cb (sv parent Ltext_align) rank (ifc_start m_ascent m_descent parent abs) (es ++ [EBreak]) s /\
    ln_boxes (is_lines s) = fl_fragments fl /\ ln_next (is_lines s) = fl_block_size fl.
Proof.
  intros Hok. unfold ifc_layout. set (ta := sv parent Ltext_align).
  destruct (loop_ok m_ascent m_descent m_width cb ta rank (boxes_steps boxes) boxes (le_n _) Hok [] [] (ifc_start m_ascent m_descent parent abs) 1)
    as (s & es & H1 & H2 & H3 & H4).
  rewrite app_nil_r in H1. replace (boxes_steps boxes + 1)%nat with (S (boxes_steps boxes)) in H1 by lia. rewrite H1.
  cbn [ifc_loop hd]. cbn [ifc_start is_stack] in H4. inversion H4 as [E|]; subst.
  cbn [bind].
  pose proof (trace_abs _ _ _ _ _ _ _ _ _ H2) as (new & A1 & A2). cbn [ifc_start is_abs] in A1.
  eexists _, new, es, (finish_line cb ta s), (is_pos s). split; [rewrite finish_line_abs, A1; reflexivity|]. split; [exact A2|].
  split; [exact H3|].
  pose proof (trace_app _ _ _ _ _ _ _ _ _ _ _ H2 (trace_one _ _ _ _ _ _ _ _ _ (tr_break m_ascent m_descent m_width cb ta rank s))) as T.
  cbn [fl_fragments fl_block_size fl_margins]. split; [|split; [reflexivity|]; split; [exact T|]; split; reflexivity].
  pose proof (trace_exec _ _ _ _ _ _ _ _ _ H2) as X. pose proof (exec_cut es (done (ifc_start m_ascent m_descent parent abs)) (pend (ifc_start m_ascent m_descent parent abs)) (opens (ifc_start m_ascent m_descent parent abs))) as Y.
  rewrite X in Y. cbn in Y.
  pose proof (trans_exec _ _ _ _ _ _ _ _ _ (tr_break m_ascent m_descent m_width cb ta rank s)) as Z. cbn [exec] in Z.
  assert (E0 : is_stack s = []) by congruence. unfold opens in Z. rewrite E0 in Z. cbn [map] in Z. rewrite app_nil_r in Z. injection Z as Z1 Z2 Z3.
  unfold done in Z1 at 2. rewrite <- Z1, Y. destruct (cut [] es) eqn:Ec; [exfalso; revert Ec; apply cut_nonempty | reflexivity].
Qed.
Theorem ifc_layout_any parent boxes cb rank abs : abspos_oks boxes ->
  exists fl abs' es pos,
    ifc_layout m_ascent m_descent m_width parent boxes cb rank abs = Ok (fl, abs ++ abs') /\
    Forall (fun a => af_rank a = rank) abs' /\
    boxes_events m_width (line_ok m_width) (cb_inline cb) l0 boxes es pos /\
    map line_marks (fl_fragments fl) = cut [] es /\
    fl_margins fl = cb_zero.
Proof.
  intros Hok. destruct (ifc_layout_trace parent boxes cb rank abs Hok) as (fl & abs' & es & s & pos & H1 & H2 & H3 & H4 & H5 & _).
  exists fl, abs', es, pos. auto.
Qed.
End Ifc.
End Any.

(* ------------------------------------------------------------------ *)
(** * Geometry, in exact arithmetic *)
Section Geometry.
Variable m_ascent m_descent : style -> Len.
Variable m_width : style -> text -> Len.
Variable cb : cblock.
Variable ta : text_align.
Variable rank : nat.
Notation cbw := (cb_inline cb).
Notation trans := (trans m_ascent m_descent m_width cb ta rank).
Notation trace := (trace m_ascent m_descent m_width cb ta rank).

Lemma lsub_0_r a : a - l0 = a. Proof. lring. Qed.
Lemma ladd_0_r' a : a + l0 = a. Proof. lring. Qed.
Lemma trans_pos s e s' : trans s e s' -> is_pos s' = events_pos m_width (is_pos s) e.
Proof.
  intros H. inversion H as [st fo sg nlf s0 Hs E1 E2 E3 | s0 | st first last s0 | s0 p stack p1 pos Hst Hf | s0 st lay corner]; subst.
  - apply is_pos_add_text; exact Hs.
  - apply is_pos_finish_line.
  - cbn [InlineModel.start_layout is_pos events_pos]. unfold start_mark.
    destruct first; cbn [mark_width]; [reflexivity|]. unfold open0. cbn. lring.
  - cbn [is_pos events_pos]. unfold finish_layout in Hf. injection Hf as <- <-. unfold pt_end_mark.
    rewrite andb_true_r. destruct (pt_last p); cbn [mark_width]; [reflexivity|]. unfold close0; cbn. lring.
  - reflexivity.
Qed.
Lemma trace_pos s e s' : trace s e s' -> is_pos s' = events_pos m_width (is_pos s) e.
Proof.
  induction 1 as [s | s e s1 es s2 H1 H2 IH]; [reflexivity|].
  rewrite IH, (trans_pos _ _ _ H1), <- events_pos_app. reflexivity.
Qed.

Notation row := (row m_width cb).
Notation in_row := (in_row m_width cb).
Lemma row_width_app a b : row_width (a ++ b) = row_width a + row_width b.
Proof. unfold row_width, lsum. rewrite map_app. induction (map outer_width a) as [|x l IH]; cbn; [lring|]. rewrite IH. lring. Qed.
Lemma row_width_one f : row_width [f] = outer_width f. Proof. cbn. lring. Qed.
Lemma row_snoc fs : forall x f, row x fs -> in_row (x + row_width fs) f -> row x (fs ++ [f]).
Proof.
  induction fs as [|g fs IH]; intros x f Hr Hf; cbn [app].
  - constructor; [|constructor]. replace x with (x + row_width []) by (cbn; lring). exact Hf.
  - inversion Hr as [|? ? ? H1 H2]; subst. constructor; [exact H1|]. apply IH; [exact H2|].
    replace (x + outer_width g + row_width fs) with (x + row_width (g :: fs)) by (unfold row_width, lsum; cbn; lring). exact Hf.
Qed.
Lemma in_row_translate d x f : in_row x f -> in_row x (translate_block d f).
Proof.
  intros H. inversion H as [? st r fo sg H1 H2 E1 E2 | ? st ch r p b m cm d0 H1 H2 H3 H4 E1 E2]; subst; cbn [translate_block].
  - apply ir_text; assumption || reflexivity.
  - eapply ir_box; eassumption.
Qed.
Lemma outer_translate d f : outer_width (translate_block d f) = outer_width f. Proof. destruct f; reflexivity. Qed.
Lemma row_translate d fs : forall x, row x fs -> row x (map (translate_block d) fs).
Proof.
  induction fs as [|f fs IH]; intros x H; [constructor|]. inversion H as [|? ? ? H1 H2]; subst. cbn [map]. constructor.
  - apply in_row_translate; exact H1.
  - rewrite outer_translate. apply IH; exact H2.
Qed.
Lemma row_width_translate d fs : row_width (map (translate_block d) fs) = row_width fs.
Proof. unfold row_width. rewrite map_map. f_equal. apply map_ext. intros; apply outer_translate. Qed.

Fixpoint geo (stack : list partial) (lv : level) (pos : Len) : Prop :=
  pos = lv_inline_start lv + row_width (lv_fragments lv) /\ row l0 (lv_fragments lv) /\
  match stack with
  | [] => lv_inline_start lv = l0
  | p :: rest =>
      let parent := pt_parent p in
      let e := edge_sum s_inline_start (pt_padding p) (pt_border p) (pt_margin p) in
      (exists d, offset_ok cb (pt_style p) d /\ v_inline (pt_start p) = row_width (lv_fragments parent) + e + d) /\
      lv_inline_start lv = lv_inline_start parent + row_width (lv_fragments parent) + e /\
      geo rest parent (lv_inline_start parent + row_width (lv_fragments parent))
  end.

Lemma geo_finish p stack lv pos brk p1 pos1 :
  geo (p :: stack) lv pos -> finish_layout p lv pos brk = (p1, pos1) ->
  geo stack (pt_parent p1) pos1.
Proof.
  intros (Hp & Hr & (d & Hd & Hs) & Hi & Hg) Hf. unfold finish_layout in Hf. injection Hf as <- <-.
  cbn [pt_parent].
  set (f := FBox _ _ _ _ _ _ _).
  assert (Hw : pos - lv_inline_start lv = row_width (lv_fragments lv)) by (rewrite Hp; lring).
  assert (Hin : in_row (l0 + row_width (lv_fragments (pt_parent p))) f).
  { unfold f. eapply ir_box; cbn [r_start r_size v_inline].
    - rewrite Hs. instantiate (1 := d). destruct (pt_last p && negb brk); unfold edge_sum; cbn [zero_inline_end s_inline_start]; lring.
    - exact Hd. - exact Hw. - exact Hr. }
  assert (Ho : outer_width f = edge_sum s_inline_start (pt_padding p) (pt_border p) (pt_margin p) + row_width (lv_fragments lv)
      + (if pt_last p && negb brk then edge_sum s_inline_end (pt_padding p) (pt_border p) (pt_margin p) else l0)).
  { unfold f. cbn [outer_width r_size v_inline]. rewrite Hw. destruct (pt_last p && negb brk); unfold edge_sum, zero_inline_end; cbn [s_inline_start s_inline_end]; lring. }
  destruct stack as [|q rest]; cbn [geo] in Hg |- *; cbn [push_fragment max_assign lv_fragments lv_inline_start].
  - destruct Hg as (_ & Hr2 & H0). split; [|split; [apply row_snoc; assumption | exact H0]].
    rewrite row_width_app, row_width_one, Ho, Hp, Hi, H0. destruct (pt_last p && negb brk); unfold edge_sum; lring.
  - destruct Hg as (_ & Hr2 & Hrest). split; [|split; [apply row_snoc; assumption | exact Hrest]].
    rewrite row_width_app, row_width_one, Ho, Hp, Hi. destruct (pt_last p && negb brk); unfold edge_sum; lring.
Qed.

Lemma geo_finish_partials stack : forall lv pos stack' top pos',
  geo stack lv pos -> finish_partials stack lv pos = (stack', top, pos') ->
  pos' = row_width (lv_fragments top) /\ row l0 (lv_fragments top) /\
  (forall lv', lv_fragments lv' = [] -> lv_inline_start lv' = l0 -> geo stack' lv' l0).
Proof.
  induction stack as [|p rest IH]; intros lv pos stack' top pos' Hg H.
  - cbn in H. injection H as <- <- <-. cbn [geo] in Hg. destruct Hg as (Hp & Hr & H0).
    split; [rewrite Hp, H0; lring|]. split; [exact Hr|]. intros lv' Hl H1. cbn [geo]. rewrite Hl, H1.
    split; [cbn; lring|]. split; [constructor | reflexivity].
  - cbn [finish_partials] in H. destruct (finish_layout p lv pos true) as [p1 pos1] eqn:Ef.
    pose proof (geo_finish _ _ _ _ _ _ _ Hg Ef) as Hg1.
    destruct (finish_partials rest (pt_parent p1) pos1) as [[r' t'] p'] eqn:E.
    injection H as <- <- <-. destruct (IH _ _ _ _ _ Hg1 E) as (K1 & K2 & K3).
    split; [exact K1|]. split; [exact K2|]. intros lv' Hl H1. cbn [geo]. rewrite Hl, H1.
    split; [cbn; lring|]. split; [constructor|].
    cbn [pt_parent lv_fragments level_next_line lv_inline_start pt_padding pt_border pt_margin pt_style pt_start partial_next_line v_inline].
    unfold edge_sum, zero_inline_start. cbn [s_inline_start]. split.
    { exists l0. split; [left; reflexivity|]. cbn; lring. }
    split; [cbn; lring|]. replace (l0 + row_width []) with l0 by (cbn; lring). apply K3; reflexivity.
Qed.

Lemma stacked_snoc frac y ls y' : stacked m_width cb frac y ls y' -> forall r ch,
  r_start r = Vec2 ((cbw - row_width ch) * frac) y' -> v_inline (r_size r) = cbw -> row l0 ch ->
  stacked m_width cb frac y (ls ++ [FAnon r ch]) (y' + v_block (r_size r)).
Proof.
  induction 1 as [y | y r0 ch0 ls y' H1 H2 H3 H4 IH]; intros r ch K1 K2 K3; cbn [app].
  - apply sk_cons; [exact K1 | exact K2 | exact K3 | constructor].
  - apply sk_cons; [assumption | assumption | assumption | apply IH; assumption].
Qed.

Definition Geo (s : ifc) : Prop :=
  geo (is_stack s) (is_cur s) (is_pos s) /\
  stacked m_width cb (align_fraction ta) l0 (ln_boxes (is_lines s)) (ln_next (is_lines s)).

Lemma geo_push stack lv lv' pos f w :
  geo stack lv pos -> lv_fragments lv' = lv_fragments lv ++ [f] -> lv_inline_start lv' = lv_inline_start lv ->
  outer_width f = w -> in_row (row_width (lv_fragments lv)) f -> geo stack lv' (pos + w).
Proof.
  intros Hg Hl Hi Hw Hin.
  assert (Hin' : in_row (l0 + row_width (lv_fragments lv)) f) by (replace (l0 + row_width (lv_fragments lv)) with (row_width (lv_fragments lv)) by lring; exact Hin).
  destruct stack as [|p rest]; cbn [geo] in *; destruct Hg as (H1 & H2 & H3); rewrite Hl, Hi, row_width_app, row_width_one, Hw, H1.
  - split; [lring|]. split; [apply row_snoc; assumption | exact H3].
  - split; [lring|]. split; [apply row_snoc; assumption | exact H3].
Qed.
Lemma geo_same stack lv lv' pos : geo stack lv pos -> lv_fragments lv' = lv_fragments lv -> lv_inline_start lv' = lv_inline_start lv ->
  geo stack lv' pos.
Proof. intros Hg H1 H2. destruct stack; cbn [geo] in *; rewrite H1, H2; exact Hg. Qed.
Lemma geo_pos stack lv pos : geo stack lv pos -> pos - lv_inline_start lv = row_width (lv_fragments lv).
Proof. destruct stack; intros (H & _); rewrite H; lring. Qed.

Lemma trans_geo s e s' : trans s e s' -> Geo s -> Geo s'.
Proof.
  intros H [Hg Hk]. inversion H as [st fo sg nlf s0 Hs E1 E2 E3 | s0 | st first last s0 | s0 p stack p1 pos Hst Hf | s0 st lay corner]; subst.
  - unfold InlineModel.add_text. rewrite seg_advance_ok by exact Hs. unfold line_ascent_descent. rewrite seg_empty_cached.
    destruct (seg_glyphs sg) as [|c g] eqn:Eg; cbn [negb orb].
    + split; [|exact Hk]. destruct nlf; [|exact Hg]. cbn [set_cur is_stack is_cur is_pos]. eapply geo_same; [exact Hg | reflexivity | reflexivity].
    + split; [|exact Hk]. cbn [is_stack is_cur is_pos]. eapply geo_push; [exact Hg | reflexivity | reflexivity | reflexivity |].
      apply ir_text; [cbn [r_start v_inline]; apply (geo_pos _ _ _ Hg) | reflexivity].
  - unfold finish_line. destruct (finish_partials (is_stack s) (is_cur s) (is_pos s)) as [[stk top] pos] eqn:E.
    destruct (geo_finish_partials _ _ _ _ _ _ Hg E) as (K1 & K2 & K3). split; cbn [is_stack is_cur is_pos is_lines].
    + apply K3; reflexivity.
    + unfold lines_finish. cbn [ln_boxes ln_next v_block].
      apply (stacked_snoc _ _ _ _ Hk).
      * cbn [r_start]. rewrite row_width_translate, K1. reflexivity.
      * reflexivity.
      * apply row_translate; exact K2.
  - split; [|exact Hk]. unfold InlineModel.start_layout. cbn [is_stack is_cur is_pos geo lv_fragments lv_inline_start pt_parent pt_style pt_start pt_padding pt_border pt_margin].
    pose proof (geo_pos _ _ _ Hg) as Hpos.
    assert (Hp' : is_pos s = lv_inline_start (is_cur s) + row_width (lv_fragments (is_cur s))) by (rewrite <- Hpos; lring).
    split; [cbn; lring|]. split; [constructor|]. split.
    + exists (v_inline (relative_adjustement st cbw (cb_block cb))). split; [right; reflexivity|].
      cbn [vec2_add v_inline]. rewrite <- Hpos. unfold edge_sum. destruct first; cbn [zero_inline_start s_inline_start]; lring.
    + split; [rewrite Hp'; unfold edge_sum; destruct first; cbn [zero_inline_start s_inline_start]; lring | rewrite <- Hp'; exact Hg].
  - split; [|exact Hk]. cbn [is_stack is_cur is_pos]. rewrite Hst in Hg. eapply geo_finish; eassumption.
  - split; assumption.
Qed.
Lemma trace_geo s e s' : trace s e s' -> Geo s -> Geo s'.
Proof. induction 1 as [s | s e s1 es s2 H1 H2 IH]; intros Hg; [exact Hg|]. apply IH. eapply trans_geo; eassumption. Qed.

End Geometry.

Theorem ifc_layout_ok m_ascent m_descent m_width parent boxes cb rank abs : abspos_oks boxes ->
  exists fl abs' es pos,
    ifc_layout m_ascent m_descent m_width parent boxes cb rank abs = Ok (fl, abs ++ abs') /\
    Forall (fun a => af_rank a = rank) abs' /\
    boxes_events m_width (line_ok m_width) (cb_inline cb) l0 boxes es pos /\
    map line_marks (fl_fragments fl) = cut [] es /\
    stacked m_width cb (align_fraction (sv parent Ltext_align)) l0 (fl_fragments fl) (fl_block_size fl) /\
    fl_margins fl = cb_zero.
Proof.
  intros Hok.
  destruct (ifc_layout_trace m_ascent m_descent m_width parent boxes cb rank abs Hok) as (fl & abs' & es & s & pos & H1 & H2 & H3 & H4 & H5 & T & H6 & H7).
  exists fl, abs', es, pos. split; [exact H1|]. split; [exact H2|]. split; [exact H3|]. split; [exact H4|]. split; [|exact H5].
  rewrite <- H6, <- H7.
  assert (G : Geo m_width cb (sv parent Ltext_align) s).
  { eapply trace_geo; [exact T|]. split; cbn.
    - split; [lring|]. split; [constructor | reflexivity].
    - constructor. }
  exact (proj2 G).
Qed.
