(** Out-of-flow boxes take no space; relative positioning moves one box. *)
From Verif Require Import BlockModel InlineSpec InlineProofs InlineFacts GeomSpec BlockSpec BlockFrame BlockGen.
Local Open Scope len_scope.

Section Any.
Context {ar : Arith} {Z0 : ZeroLaws ar}.

(* ------------------------------------------------------------------ *)
(** * Inline content without its out-of-flow boxes *)
Section Inline.
Variable m_ascent m_descent : style -> Len.
Variable m_width : style -> text -> Len.
Variable cb : cblock.
Variable ta : text_align.
Notation loop := (ifc_loop m_ascent m_descent m_width).
Lemma loop_mono fuel : forall rank rems s s', loop fuel cb ta rank rems s = Ok s' -> loop (S fuel) cb ta rank rems s = Ok s'.
Proof.
  induction fuel as [|fuel IH]; intros rank rems s s' H; [discriminate|]. cbn [ifc_loop] in H. cbn [ifc_loop].
  destruct (hd [] rems) as [|b rest].
  - destruct (is_stack s) as [|p stk]; [exact H|]. destruct (finish_layout p (is_cur s) (is_pos s) false) as [p1 pos].
    apply IH in H. exact H.
  - destruct b as [st first last ch | st t fo | st lay | st lay].
    + apply IH in H. exact H.
    + destruct (text_run_layout m_ascent m_descent m_width cb ta st fo t s); cbn [bind] in *; try discriminate. apply IH in H. exact H.
    + destruct (inline_static_corner st s); cbn [bind] in *; try discriminate. apply IH in H. exact H.
    + apply IH in H. exact H.
Qed.
Lemma loop_more k fuel rank rems s s' : loop fuel cb ta rank rems s = Ok s' -> loop (k + fuel) cb ta rank rems s = Ok s'.
Proof. intros H. induction k as [|k IH]; [exact H|]. apply loop_mono. exact IH. Qed.
Lemma loop_fun f1 f2 rank rems s s1 s2 : loop f1 cb ta rank rems s = Ok s1 -> loop f2 cb ta rank rems s = Ok s2 -> s1 = s2.
Proof. intros H1 H2. apply (loop_more f2) in H1. apply (loop_more f1) in H2. rewrite Nat.add_comm in H1. congruence. Qed.
Lemma hd_strip rems : hd [] (map (flat_map (@strip_ilb _ abs_lay)) rems) = flat_map strip_ilb (hd [] rems).
Proof. destruct rems; reflexivity. Qed.
Lemma tl_strip rems : tl (map (flat_map (@strip_ilb _ abs_lay)) rems) = map (flat_map strip_ilb) (tl rems).
Proof. destruct rems; reflexivity. Qed.
Lemma loop_nil fuel rank rest (rems : list (list (ilb abs_lay))) s s' a : hd [] rems = rest ->
  loop fuel cb ta rank (rest :: tl rems) (with_abs s a) = Ok s' -> loop fuel cb ta rank rems (with_abs s a) = Ok s' \/ rems = [].
Proof. intros <- H. destruct rems; [right; reflexivity | left; exact H]. Qed.
Lemma loop_strip fuel : forall rank rems s s' a, loop fuel cb ta rank rems s = Ok s' ->
  exists fuel2, loop fuel2 cb ta rank (map (flat_map strip_ilb) rems) (with_abs s a) = Ok (with_abs s' a).
Proof.
  induction fuel as [|fuel IH]; intros rank rems s s' a H; [discriminate|]. cbn [ifc_loop] in H.
  destruct (hd [] rems) as [|b rest] eqn:Eh.
  - destruct (is_stack s) as [|p stk] eqn:Es.
    + exists 1%nat. cbn [ifc_loop]. rewrite hd_strip, Eh. cbn [flat_map with_abs is_stack is_pos is_cur is_lines is_abs]. rewrite Es.
      injection H as <-. f_equal. rewrite <- finish_line_abs. unfold with_abs. rewrite Es. reflexivity.
    + destruct (finish_layout p (is_cur s) (is_pos s) false) as [p1 pos] eqn:Ef.
      destruct (IH _ _ _ _ a H) as (f2 & H2). exists (S f2). cbn [ifc_loop]. rewrite hd_strip, Eh.
      cbn [flat_map with_abs is_stack is_pos is_cur is_lines is_abs]. rewrite Es, Ef, tl_strip. exact H2.
  - destruct rems as [|r0 rems]; [discriminate|]. cbn [hd tl] in *. subst r0. cbn [map flat_map].
    destruct b as [st first last ch | st t fo | st lay | st lay]; cbn [strip_ilb app].
    + destruct (IH _ _ _ _ a H) as (f2 & H2). exists (S f2). cbn [ifc_loop hd tl]. exact H2.
    + destruct (text_run_layout m_ascent m_descent m_width cb ta st fo t s) as [s1| |] eqn:E; cbn [bind] in H; try discriminate.
      destruct (IH _ _ _ _ a H) as (f2 & H2). exists (S f2). cbn [ifc_loop hd tl]. rewrite text_run_abs, E. cbn [rmap bind]. exact H2.
    + destruct (inline_static_corner st s) as [c| |]; cbn [bind] in H; try discriminate.
      destruct (IH _ _ _ _ a H) as (f2 & H2). exists f2. exact H2.
    + destruct (IH _ _ _ _ a H) as (f2 & H2). exists f2. exact H2.
Qed.
End Inline.
Lemma with_abs_lines s a : is_lines (with_abs s a) = is_lines s. Proof. reflexivity. Qed.
Lemma strip_abspos_ok : forall b : ilb abs_lay, abspos_oks (strip_ilb b).
Proof.
  assert (A : forall l1 l2 : list (ilb abs_lay), abspos_oks l1 -> abspos_oks l2 -> abspos_oks (l1 ++ l2)).
  { induction l1 as [|x l1 IH]; intros l2 H1 H2; [exact H2|]. destruct H1 as [X1 X2]. split; [exact X1 | exact (IH l2 X2 H2)]. }
  fix IH 1. intros b. destruct b as [st fi la_ ch | st t fo | st c | st c]; cbn [strip_ilb]; try exact I.
  - split; [|exact I]. induction ch as [|x ch IHc]; [exact I|]. cbn [flat_map]. apply A; [apply IH | exact IHc].
  - split; exact I.
Qed.
Lemma ifc_strip ma md mw parent boxes cb : abspos_oks boxes ->
  exists fl, (forall rank abs fl1 abs1, ifc_layout ma md mw parent boxes cb rank abs = Ok (fl1, abs1) -> fl1 = fl) /\
    forall rank abs, ifc_layout ma md mw parent (flat_map strip_ilb boxes) cb rank abs = Ok (fl, abs).
Proof.
  intros Hok. destruct (ifc_frame ma md mw parent boxes cb (fun _ => True) Hok) as (fl & g & _ & E).
  { clear. apply Forall_forall. intros x _. revert x. fix IH 1. intros x. destruct x as [st fi la_ ch | st t fo | st c | st c]; try exact I.
    cbn [ilb_every]. induction ch as [|y ch IHc]; [exact I|]. split; [apply IH | exact IHc]. }
  exists fl. split; [intros rank abs fl1 abs1 H; rewrite E in H; congruence|].
  intros rank abs. pose proof (E rank []) as E0. unfold ifc_layout in E0.
  destruct (ifc_loop ma md mw (S (boxes_steps boxes)) cb (sv parent Ltext_align) rank [boxes] (ifc_start ma md parent [])) as [s| |] eqn:El;
    cbn [bind] in E0; try discriminate. injection E0 as E1 E2.
  destruct (loop_strip ma md mw cb (sv parent Ltext_align) _ _ _ _ _ abs El) as (f2 & H2). cbn [map] in H2.
  change (with_abs (ifc_start ma md parent []) abs) with (ifc_start ma md parent abs) in H2.
  assert (Hs : abspos_oks (flat_map strip_ilb boxes)).
  { clear. induction boxes as [|b boxes IH]; [exact I|]. cbn [flat_map].
    assert (A : forall l1 l2 : list (ilb abs_lay), abspos_oks l1 -> abspos_oks l2 -> abspos_oks (l1 ++ l2)).
    { induction l1 as [|x l1 IHl]; intros l2 H1 H2; [exact H2|]. destruct H1 as [X1 X2]. split; [exact X1 | exact (IHl l2 X2 H2)]. }
    apply A; [apply strip_abspos_ok | exact IH]. }
  destruct (ifc_layout_any ma md mw parent (flat_map strip_ilb boxes) cb rank abs Hs) as (fl' & abs' & _ & _ & E' & _).
  rewrite E'. unfold ifc_layout in E'.
  destruct (ifc_loop ma md mw (S (boxes_steps (flat_map strip_ilb boxes))) cb (sv parent Ltext_align) rank [flat_map strip_ilb boxes] (ifc_start ma md parent abs)) as [s2| |] eqn:El2;
    cbn [bind] in E'; try discriminate.
  rewrite (loop_fun _ _ _ _ _ _ _ _ _ _ _ _ El2 H2) in E'. injection E' as <- <-. cbn [with_abs is_lines is_abs]. rewrite E1. reflexivity.
Qed.
Lemma strip_map {A B} (f : style -> A -> B) : forall b : ilb A, strip_ilb (ilb_map f b) = map (ilb_map f) (strip_ilb b).
Proof.
  fix IH 1. intros b. destruct b as [st fi la_ ch | st t fo | st c | st c]; try reflexivity.
  cbn [ilb_map strip_ilb map]. f_equal. f_equal. induction ch as [|x ch IHc]; [reflexivity|]. cbn [map flat_map]. rewrite IH, IHc, map_app. reflexivity.
Qed.
Lemma strips_map {A B} (f : style -> A -> B) l : flat_map strip_ilb (map (ilb_map f) l) = map (ilb_map f) (flat_map strip_ilb l).
Proof. induction l as [|x l IH]; [reflexivity|]. cbn [map flat_map]. rewrite strip_map, IH, map_app. reflexivity. Qed.

(* ------------------------------------------------------------------ *)
(** * Block content without its out-of-flow boxes *)
Inductive rel : list blb -> list fragment -> list fragment -> Prop :=
| rel_nil : rel [] [] []
| rel_in b f f' l fs fs' : in_flow b = true -> same_flow b f f' -> rel l fs fs' -> rel (b :: l) (f :: fs) (f' :: fs')
| rel_out b r l fs fs' : in_flow b = false -> r_size r = vec2_zero -> rel l fs fs' -> rel (b :: l) (FAnon r [] :: fs) fs'.
Lemma rel_children l fs fs' : rel l fs fs' -> forall extra, same_children (BlockLevelBoxes l) (fs ++ extra) fs'.
Proof.
  intros H extra. cbn [same_children]. induction H as [|b f f' l fs fs' H1 H2 H3 IH|b r l fs fs' H1 H2 H3 IH].
  - reflexivity.
  - cbn [app]. rewrite H1. split; [exact H2 | exact IH].
  - cbn [app]. rewrite H1. exact IH.
Qed.
Lemma same_flow_box b f f' : same_flow b f f' -> exists st ch ch' r p bd m cm, f = FBox st ch r p bd m cm /\ f' = FBox st ch' r p bd m cm.
Proof. destruct b as [st c|st c|st c|st [fl c]]; cbn [same_flow]; intros H; try contradiction; destruct H as (ch & ch' & r & p & bd & m & cm & -> & -> & _); repeat eexists. Qed.
Lemma same_flow_move b ch ch' st r p bd m cm r2 : same_flow b (FBox st ch r p bd m cm) (FBox st ch' r p bd m cm) ->
  same_flow b (FBox st ch r2 p bd m cm) (FBox st ch' r2 p bd m cm).
Proof.
  destruct b as [st0 c|st0 c|st0 c|st0 [fl c]]; cbn [same_flow]; intros H; try contradiction;
    destruct H as (ch1 & ch1' & r1 & p1 & bd1 & m1 & cm1 & E1 & E2 & H); injection E1 as -> -> -> -> -> -> ->; injection E2 as ->;
    repeat eexists; exact H.
Qed.
Lemma place_same b f f' s f1 s1 : same_flow b f f' -> place f s = Ok (f1, s1) -> exists f1', place f' s = Ok (f1', s1) /\ same_flow b f1 f1'.
Proof.
  intros H. destruct (same_flow_box _ _ _ H) as (st & ch & ch' & r & p & bd & m & cm & -> & ->). cbn [place].
  destruct (pl_collapses s).
  - destruct (leqb _ _); [|discriminate]. destruct (cb_through cm); intros E; injection E as <- <-; eexists; (split; [reflexivity|]);
      [exact H | eapply same_flow_move; exact H].
  - destruct (cb_through cm); intros E; injection E as <- <-; eexists; (split; [reflexivity|]); eapply same_flow_move; exact H.
Qed.
Lemma place_all_rel l fs fs' : rel l fs fs' -> forall s fs1 s1, place_all fs s = Ok (fs1, s1) ->
  exists fs1', place_all fs' s = Ok (fs1', s1) /\ rel l fs1 fs1'.
Proof.
  induction 1 as [|b f f' l fs fs' H1 H2 H3 IH|b r l fs fs' H1 H2 H3 IH]; intros s fs1 s1 E; cbn [place_all] in E.
  - injection E as <- <-. exists []. split; [reflexivity | constructor].
  - destruct (place f s) as [[f2 s2]| |] eqn:E1; cbn [bind] in E; try discriminate.
    destruct (place_all fs s2) as [[fs2 s3]| |] eqn:E2; cbn [bind] in E; try discriminate. injection E as <- <-.
    destruct (place_same _ _ _ _ _ _ H2 E1) as (f2' & E1' & H2'). destruct (IH _ _ _ E2) as (fs2' & E2' & H3').
    exists (f2' :: fs2'). cbn [place_all]. rewrite E1'. cbn [bind]. rewrite E2'. split; [reflexivity | constructor; assumption].
  - cbn [place] in E. destruct (leqb _ _); [|discriminate]. cbn [bind] in E.
    destruct (place_all fs s) as [[fs2 s3]| |] eqn:E2; cbn [bind] in E; try discriminate. injection E as <- <-.
    destruct (IH _ _ _ E2) as (fs2' & E2' & H3'). exists fs2'. split; [exact E2'|]. constructor; assumption.
Qed.

Section Tree.
Variable m_ascent m_descent : style -> Len.
Variable m_width : style -> text -> Len.
Notation layout_blb := (layout_blb m_ascent m_descent m_width).
Notation layout_container := (layout_container m_ascent m_descent m_width).
Notation layout_bfc := (layout_bfc m_ascent m_descent m_width).

Definition strips_blb (b : blb) : Prop := wf_blb b -> in_flow b = true -> forall cb, exists b' f f' g,
  strip b = [b'] /\ framed_as (layout_blb b cb) f g /\ framed_as (layout_blb b' cb) f' [] /\ same_flow b f f'.
Definition strips_container (c : bcontainer) : Prop := wf_container c -> forall cb col, exists fl fl' g,
  Forall total_abs g /\
  flow_framed_as (fun rank abs floats => layout_container c cb rank abs floats col) fl g /\
  flow_framed_as (fun rank abs floats => layout_container (strip_container c) cb rank abs floats col) fl' [] /\
  fl_block_size fl' = fl_block_size fl /\ fl_margins fl' = fl_margins fl /\
  forall extra, same_children c (fl_fragments fl ++ extra) (fl_fragments fl').
Definition strips_bfc (c : bfc) : Prop := match c with BFC _ c' => strips_container c' end.

Lemma framed_nil (g : list abs_frag) rank abs : g = [] -> abs ++ map (with_rank rank) g = abs.
Proof. intros ->. apply app_nil_r. Qed.

Lemma strips_in_flow cb st same (lay lay' : nat -> bool -> cblock -> list abs_frag -> bool -> result (flow * list abs_frag)) c :
  (forall cb' col, exists fl fl' g, Forall total_abs g /\
     flow_framed_as (fun rank abs floats => lay rank floats cb' abs col) fl g /\
     flow_framed_as (fun rank abs floats => lay' rank floats cb' abs col) fl' [] /\
     fl_block_size fl' = fl_block_size fl /\ fl_margins fl' = fl_margins fl /\
     forall extra, same_children c (fl_fragments fl ++ extra) (fl_fragments fl')) ->
  exists f f' g, framed_as (fun rank abs floats => layout_in_flow cb st same abs (lay rank floats)) f g /\
    framed_as (fun rank abs floats => layout_in_flow cb st same abs (lay' rank floats)) f' [] /\
    exists ch ch' r p bd m cm, f = FBox st ch r p bd m cm /\ f' = FBox st ch' r p bd m cm /\ same_children c ch ch'.
Proof.
  intros H. destruct (H (if_children_cb cb st) (if_start_collapse cb st same)) as (fl & fl' & g & Tg & F & F' & Hb & Hm & Hc).
  assert (Ec : if_content cb st same fl' = if_content cb st same fl).
  { unfold if_content, if_height. rewrite Hb, Hm. reflexivity. }
  unfold framed_as, layout_in_flow, flow_framed_as in *. destruct (is_relatively_positioned (sv st Lposition)).
  - destruct (positioned_ok g (fl_fragments fl) (r_size (if_content cb st same fl)) (if_padding cb st) Tg) as (ch & Ech).
    assert (Hch : exists extra, ch = fl_fragments fl ++ extra).
    { unfold in_positioned_containing_block in Ech. destruct g; [injection Ech as <-; exists []; rewrite app_nil_r; reflexivity|].
      destruct (mapR _ _); cbn [bind] in Ech; try discriminate. injection Ech as <-. eexists; reflexivity. }
    destruct Hch as (extra & Hch).
    eexists _, _, []. split; [|split].
    + intros rank abs floats. rewrite F. cbn [bind app]. rewrite positioned_rank, Ech. cbn [bind map]. rewrite app_nil_r. reflexivity.
    + intros rank abs floats. rewrite F'. cbn [bind app map in_positioned_containing_block]. rewrite app_nil_r. reflexivity.
    + repeat eexists; [rewrite Ec, Hm; reflexivity|]. rewrite Hch. apply Hc.
  - eexists _, _, g. split; [|split].
    + intros rank abs floats. rewrite F. cbn [bind]. reflexivity.
    + intros rank abs floats. rewrite F'. cbn [bind]. reflexivity.
    + repeat eexists; [rewrite Ec, Hm; reflexivity|]. specialize (Hc []). rewrite app_nil_r in Hc. exact Hc.
Qed.

Lemma strips_list l cb : Forall strips_blb l -> wf_container (BlockLevelBoxes l) -> forall fs gss, framed_list (map layout_blb l) cb fs gss ->
  exists fs', framed_list (map layout_blb (flat_map strip l)) cb fs' (map (fun _ => []) fs') /\ rel l fs fs'.
Proof.
  cbn [wf_container]. intros Hl. induction Hl as [|b l Hb Hl IH]; intros W fs gss (F & L1 & L2); destruct fs as [|f fs], gss as [|g gss]; try discriminate.
  - exists []. split; [repeat split; constructor | constructor].
  - destruct W as [W1 W2]. cbn [map combine] in F. inversion F as [|? ? ? ? F1 F2]; subst. cbn [fst snd] in F1.
    destruct (IH W2 fs gss) as (fs' & (F' & L1' & L2') & R). { repeat split; [exact F2| |]; cbn in L1, L2; congruence. }
    destruct (in_flow b) eqn:Eb.
    + destruct (Hb W1 Eb cb) as (b' & f0 & f' & g0 & Es & X1 & X2 & X3).
      assert (f0 = f) as ->. { pose proof (F1 O [] false) as Y1. rewrite (X1 O [] false) in Y1. congruence. }
      exists (f' :: fs'). cbn [flat_map]. rewrite Es. cbn [app map]. split; [|constructor; assumption].
      split; [constructor; [exact X2 | exact F']|]. cbn. split; congruence.
    + assert (Es : strip b = []) by (destruct b as [| | |? [? ?]]; try discriminate; reflexivity).
      assert (f = anon_no_op) as ->. { pose proof (F1 O [] false) as Y1. destruct b; try discriminate; cbn [BlockModel.layout_blb] in Y1; congruence. }
      exists fs'. cbn [flat_map]. rewrite Es. cbn [app]. split; [split; [exact F'|]; split; assumption|]. constructor; [exact Eb | reflexivity | exact R].
Qed.
Lemma ranked_nils {A} (l : list A) : forall r, ranked r (map (fun _ => []) l) = [].
Proof. induction l as [|a l IH]; intros r; [reflexivity|]. cbn. apply IH. Qed.
Lemma strips_all : (forall b, strips_blb b) /\ (forall c, strips_container c).
Proof.
  assert (H1 : forall st c, strips_container c -> strips_blb (SameFC st c)).
  { intros st c Hc W _ cb.
    destruct (strips_in_flow cb st true (fun rank floats cb' abs' col => layout_container c cb' rank abs' floats col)
      (fun rank floats cb' abs' col => layout_container (strip_container c) cb' rank abs' floats col) c (Hc W)) as (f & f' & g & X1 & X2 & X3).
    exists (SameFC st (strip_container c)), f, f', g. split; [reflexivity|]. split; [exact X1|]. split; [exact X2 | exact X3]. }
  assert (H4 : forall st c, strips_bfc c -> strips_blb (Indep st c)).
  { intros st [fl0 c] Hc W _ cb.
    destruct (strips_in_flow cb st false (fun rank floats cb' abs' (_ : bool) => layout_bfc (BFC fl0 c) cb' rank abs')
      (fun rank floats cb' abs' (_ : bool) => layout_bfc (BFC fl0 (strip_container c)) cb' rank abs') c) as (f & f' & g & X1 & X2 & X3).
    { intros cb' col. destruct (Hc W cb' false) as (fl & fl' & g & Tg & F & F' & Hb & Hm & Hch).
      unfold flow_framed_as in *.
      exists (Flow (fl_fragments fl) (fl_block_size fl + cm_solve (cb_end (fl_margins fl))) (CBMargins false (cb_start (fl_margins fl)) cm_zero)),
        (Flow (fl_fragments fl') (fl_block_size fl' + cm_solve (cb_end (fl_margins fl'))) (CBMargins false (cb_start (fl_margins fl')) cm_zero)), g.
      split; [exact Tg|]. split; [|split; [|split; [|split]]].
      - intros rank abs floats. change (layout_bfc (BFC fl0 c) cb' rank abs) with (bfc_finish (layout_container c cb' rank abs fl0 false)).
        rewrite F. reflexivity.
      - intros rank abs floats. change (layout_bfc (BFC fl0 (strip_container c)) cb' rank abs) with (bfc_finish (layout_container (strip_container c) cb' rank abs fl0 false)).
        rewrite F'. reflexivity.
      - cbn [fl_block_size]. rewrite Hb, Hm. reflexivity.
      - cbn [fl_margins]. rewrite Hm. reflexivity.
      - exact Hch. }
    exists (Indep st (BFC fl0 (strip_container c))), f, f', g. split; [reflexivity|]. split; [exact X1|]. split; [exact X2 | exact X3]. }
  assert (H5 : forall l, Forall strips_blb l -> strips_container (BlockLevelBoxes l)).
  { intros l Hl W cb col.
    destruct (proj1 (proj2 (layout_framed m_ascent m_descent m_width)) (BlockLevelBoxes l) W cb col) as (fl & g & Tg & F).
    pose proof (F O [] false) as F0. change (layout_block_level_children (map layout_blb l) cb O [] false col = Ok (fl, [] ++ map (with_rank O) g)) in F0.
    destruct (children_result _ _ _ _ _ _ _ _ (wf_framed m_ascent m_descent m_width l W) F0) as (fs & gss & s1 & Fl & Ep & Eb & Em).
    destruct (strips_list l cb Hl W fs gss Fl) as (fs' & Fl' & R). destruct (place_all_rel _ _ _ R _ _ _ Ep) as (fs1' & Ep' & R').
    exists fl, (Flow fs1' (pl_pos s1) (CBMargins (pl_collapses s1) (pl_start s1) (pl_margin s1))), g.
    split; [exact Tg|]. split; [exact F|]. split; [|split; [symmetry; exact Eb|split; [symmetry; exact Em|apply rel_children; exact R']]].
    intros rank abs floats. change (layout_container (strip_container (BlockLevelBoxes l)) cb rank abs floats col) with (layout_block_level_children (map layout_blb (flat_map strip l)) cb rank abs floats col). unfold layout_block_level_children.
    rewrite (children_floats_framed _ _ _ _ Fl'), (children_layout_framed _ _ _ _ Fl'), Ep'. cbn [bind]. rewrite Ep'. cbn [bind].
    rewrite ranked_nils. cbn [map]. rewrite !app_nil_r.
    assert (K : adjust_static_positions (List.length abs) abs fs1' rank = Ok abs).
    { unfold adjust_static_positions. rewrite skipn_all, firstn_all. cbn [mapR bind]. rewrite app_nil_r. reflexivity. }
    destruct floats; cbn [bind]; rewrite K; reflexivity. }
  assert (H6 : forall st l, strips_container (InlineFC st l)).
  { intros st l W cb col. destruct (proj1 (proj2 (layout_framed m_ascent m_descent m_width)) (InlineFC st l) W cb col) as (fl & g & Tg & F).
    set (f := fun st c' => abs_layout st (fun cb' => layout_bfc c' cb' O [])).
    assert (Hok : abspos_oks (map (ilb_map f) l)).
    { cbn [wf_container] in W. clear - W. induction l as [|b l IH]; [exact I|]. destruct W as [W1 W2]. split; [|exact (IH W2)]. clear - W1.
      revert b W1. fix IHb 1. intros b W1. destruct b as [st fi la_ ch | st t fo | st c | st c]; try exact I.
      - cbn [ilb_map abspos_ok ilb_every] in *. induction ch as [|x ch IHc]; [exact I|]. destruct W1 as [A1 A2]. split; [exact (IHb x A1) | exact (IHc A2)].
      - exact (proj1 W1). }
    destruct (ifc_strip m_ascent m_descent m_width st _ cb Hok) as (fl0 & E1 & E2).
    assert (fl = fl0) as -> by (eapply E1; exact (F O [] false)).
    exists fl0, fl0, g. split; [exact Tg|]. split; [exact F|]. split; [|split; [reflexivity|split; [reflexivity|intros extra; exists extra; reflexivity]]].
    intros rank abs floats. cbn [map]. rewrite app_nil_r. rewrite strips_map in E2. apply E2. }
  split.
  - apply (blb_tree strips_blb strips_container strips_bfc); auto.
    + intros st c _ W Hf. discriminate.
    + intros st c _ W Hf. discriminate.
  - apply (container_tree strips_blb strips_container strips_bfc); auto.
    + intros st c _ W Hf. discriminate.
    + intros st c _ W Hf. discriminate.
Qed.
End Tree.
End Any.
