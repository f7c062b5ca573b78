(** A box of fixed height keeps its contents to itself: boxes and layout (C100). *)
From Verif Require Import Base Len StyleModel StyleSpec GeomModel GfxModel BlockModel BlockSpec BlockFrame BlockGen BlockStack PaintModel PaintProofs.
From Verif Require Import TreeModel TreeSpec TreeFacts TreeProofs TreeInv.
From Verif Require Import AppendSpec AppendBox AppendProofs AppendExact PrependSpec PrependBox PrependProofs WrapSpec WrapInline UnboxSpec UnboxProofs UnboxBox ContainSpec.
Local Open Scope len_scope.
Local Open Scope result_scope.

(* ------------------------------------------------------------------ *)
(** * Boxes *)
Definition boxed (st : style) (c : bcontainer) (fl : bool) : blb :=
  match sv st Ldisplay with DispBox _ IFlow => SameFC st c | _ => Indep st (BFC fl c) end.
Lemma box_finished st kids f x f' : in_flow_block st -> finish_all (inter_of (SElem false st kids)) f = TreeModel.Done (x, f') ->
  exists c fl, construct_container st kids = TreeModel.Done (c, fl) /\ x = [boxed st c fl].
Proof.
  intros ((i & D) & _) F. unfold boxed. cbn [inter_of] in F. rewrite D in *. destruct i; cbn [finish_all finish_one] in F;
    apply obind_done in F as ([y fy] & Fy & F); cbn [TreeModel.obind] in F; injection F as <- _.
  - apply with_slot_done, obind_done in Fy as ([d fd] & Xd & Fy). injection Fy as <- _. eauto.
  - apply with_slot_done, obind_done in Fy as (d0 & Xd & Fy). injection Fy as <- _. apply obind_done in Xd as ([d fd] & Xd & X1). injection X1 as <-. eauto.
Qed.
(** whatever the contents of the block, the boxes around its own are the same *)
Lemma box_between parent before st after kids0 c0 fl0 : in_flow_block st ->
  construct_container parent (before ++ SElem false st kids0 :: after) = TreeModel.Done (c0, fl0) ->
  exists l1 l2, forall kids c fl, construct_container parent (before ++ SElem false st kids :: after) = TreeModel.Done (c, fl) ->
    exists d f, construct_container st kids = TreeModel.Done (d, f) /\ c = BlockLevelBoxes (l1 ++ boxed st d f :: l2).
Proof.
  intros B H0.
  assert (K : forall kids c fl, construct_container parent (before ++ SElem false st kids :: after) = TreeModel.Done (c, fl) ->
     exists b1 b l1 l2 ms f0 f1 f2 f3 d f,
       traverse_with (fun n hn => handle_node parent n true) before (builder_new parent) = TreeModel.Done b1 /\
       traverse_with (handle_node parent) after (Builder (b_style b1) (b_boxes b1 ++ flushed b1 ++ inter_of (SElem false st kids)) [] [] (b_floats b1)) = TreeModel.Done b /\
       b_boxes b = ((b_boxes b1 ++ flushed b1) ++ inter_of (SElem false st kids)) ++ ms /\
       finish_all (b_boxes b1 ++ flushed b1) f0 = TreeModel.Done (l1, f1) /\ finish_all (ms ++ flushed b) f2 = TreeModel.Done (l2, f3) /\
       construct_container st kids = TreeModel.Done (d, f) /\ c = BlockLevelBoxes (l1 ++ boxed st d f :: l2)).
  { intros kids c fl H. unfold construct_container in H. apply obind_done in H as (b & T & H).
    pose proof (traverse_stack _ _ _ T) as Hs. unfold traverse in T. pose proof T as T0. apply traverse_split in T as (b1 & E1 & E2).
    pose proof (true_stack _ _ _ _ _ _ T0 E1 (conj eq_refl B)) as Hs1. cbn [traverse_with] in E2.
    rewrite (block_node parent (SElem false st kids) _ b1 (conj eq_refl B) Hs1) in E2. cbn [TreeModel.obind] in E2.
    set (q := inter_of (SElem false st kids)) in *.
    match type of E2 with traverse_with _ _ ?b0 = _ =>
      assert (Bh : behind ((b_boxes b1 ++ flushed b1) ++ q) ((b_boxes b1 ++ flushed b1) ++ q) b0 b0)
        by (repeat split; exists []; cbn [b_boxes]; rewrite !app_nil_r, <- !app_assoc; split; reflexivity) end.
    destruct (behind_kids parent after _ _ _ _ _ Bh E2) as (b2 & _ & _ & _ & _ & ms & M & _).
    destruct (finish_blocks _ _ _ Hs H) as [(x & l & _ & N & _)|(xs & f & F & ->)].
    { rewrite M in N. exfalso. subst q. clear - N. destruct (b_boxes b1 ++ flushed b1); discriminate N. }
    rewrite M, <- !app_assoc, app_assoc in F. destruct (finish_all_app _ _ _ _ _ F) as (l1 & r & g1 & F1 & Fr & ->).
    destruct (finish_all_app _ _ _ _ _ Fr) as (x & l2 & g2 & F2 & F3 & ->). destruct (box_finished _ _ _ _ _ B F2) as (d & fd & D & ->).
    exists b1, b, l1, l2, ms, f, g1, g2, fl, d, fd. repeat split; assumption. }
  destruct (K _ _ _ H0) as (b1 & b & l1 & l2 & ms & f0 & f1 & f2 & f3 & d & f & E1 & E2 & M & F1 & F2 & _ & _).
  exists l1, l2. intros kids c fl H.
  destruct (K _ _ _ H) as (b1' & b' & l1' & l2' & ms' & f0' & f1' & f2' & f3' & d' & f' & E1' & E2' & M' & F1' & F2' & D & ->).
  assert (b1' = b1) as -> by congruence. rewrite (finish_all_flag _ _ _ _ _ _ _ F1' F1).
  match type of E2 with traverse_with _ _ ?b0 = _ => match type of E2' with traverse_with _ _ ?b0' = _ =>
      assert (Bh : behind ((b_boxes b1 ++ flushed b1) ++ inter_of (SElem false st kids0)) ((b_boxes b1 ++ flushed b1) ++ inter_of (SElem false st kids)) b0 b0')
        by (repeat split; exists []; cbn [b_boxes]; rewrite !app_nil_r, <- !app_assoc; split; reflexivity) end end.
  destruct (behind_kids parent after _ _ _ _ _ Bh E2) as (b2 & E & Sty & Inl & Stk & ms2 & X & X'). assert (b2 = b') as -> by congruence.
  rewrite M in X. apply app_inv_head in X as <-. rewrite M' in X'. apply app_inv_head in X' as ->.
  assert (Fl : flushed b' = flushed b) by (unfold flushed; rewrite Inl, Sty; reflexivity). rewrite Fl in F2'.
  rewrite (finish_all_flag _ _ _ _ _ _ _ F2' F2). eauto.
Qed.

(* ------------------------------------------------------------------ *)
(** * Layout *)
Section Font.
Variable font_of : style -> font.
Variable m_ascent m_descent : style -> Len.
Variable m_width : style -> text -> Len.
Notation seen := (seen font_of).
Notation sees := (fun o fs => flat_map (seen o) fs).
Notation layout_blb := (layout_blb m_ascent m_descent m_width).
Notation layout_container := (layout_container m_ascent m_descent m_width).
Notation layout_bfc := (layout_bfc m_ascent m_descent m_width).

(** [around B A fs]: between what [B] and [A] say there is something, whatever the origin *)
Definition around (B A : Len * Len -> list dcall) (fs : list fragment) : Prop := exists I, forall o, sees o fs = B o ++ I o ++ A o.
Definition exactly (B A : Len * Len -> list dcall) (fs : list fragment) : Prop := forall o, sees o fs = B o ++ A o.

(** a box with other children is placed the same way *)
Lemma place_box st ch r p b m cm s g t : place (FBox st ch r p b m cm) s = Ok (g, t) ->
  exists y, g = FBox st ch (Rect (Vec2 (v_inline (r_start r)) y) (r_size r)) p b m cm /\
    forall ch', place (FBox st ch' r p b m cm) s = Ok (FBox st ch' (Rect (Vec2 (v_inline (r_start r)) y) (r_size r)) p b m cm, t).
Proof.
  cbn [place]. cbv zeta. intros H.
  destruct (pl_collapses s); [destruct (leqb _ _); [|discriminate]|]; destruct (cb_through cm); apply ok_pair in H as [-> ->];
    try (eexists; split; [unfold shift_block; reflexivity|intros; reflexivity]).
  exists (v_block (r_start r)). assert (E : Rect (Vec2 (v_inline (r_start r)) (v_block (r_start r))) (r_size r) = r) by (destruct r as [[? ?] ?]; reflexivity).
  rewrite E. split; [reflexivity|intros; reflexivity].
Qed.

(** one box among others, all laid out and placed *)
Lemma between cb l1 l2 x0 rank abs floats col fl0 a0 B A :
  wf_container (BlockLevelBoxes (l1 ++ x0 :: l2)) -> layout_container (BlockLevelBoxes (l1 ++ x0 :: l2)) cb rank abs floats col = Ok (fl0, a0) ->
  (forall st ch r p b m cm, lays_as cb (layout_blb x0) (FBox st ch r p b m cm) -> exactly B A ch) ->
  (exists st ch r p b m cm, lays_as cb (layout_blb x0) (FBox st ch r p b m cm)) ->
  exists B' A', exactly B' A' (fl_fragments fl0) /\ forall x rank' abs' floats' fl a,
    wf_container (BlockLevelBoxes (l1 ++ x :: l2)) -> layout_container (BlockLevelBoxes (l1 ++ x :: l2)) cb rank' abs' floats' col = Ok (fl, a) ->
    (forall st ch r p b m cm f, lays_as cb (layout_blb x0) (FBox st ch r p b m cm) -> lays_as cb (layout_blb x) f ->
       exists ch', f = FBox st ch' r p b m cm /\ around B A ch') ->
    around B' A' (fl_fragments fl) /\ fl_block_size fl = fl_block_size fl0 /\ fl_margins fl = fl_margins fl0.
Proof.
  intros W E H0 (st & ch & r & p & b & m & cm & L0). pose proof (H0 _ _ _ _ _ _ _ L0) as X0.
  apply all_inv in E as (fs & s1 & F & P & Bs & M); [|exact W].
  apply lays_app in F as (x & yz & Fx & F & ->). inversion F as [|? f0 ? z Hf0 Fz]; subst. clear F.
  assert (f0 = FBox st ch r p b m cm) as -> by (eapply lays_unique; eassumption).
  apply split_result in P as (gx & gyz & sx & Px & P & Ef). cbn [place_all] in P.
  destruct (place (FBox st ch r p b m cm) sx) as [[g t]| |] eqn:E1 in P; cbn [bind] in P; try discriminate.
  destruct (place_all z t) as [[gz s2]| |] eqn:Ez in P; cbn [bind] in P; try discriminate. injection P as <- <-.
  destruct (place_box _ _ _ _ _ _ _ _ _ _ E1) as (y & -> & Pl). set (r' := Rect (Vec2 (v_inline (r_start r)) y) (r_size r)) in *.
  exists (fun o => sees o gx ++ box_calls st (on o (border_rect_of r' p b)) (on o (padding_rect_of r' p)) ++ B (inside o r')), (fun o => A (inside o r') ++ sees o gz).
  split.
  { intros o. cbv beta. rewrite Ef, flat_map_app. cbn [flat_map WrapInline.seen]. pose proof (X0 (inside o r')) as X. cbv beta in X. rewrite X, <- !app_assoc. reflexivity. }
  intros x1 rank' abs' floats' fl a W' E' H1. apply all_inv in E' as (fs' & s1' & F' & P' & Bs' & M'); [|exact W'].
  apply lays_app in F' as (x' & yz' & Fx' & F' & ->). inversion F' as [|? f1 ? z' Hf1 Fz']; subst. clear F'.
  destruct (H1 _ _ _ _ _ _ _ _ L0 Hf1) as (ch' & -> & I & HI).
  pose proof (lays_same _ _ _ _ _ _ _ Fx Fx') as ->. pose proof (lays_same _ _ _ _ _ _ _ Fz Fz') as ->.
  apply split_result in P' as (gx' & gyz' & sx' & Px' & P' & Ef'). rewrite Px in Px'. injection Px' as <- <-. cbn [place_all] in P'.
  rewrite (Pl ch') in P'. cbn [bind] in P'. rewrite Ez in P'. cbn [bind] in P'. injection P' as <- <-.
  split; [|split; congruence]. exists (fun o => I (inside o r')). intros o. rewrite Ef', flat_map_app. cbn [flat_map WrapInline.seen].
  pose proof (HI (inside o r')) as X. cbv beta in X. rewrite X, <- !app_assoc. reflexivity.
Qed.

(** one box laid out *)
Lemma indep_layout cb st d f fr : af_container d -> lays_as cb (layout_blb (Indep st (BFC f d))) fr -> exists floats fl abs a,
  layout_container d (if_children_cb cb st) O abs floats (if_start_collapse cb st false) = Ok (fl, a) /\
  forall fl1, fl_block_size fl1 = fl_block_size fl -> fl_margins fl1 = fl_margins fl ->
    fr = FBox st (fl_fragments fl) (if_content cb st false (Flow [] (fl_block_size fl1 + cm_solve (cb_end (fl_margins fl1))) (CBMargins false (cb_start (fl_margins fl1)) cm_zero)))
           (if_padding cb st) (if_border cb st) (if_margin cb st)
           (if_margins cb st false (CBMargins false (cb_start (fl_margins fl1)) cm_zero)).
Proof.
  intros A H. apply lays_ok in H as [b H].
  change (layout_in_flow cb st false [] (fun cb' abs' (_ : bool) => layout_bfc (BFC f d) cb' O abs') = Ok (fr, b)) in H.
  apply in_flow_free in H as (fl & abs0 & H & -> & _).
  - apply bfc_inv in H as (g & H & E1 & E2 & E3). exists f, g, abs0, abs0. split; [exact H|]. intros fl1 X1 X2. rewrite E1. unfold if_content, if_height, if_child_end. rewrite E2, E3, X1, X2. reflexivity.
  - intros cb0 ab0 col0 fl0 ab1 X. apply bfc_inv in X as (g & X & _). exact (proj1 (proj1 (proj2 (free_layout m_ascent m_descent m_width)) d A _ _ _ _ _ _ _ X)).
Qed.
Lemma boxed_layout cb st d f fr : af_container d -> lays_as cb (layout_blb (boxed st d f)) fr -> exists same floats fl abs a,
  same = match sv st Ldisplay with DispBox _ IFlow => true | _ => false end /\
  layout_container d (if_children_cb cb st) O abs floats (if_start_collapse cb st same) = Ok (fl, a) /\
  (forall fl1, fl_block_size fl1 = fl_block_size fl -> fl_margins fl1 = fl_margins fl ->
    fr = FBox st (fl_fragments fl) (if_content cb st same (if same then fl1 else Flow [] (fl_block_size fl1 + cm_solve (cb_end (fl_margins fl1))) (CBMargins false (cb_start (fl_margins fl1)) cm_zero)))
           (if_padding cb st) (if_border cb st) (if_margin cb st)
           (if_margins cb st same (if same then fl_margins fl1 else CBMargins false (cb_start (fl_margins fl1)) cm_zero))).
Proof.
  intros A H. unfold boxed in H. destruct (sv st Ldisplay) as [| |o [|]].
  1,2,4 : destruct (indep_layout cb st d f fr A H) as (floats & fl & abs & a & X & Y); exists false, floats, fl, abs, a; split; [reflexivity|split; [exact X|exact Y]].
  apply lays_ok in H as [b H].
  change (layout_in_flow cb st true [] (fun cb' abs' col => layout_container d cb' O abs' false col) = Ok (fr, b)) in H.
  apply in_flow_free in H as (fl & abs0 & H & -> & _); [|intros cb0 ab0 col0 fl0 ab1 X; exact (proj1 (proj1 (proj2 (free_layout m_ascent m_descent m_width)) d A _ _ _ _ _ _ _ X))].
  exists true, false, fl, abs0, abs0. split; [reflexivity|]. split; [exact H|]. intros fl1 X1 X2. unfold if_content, if_height. rewrite X1, X2. reflexivity.
Qed.

(** the box meant: its own size and margins do not depend on its contents *)
Lemma contains_start cb st same : contains_contents st -> same = match sv st Ldisplay with DispBox _ IFlow => true | _ => false end -> if_start_collapse cb st same = false.
Proof.
  intros (_ & [D|(p & b & Hp & Hb & L)]) ->; [rewrite D; reflexivity|]. unfold if_start_collapse, if_pb, sides_add. cbn [s_block_start].
  assert (E : s_block_start (if_padding cb st) + s_block_start (if_border cb st) = p + b)
    by (unfold if_padding, if_border, style_padding, style_border_width; cbn; rewrite Hp, Hb; reflexivity).
  rewrite E. replace (leqb (p + b) l0) with false; [apply Bool.andb_false_r|]. symmetry. apply Bool.not_true_is_false. intros X. apply leqb_iff in X. exact (L X).
Qed.
Lemma contains_fixed cb st same fl fl' cm cm' : contains_contents st -> same = match sv st Ldisplay with DispBox _ IFlow => true | _ => false end ->
  if_content cb st same fl = if_content cb st same fl' /\ if_margins cb st same cm = if_margins cb st same cm'.
Proof.
  intros C E. pose proof (contains_start cb st same C E) as S. destruct C as ((h & H) & _).
  assert (Hb : if_block_size cb st = LALen h) by (unfold if_block_size, box_size; cbn; rewrite H; reflexivity).
  assert (He : if_end_collapse cb st same = false) by (unfold if_end_collapse; rewrite Hb; apply Bool.andb_false_r).
  split; [unfold if_content, if_height; rewrite Hb; reflexivity|]. unfold if_margins. rewrite S, He. reflexivity.
Qed.
Lemma nothing_in st d f : construct_container st [] = TreeModel.Done (d, f) -> d = BlockLevelBoxes [].
Proof. intros H. cbn in H. injection H as <- _. reflexivity. Qed.

Theorem contained_layout s : contained s -> forall st c0 fl0 cb col rank abs floats g0 a0,
  construct_container st (fill s []) = TreeModel.Done (c0, fl0) -> wf_container c0 -> af_container c0 ->
  layout_container c0 cb rank abs floats col = Ok (g0, a0) ->
  exists B A, exactly B A (fl_fragments g0) /\ forall kids c fl rank abs floats g a,
    construct_container st (fill s kids) = TreeModel.Done (c, fl) -> wf_container c -> af_container c ->
    layout_container c cb rank abs floats col = Ok (g, a) ->
    around B A (fl_fragments g) /\ fl_block_size g = fl_block_size g0 /\ fl_margins g = fl_margins g0.
Proof.
  induction s as [before bs after|before bs s IH after]; intros [Bf Cs] st c0 fl0 cb col rank abs floats g0 a0 K0 W0 A0 L0; cbn [fill] in K0.
  - destruct (box_between _ _ _ _ _ _ _ Bf K0) as (l1 & l2 & Bw). destruct (Bw _ _ _ K0) as (d0 & f0 & D0 & ->).
    apply nothing_in in D0 as ->.
    assert (Le : forall fr, lays_as cb (layout_blb (boxed bs (BlockLevelBoxes []) f0)) fr -> exists fl1, forall fl cm,
       fr = FBox bs [] (if_content cb bs fl1 fl) (if_padding cb bs) (if_border cb bs) (if_margin cb bs) (if_margins cb bs fl1 cm) /\ fl1 = match sv bs Ldisplay with DispBox _ IFlow => true | _ => false end).
    { intros fr H. destruct (boxed_layout cb bs (BlockLevelBoxes []) f0 fr I H) as (same & fls & fl & ab & a & Es & Hc & Hf). exists same. intros fl1 cm. split; [|exact Es].
      rewrite (Hf fl eq_refl eq_refl). apply all_inv in Hc as (fs & s1 & F & P & _ & _); [|exact I]. inversion F; subst fs. cbn [place_all] in P. injection P as <- _.
      destruct (contains_fixed cb bs same (if same then fl else Flow [] (fl_block_size fl + cm_solve (cb_end (fl_margins fl))) (CBMargins false (cb_start (fl_margins fl)) cm_zero)) fl1
         (if same then fl_margins fl else CBMargins false (cb_start (fl_margins fl)) cm_zero) cm Cs Es) as [-> ->]. reflexivity. }
    assert (Ex : exists fr, lays_as cb (layout_blb (boxed bs (BlockLevelBoxes []) f0)) fr).
    { pose proof L0 as E. apply all_inv in E as (fs & s1 & F & _); [|exact W0]. apply lays_app in F as (x & yz & _ & F & _). inversion F; eauto. }
    destruct Ex as (fr & Lf). destruct (Le fr Lf) as (same & Fr).
    destruct (between cb l1 l2 _ _ _ _ _ _ _ (fun _ => []) (fun _ => []) W0 L0) as (B & A & Ex & H).
    + intros st0 ch r p b m cm X. destruct (Fr g0 (fl_margins g0)) as [Y _]. rewrite (lays_unique _ _ _ _ Lf X) in Y. injection Y as -> -> -> -> -> -> ->. intros o. reflexivity.
    + destruct (Fr g0 (fl_margins g0)) as [Y _]. rewrite Y in Lf. do 7 eexists. exact Lf.
    + exists B, A. split; [exact Ex|]. intros kids c fl rank' abs' floats' g a K W Af L. cbn [fill] in K. destruct (Bw _ _ _ K) as (d & f & D & ->).
      apply (H _ _ _ _ _ _ W L). intros st0 ch r p b m cm fr1 X X1.
      assert (Ad : af_container d) by (apply af_app in Af as [_ [Af _]]; unfold boxed in Af; destruct (sv bs Ldisplay) as [| |? [|]]; exact Af).
      destruct (boxed_layout cb bs d f fr1 Ad X1) as (same1 & fls & fl1 & ab & a1 & Es & Hc & Hf). rewrite (Hf fl1 eq_refl eq_refl).
      assert (same1 = same) as -> by (destruct (Fr g0 (fl_margins g0)) as [_ Es']; congruence).
      match goal with |- context [if_content cb bs same ?u] => match goal with |- context [if_margins cb bs same ?v] => destruct (Fr u v) as [Y _] end end.
      rewrite (lays_unique _ _ _ _ Lf X) in Y. injection Y as -> -> -> -> -> -> ->.
      eexists. split; [reflexivity|]. exists (fun o => sees o (fl_fragments fl1)). intros o. cbn [app]. rewrite app_nil_r. reflexivity.
  - destruct (box_between _ _ _ _ _ _ _ Bf K0) as (l1 & l2 & Bw). destruct (Bw _ _ _ K0) as (d0 & f0 & D0 & ->).
    assert (Af : forall d f, af_container (BlockLevelBoxes (l1 ++ boxed bs d f :: l2)) -> af_container d)
      by (intros d f X; apply af_app in X as [_ [X _]]; unfold boxed in X; destruct (sv bs Ldisplay) as [| |? [|]]; exact X).
    assert (Wf : forall d f, wf_container (BlockLevelBoxes (l1 ++ boxed bs d f :: l2)) -> wf_container d)
      by (intros d f X; apply wf_app in X as [_ [X _]]; unfold boxed in X; destruct (sv bs Ldisplay) as [| |? [|]]; exact X).
    pose proof (Af _ _ A0) as A1. pose proof (Wf _ _ W0) as W1.
    assert (Ex : exists fr, lays_as cb (layout_blb (boxed bs d0 f0)) fr).
    { pose proof L0 as E. apply all_inv in E as (fs & s1 & F & _); [|exact W0]. apply lays_app in F as (x & yz & _ & F & _). inversion F; eauto. }
    destruct Ex as (fr & Lf). destruct (boxed_layout cb bs d0 f0 fr A1 Lf) as (same & fls & h0 & ab & a1 & Es & Hc & Hf).
    destruct (IH Cs _ _ _ _ _ _ _ _ _ _ D0 W1 A1 Hc) as (B & A & Ex & HI).
    pose proof (Hf h0 eq_refl eq_refl) as Ef.
    destruct (between cb l1 l2 _ _ _ _ _ _ _ B A W0 L0) as (B' & A' & Ex' & H).
    + intros st0 ch r p b m cm X. rewrite (lays_unique _ _ _ _ Lf X) in Ef. injection Ef as -> -> -> -> -> -> ->. exact Ex.
    + rewrite Ef in Lf. do 7 eexists. exact Lf.
    + exists B', A'. split; [exact Ex'|]. intros kids c fl rank' abs' floats' g a K W Afc L. cbn [fill] in K. destruct (Bw _ _ _ K) as (d & f & D & ->).
      apply (H _ _ _ _ _ _ W L). intros st0 ch r p b m cm fr1 X X1.
      destruct (boxed_layout cb bs d f fr1 (Af _ _ Afc) X1) as (same1 & fls1 & h1 & ab1 & a2 & Es1 & Hc1 & Hf1). assert (same1 = same) as -> by congruence.
      destruct (HI _ _ _ _ _ _ _ _ D (Wf _ _ W) (Af _ _ Afc) Hc1) as (Ar & Hs & Hm).
      rewrite (lays_unique _ _ _ _ Lf X) in Ef. rewrite (Hf1 h0 (eq_sym Hs) (eq_sym Hm)). injection Ef as -> -> -> -> -> -> ->. eexists. split; [reflexivity|exact Ar].
Qed.

(** the outermost box *)
Theorem contained_root s : contained s -> forall st c0 fl0 cb g0 a0,
  construct_container st (fill s []) = TreeModel.Done (c0, fl0) -> wf_container c0 -> af_container c0 ->
  layout_container (BlockLevelBoxes [Indep st (BFC fl0 c0)]) cb O [] false false = Ok (g0, a0) ->
  exists B A, exactly B A (fl_fragments g0) /\ forall kids c fl g a,
    construct_container st (fill s kids) = TreeModel.Done (c, fl) -> wf_container c -> af_container c ->
    layout_container (BlockLevelBoxes [Indep st (BFC fl c)]) cb O [] false false = Ok (g, a) ->
    around B A (fl_fragments g).
Proof.
  intros Cs st c0 fl0 cb g0 a0 D0 W0 A0 L0.
  assert (Wb : forall c fl, wf_container c -> wf_container (BlockLevelBoxes ([] ++ Indep st (BFC fl c) :: []))) by (intros c fl W; exact (conj W I)).
  assert (Ex : exists fr, lays_as cb (layout_blb (Indep st (BFC fl0 c0))) fr).
  { pose proof L0 as E. apply all_inv in E as (fs & s1 & F & _); [|exact (Wb _ _ W0)]. inversion F; eauto. }
  destruct Ex as (fr & Lf). destruct (indep_layout cb st c0 fl0 fr A0 Lf) as (fls & h0 & ab & a1 & Hc & Hf).
  destruct (contained_layout s Cs _ _ _ _ _ _ _ _ _ _ D0 W0 A0 Hc) as (B & A & Ex & HI).
  pose proof (Hf h0 eq_refl eq_refl) as Ef.
  destruct (between cb [] [] _ _ _ _ _ _ _ B A (Wb _ _ W0) L0) as (B' & A' & Ex' & H).
  - intros st0 ch r p b m cm X. rewrite (lays_unique _ _ _ _ Lf X) in Ef. injection Ef as -> -> -> -> -> -> ->. exact Ex.
  - rewrite Ef in Lf. do 7 eexists. exact Lf.
  - exists B', A'. split; [exact Ex'|]. intros kids c fl g a D W Af L.
    refine (proj1 (H _ _ _ _ _ _ (Wb c fl W) L _)). intros st0 ch r p b m cm fr1 X X1.
    destruct (indep_layout cb st c fl fr1 Af X1) as (fls1 & h1 & ab1 & a2 & Hc1 & Hf1).
    destruct (HI _ _ _ _ _ _ _ _ D W Af Hc1) as (Ar & Hs & Hm).
    rewrite (lays_unique _ _ _ _ Lf X) in Ef. rewrite (Hf1 h0 (eq_sym Hs) (eq_sym Hm)). injection Ef as -> -> -> -> -> -> ->. eexists. split; [reflexivity|exact Ar].
Qed.
End Font.
