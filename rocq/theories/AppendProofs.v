(** Appending to a document: layout and painting (C88). *)
From Verif Require Import Base Len StyleModel GeomModel GfxModel InlineModel InlineSpec InlineProofs BlockModel BlockSpec BlockFrame BlockGen.
From Verif Require Import CStrModel PaintModel PaintProofs AppendSpec AppendBox.
Local Open Scope len_scope.
Local Open Scope result_scope.

Definition prefix {A} (a b : list A) : Prop := exists more, b = a ++ more.
Lemma prefix_nil {A} (b : list A) : prefix [] b. Proof. exists b. reflexivity. Qed.
Lemma prefix_more {A} (a b c : list A) : prefix a b -> prefix a (b ++ c).
Proof. intros [m ->]. exists (m ++ c). rewrite app_assoc. reflexivity. Qed.
Lemma prefix_app {A} (a b c : list A) : prefix a b -> prefix (c ++ a) (c ++ b).
Proof. intros [m ->]. exists m. rewrite app_assoc. reflexivity. Qed.
Lemma prefix_refl {A} (a : list A) : prefix a a. Proof. exists []. rewrite app_nil_r. reflexivity. Qed.

(* ------------------------------------------------------------------ *)
(** * The texts of fragments *)
Section Any.
Context {ar : Arith} (font_of : style -> font).

Definition inside (o : Len * Len) (r : rect Len) : Len * Len := (v_inline (r_start r) + fst o, v_block (r_start r) + snd o).
Fixpoint drawn (o : Len * Len) (f : fragment) : list dcall :=
  match f with
  | FBox _ ch r _ _ _ _ => flat_map (drawn (inside o r)) ch
  | FAnon r ch => flat_map (drawn (inside o r)) ch
  | FText st r fo sg => [GfxModel.DText (label_of (seg_glyphs sg)) (fst (inside o r)) (snd (inside o r) + f_ascent (font_of fo)) (font_of fo) (sv st Lcolor)]
  end.
Definition at_ (cb : prect Len) : Len * Len := (px_ (p_top_left cb), py_ (p_top_left cb)).
Lemma filter_side (b : bool) c : texts_drawn [c] = [] -> texts_drawn (if b then [c] else []) = [].
Proof. destruct b; [exact (fun H => H)|reflexivity]. Qed.
Lemma texts_app a b : texts_drawn (a ++ b) = texts_drawn a ++ texts_drawn b.
Proof. apply filter_app. Qed.
Definition paints_drawn (ts : list dcall) (r : result (list dcall)) : Prop := exists cs, r = Ok cs /\ texts_drawn cs = ts.
Lemma each_drawn cb ch : Forall (fun f => forall cb, paints_drawn (drawn (at_ cb) f) (paint font_of cb f)) ch ->
  paints_drawn (flat_map (drawn (at_ cb)) ch) (each (paint font_of cb) ch).
Proof.
  induction 1 as [|f ch Hf _ (c2 & E2 & T2)]; [exists []; split; reflexivity|].
  destruct (Hf cb) as (c1 & E1 & T1). exists (c1 ++ c2). change (each (paint font_of cb) (f :: ch)) with (do c <- paint font_of cb f; do cs <- each (paint font_of cb) ch; Ok (c ++ cs)).
  rewrite E1. cbn [bind]. rewrite E2. split; [reflexivity|]. rewrite texts_app, T1, T2. reflexivity.
Qed.
Lemma paint_drawn f : forall cb, paints_drawn (drawn (at_ cb) f) (paint font_of cb f).
Proof.
  induction f as [st ch r p b m cm IH|r ch IH|st r fo sg] using fragment_ind'; intros cb; cbn [drawn].
  - cbn [paint]. unfold physical at 1 2 3 4. cbn [bind rect_to_physical the_writing_mode].
    match goal with |- context [each (paint font_of ?c) ch] => destruct (each_drawn c ch IH) as (cs & E & T); rewrite E end.
    cbn [bind]. eexists. split; [reflexivity|].
    match goal with |- texts_drawn (?x :: ?l) = ?y => change (texts_drawn l = y) end.
    unfold paint_background, paint_top, paint_right, paint_bottom, paint_left.
    rewrite !texts_app, !filter_side by reflexivity. exact T.
  - cbn [paint]. unfold physical at 1. cbn [bind rect_to_physical the_writing_mode].
    match goal with |- context [each (paint font_of ?c) ch] => destruct (each_drawn c ch IH) as (cs & E & T); rewrite E end.
    cbn [bind]. eexists. split; [reflexivity|]. exact T.
  - cbn [paint]. unfold physical. cbn [bind rect_to_physical the_writing_mode]. eexists. split; reflexivity.
Qed.
Lemma page_drawn fs size : paints_drawn (flat_map (drawn (l0, l0)) fs) (paint_page font_of fs size).
Proof.
  unfold paint_page. apply (each_drawn (PRect (PVec l0 l0) (PVec (v_inline size) (v_block size)))). apply Forall_forall. intros f _. apply paint_drawn.
Qed.

(** fragments without text *)
Fixpoint textless (f : fragment) : Prop :=
  match f with
  | FBox _ ch _ _ _ _ _ | FAnon _ ch => fold_right (fun x Q => textless x /\ Q) True ch
  | FText _ _ _ _ => False
  end.
Definition textlesses (fs : list fragment) : Prop := fold_right (fun x Q => textless x /\ Q) True fs.
Lemma textlesses_app a b : textlesses a -> textlesses b -> textlesses (a ++ b).
Proof. induction a as [|x a IH]; intros H K; [exact K|]. destruct H as [H1 H2]. split; [exact H1|exact (IH H2 K)]. Qed.
Lemma textless_drawn f : textless f -> forall o, drawn o f = [].
Proof.
  assert (L : forall ch, Forall (fun f => textless f -> forall o, drawn o f = []) ch -> textlesses ch -> forall o, flat_map (drawn o) ch = []).
  { induction 1 as [|x ch Hf _ IH]; intros T o; [reflexivity|]. destruct T as [T1 T2]. cbn [flat_map]. rewrite (Hf T1 o), (IH T2 o). reflexivity. }
  induction f as [st ch r p b m cm IH|r ch IH|st r fo sg] using fragment_ind'; intros H o; cbn [drawn]; [exact (L ch IH H _)|exact (L ch IH H _)|destruct H].
Qed.
Lemma textlesses_drawn fs o : textlesses fs -> flat_map (drawn o) fs = [].
Proof. induction fs as [|f fs IH]; intros T; [reflexivity|]. destruct T as [T1 T2]. cbn [flat_map]. rewrite (textless_drawn f T1 o), (IH T2). reflexivity. Qed.
Definition goes_through (f : fragment) : bool := match f with FBox _ _ _ _ _ _ cm => cb_through cm | _ => true end.
Definition empty_if_through (f : fragment) : Prop := goes_through f = true -> textless f.
Lemma put_textless y f : textless f -> textless (put_top y f).
Proof. destruct f; exact (fun H => H). Qed.

(* ------------------------------------------------------------------ *)
(** * Placing *)

Lemma place_collapses f s f1 s1 : place f s = Ok (f1, s1) -> pl_collapses s1 = true -> pl_collapses s = true /\ goes_through f = true.
Proof.
  unfold place. destruct f as [st ch r p b m cm| r ch |]; [| |discriminate].
  - destruct (pl_collapses s).
    + destruct (leqb _ _); [|discriminate]. destruct (cb_through cm) eqn:E; intros H; injection H as <- <-; cbn [pl_collapses]; [|discriminate].
      intros _. split; [reflexivity|exact E].
    + destruct (cb_through cm); intros E; injection E as <- <-; discriminate.
  - destruct ch; [|discriminate]. destruct (leqb _ _); [|discriminate]. intros E; injection E as <- <-. intros H. split; [exact H|reflexivity].
Qed.
Lemma place_after f s f1 s1 : place f s = Ok (f1, s1) -> pl_collapses s = false -> pl_collapses s1 = false /\ pl_start s1 = pl_start s.
Proof.
  unfold place. intros H E. destruct f as [st ch r p b m cm| r ch |]; [| |discriminate].
  - rewrite E in H. destruct (cb_through cm); injection H as <- <-; split; reflexivity.
  - destruct ch; [|discriminate]. destruct (leqb _ _); [|discriminate]. injection H as <- <-. split; [exact E|reflexivity].
Qed.
Lemma place_all_collapses fs : forall s fs1 s1, place_all fs s = Ok (fs1, s1) -> Forall empty_if_through fs -> pl_collapses s1 = true ->
  pl_collapses s = true /\ textlesses fs1.
Proof.
  induction fs as [|f fs IH]; intros s fs1 s1 H F C; cbn [place_all] in H; [injection H as <- <-; split; [exact C|exact I]|].
  destruct (place f s) as [[f1 s2]| |] eqn:E1; cbn [bind] in H; try discriminate.
  destruct (place_all fs s2) as [[fs2 s3]| |] eqn:E2; cbn [bind] in H; try discriminate. injection H as <- <-.
  inversion F as [|? ? F1 F2]; subst. destruct (IH _ _ _ E2 F2 C) as [C2 T2]. destruct (place_collapses _ _ _ _ E1 C2) as [C1 G].
  split; [exact C1|]. split; [|exact T2]. destruct (place_put _ _ _ _ E1) as [y ->]. apply put_textless, F1, G.
Qed.
Lemma place_all_after fs : forall s fs1 s1, place_all fs s = Ok (fs1, s1) -> pl_collapses s = false -> pl_collapses s1 = false /\ pl_start s1 = pl_start s.
Proof.
  induction fs as [|f fs IH]; intros s fs1 s1 H C; cbn [place_all] in H; [injection H as <- <-; split; [exact C|reflexivity]|].
  destruct (place f s) as [[f1 s2]| |] eqn:E1; cbn [bind] in H; try discriminate.
  destruct (place_all fs s2) as [[fs2 s3]| |] eqn:E2; cbn [bind] in H; try discriminate. injection H as <- <-.
  destruct (place_after _ _ _ _ E1 C) as [C1 S1]. destruct (IH _ _ _ E2 C1) as [C2 S2]. split; [exact C2|congruence].
Qed.
Lemma place_all_app a : forall b s fs s2, place_all (a ++ b) s = Ok (fs, s2) ->
  exists a1 b1 s1, place_all a s = Ok (a1, s1) /\ place_all b s1 = Ok (b1, s2) /\ fs = a1 ++ b1.
Proof.
  induction a as [|f a IH]; intros b s fs s2 H; [exists [], fs, s; split; [reflexivity|split; [exact H|reflexivity]]|].
  cbn [app place_all] in *. destruct (place f s) as [[f1 s3]| |] eqn:E1; cbn [bind] in *; try discriminate.
  destruct (place_all (a ++ b) s3) as [[fs2 s4]| |] eqn:E2; cbn [bind] in H; try discriminate. injection H as <- <-.
  destruct (IH _ _ _ _ E2) as (a1 & b1 & s1 & -> & E4 & ->). exists (f1 :: a1), b1, s1. cbn [bind]. split; [reflexivity|split; [exact E4|reflexivity]].
Qed.

(** the same box before and after appending inside it *)
Definition frag_longer (f f' : fragment) : Prop :=
  textless f \/
  exists st ch ch' r r' p b m cm cm', f = FBox st ch r p b m cm /\ f' = FBox st ch' r' p b m cm' /\ r_start r = r_start r' /\
    cb_through cm = false /\ cb_through cm' = false /\ cb_start cm = cb_start cm' /\
    forall o, prefix (flat_map (drawn o) ch) (flat_map (drawn o) ch').
Definition flow_longer (fl fl' : flow) : Prop :=
  textlesses (fl_fragments fl) \/
  (cb_through (fl_margins fl) = false /\ cb_through (fl_margins fl') = false /\ cb_start (fl_margins fl) = cb_start (fl_margins fl') /\
   forall o, prefix (flat_map (drawn o) (fl_fragments fl)) (flat_map (drawn o) (fl_fragments fl'))).
Lemma place_longer f f' s f1 s1 f1' s1' : frag_longer f f' -> place f s = Ok (f1, s1) -> place f' s = Ok (f1', s1') ->
  textless f1 \/ (pl_collapses s1 = false /\ pl_collapses s1' = false /\ pl_start s1 = pl_start s1' /\ forall o, prefix (drawn o f1) (drawn o f1')).
Proof.
  intros [T|(st & ch & ch' & r & r' & p & b & m & cm & cm' & -> & -> & R & T & T' & S & P)] H H'.
  - left. destruct (place_put _ _ _ _ H) as [y ->]. apply put_textless, T.
  - right. cbn [place] in H, H'. rewrite T, ?S in H. rewrite T' in H'.
    destruct (pl_collapses s).
    + destruct (leqb _ _); [|discriminate]. injection H as <- <-. injection H' as <- <-. cbn [pl_collapses pl_start pl_margin pl_pos].
      split; [reflexivity|]. split; [reflexivity|]. split; [reflexivity|]. intros o. cbn [drawn]. unfold inside, shift_block. cbn [r_start]. rewrite <- R. apply P.
    + injection H as <- <-. injection H' as <- <-. cbn [pl_collapses pl_start pl_margin pl_pos].
      split; [reflexivity|]. split; [reflexivity|]. split; [reflexivity|]. intros o. cbn [drawn]. unfold inside, shift_block. cbn [r_start]. rewrite <- R. apply P.
Qed.

(* ------------------------------------------------------------------ *)
(** * Without absolutely positioned boxes *)

Lemma no_abs_oks (f : style -> bfc -> abs_lay) : forall b : ilb bfc, ilb_every (fun _ _ => False) b ->
  abspos_ok (ilb_map f b) /\ ilb_every (fun _ _ => False) (ilb_map f b).
Proof.
  fix IH 1. intros b H. destruct b as [st fi la_ ch | st t fo | st c | st c]; [| |destruct H|]; try (split; exact I).
  cbn [ilb_map ilb_every abspos_ok] in *. induction ch as [|x ch IHc]; [split; exact I|].
  cbn [map fold_right] in *. destruct H as [A1 A2]. destruct (IH x A1) as [X1 X2]. destruct (IHc A2) as [Y1 Y2]. repeat split; assumption.
Qed.

Section Tree.
Context {Z : ZeroLaws ar}.
Variable m_ascent m_descent : style -> Len.
Variable m_width : style -> text -> Len.
Notation layout_blb := (layout_blb m_ascent m_descent m_width).
Notation layout_container := (layout_container m_ascent m_descent m_width).
Notation layout_bfc := (layout_bfc m_ascent m_descent m_width).

Lemma children_floats_free lays cb : Forall (fun lay : blb_lay => forall cb rank abs floats f abs', lay cb rank abs floats = Ok (f, abs') -> abs' = abs /\ empty_if_through f) lays ->
  forall rank abs s fs abs' s', children_floats lays cb rank abs s = Ok (fs, abs', s') -> abs' = abs /\
  exists fs0, Forall empty_if_through fs0 /\ place_all fs0 s = Ok (fs, s').
Proof.
  induction 1 as [|lay lays H _ IH]; intros rank abs s fs abs' s' E; cbn [children_floats] in E.
  - injection E as <- <- <-. split; [reflexivity|]. exists []. split; [constructor|reflexivity].
  - destruct (lay cb rank abs true) as [[f a]| |] eqn:E1; cbn [bind] in E; try discriminate.
    destruct (place f s) as [[f1 s1]| |] eqn:E2; cbn [bind] in E; try discriminate.
    destruct (children_floats lays cb (S rank) a s1) as [[[fs2 a2] s2]| |] eqn:E3; cbn [bind] in E; try discriminate. injection E as <- <- <-.
    destruct (H _ _ _ _ _ _ E1) as [-> F]. destruct (IH _ _ _ _ _ _ E3) as [-> (fs0 & Fs & P)]. split; [reflexivity|].
    exists (f :: fs0). split; [constructor; assumption|]. cbn [place_all]. rewrite E2. cbn [bind]. rewrite P. reflexivity.
Qed.
Lemma children_layout_free lays cb : Forall (fun lay : blb_lay => forall cb rank abs floats f abs', lay cb rank abs floats = Ok (f, abs') -> abs' = abs /\ empty_if_through f) lays ->
  forall rank abs fs abs', children_layout lays cb rank abs = Ok (fs, abs') -> abs' = abs /\ Forall empty_if_through fs.
Proof.
  induction 1 as [|lay lays H _ IH]; intros rank abs fs abs' E; cbn [children_layout] in E.
  - injection E as <- <-. split; [reflexivity|constructor].
  - destruct (lay cb rank abs false) as [[f a]| |] eqn:E1; cbn [bind] in E; try discriminate.
    destruct (children_layout lays cb (S rank) a) as [[fs2 a2]| |] eqn:E3; cbn [bind] in E; try discriminate. injection E as <- <-.
    destruct (H _ _ _ _ _ _ E1) as [-> F]. destruct (IH _ _ _ _ E3) as [-> Fs]. split; [reflexivity|constructor; assumption].
Qed.
Lemma no_late n abs fs rank abs' : n = List.length abs -> adjust_static_positions n abs fs rank = Ok abs' -> abs' = abs.
Proof. intros ->. unfold adjust_static_positions. rewrite skipn_all, firstn_all. cbn [mapR bind]. rewrite app_nil_r. congruence. Qed.

Lemma in_flow_free cb st same abs (lay : cblock -> list abs_frag -> bool -> result (flow * list abs_frag)) f abs' :
  (forall cb abs col fl abs', lay cb abs col = Ok (fl, abs') -> abs' = abs) ->
  layout_in_flow cb st same abs lay = Ok (f, abs') ->
  exists fl abs0 , lay (if_children_cb cb st) abs0 (if_start_collapse cb st same) = Ok (fl, abs0) /\
    f = FBox st (fl_fragments fl) (if_content cb st same fl) (if_padding cb st) (if_border cb st) (if_margin cb st)
          (if_margins cb st same (fl_margins fl)) /\ abs' = abs.
Proof.
  intros HL. unfold layout_in_flow. destruct (is_relatively_positioned (sv st Lposition)).
  - destruct (lay _ [] _) as [[fl abs1]| |] eqn:E; cbn [bind]; try discriminate. pose proof (HL _ _ _ _ _ E) as ->.
    cbn [in_positioned_containing_block bind]. intros [= <- <-]. exists fl, []. split; [exact E|split; reflexivity].
  - destruct (lay _ abs _) as [[fl abs1]| |] eqn:E; cbn [bind]; try discriminate. pose proof (HL _ _ _ _ _ E) as ->.
    intros [= <- <-]. exists fl, abs. split; [exact E|split; reflexivity].
Qed.

Theorem free_layout :
  (forall b, af_blb b -> forall cb rank abs floats f abs', layout_blb b cb rank abs floats = Ok (f, abs') -> abs' = abs /\ empty_if_through f) /\
  (forall c, af_container c -> forall cb rank abs floats col fl abs', layout_container c cb rank abs floats col = Ok (fl, abs') ->
     abs' = abs /\ (cb_through (fl_margins fl) = true -> textlesses (fl_fragments fl))) /\
  (forall c, af_bfc c -> forall cb rank abs fl abs', layout_bfc c cb rank abs = Ok (fl, abs') -> abs' = abs /\ cb_through (fl_margins fl) = false).
Proof.
  set (P := fun b => af_blb b -> forall cb rank abs floats f abs', layout_blb b cb rank abs floats = Ok (f, abs') -> abs' = abs /\ empty_if_through f).
  set (Q := fun c => af_container c -> forall cb rank abs floats col fl abs', layout_container c cb rank abs floats col = Ok (fl, abs') ->
     abs' = abs /\ (cb_through (fl_margins fl) = true -> textlesses (fl_fragments fl))).
  set (R := fun c => af_bfc c -> forall cb rank abs fl abs', layout_bfc c cb rank abs = Ok (fl, abs') -> abs' = abs /\ cb_through (fl_margins fl) = false).
  assert (H1 : forall st c, Q c -> P (SameFC st c)).
  { intros st c Hc Hw cb rank abs floats f abs' E.
    change (layout_in_flow cb st true abs (fun cb' abs' col => layout_container c cb' rank abs' floats col) = Ok (f, abs')) in E.
    apply in_flow_free in E as (fl & abs0 & E & -> & ->); [|intros; eapply Hc; eassumption]. split; [reflexivity|].
    unfold empty_if_through. cbn [goes_through textless if_margins cb_through]. intros T. apply andb_prop in T as [_ T].
    exact (proj2 (Hc Hw _ _ _ _ _ _ _ E) T). }
  assert (H2 : forall st c, R c -> P (BAbspos st c)) by (intros st c _ []).
  assert (H3 : forall st c, R c -> P (BFloat st c)).
  { intros st c _ _ cb rank abs floats f abs' [= <- <-]. split; [reflexivity|]. intros _. exact I. }
  assert (H4 : forall st c, R c -> P (Indep st c)).
  { intros st c Hc Hw cb rank abs floats f abs' E.
    change (layout_in_flow cb st false abs (fun cb' abs' _ => layout_bfc c cb' rank abs') = Ok (f, abs')) in E.
    apply in_flow_free in E as (fl & abs0 & E & -> & ->); [|intros; eapply Hc; eassumption]. split; [reflexivity|].
    unfold empty_if_through. cbn [goes_through textless if_margins cb_through]. intros T. apply andb_prop in T as [_ T].
    rewrite (proj2 (Hc Hw _ _ _ _ _ E)) in T. discriminate. }
  assert (H5 : forall l, Forall P l -> Q (BlockLevelBoxes l)).
  { intros l Hl Hw cb rank abs floats col fl abs' E.
    assert (F : Forall (fun lay : blb_lay => forall cb rank abs floats f abs', lay cb rank abs floats = Ok (f, abs') -> abs' = abs /\ empty_if_through f) (map layout_blb l)).
    { cbn [af_container] in Hw. clear - Hl Hw. induction Hl as [|b l Hb Hl IH]; [constructor|]. destruct Hw as [W1 W2]. constructor; [exact (Hb W1)|exact (IH W2)]. }
    change (layout_block_level_children (map layout_blb l) cb rank abs floats col = Ok (fl, abs')) in E. unfold layout_block_level_children in E.
    assert (K : exists fs s, Forall empty_if_through fs /\ place_all fs (placement_start col) = Ok (fl_fragments fl, s) /\ cb_through (fl_margins fl) = pl_collapses s /\ abs' = abs).
    { destruct floats.
      - destruct (children_floats (map layout_blb l) cb 0 abs (placement_start col)) as [[[fs a] s]| |] eqn:E1; cbn [bind] in E; try discriminate.
        destruct (adjust_static_positions _ a fs rank) as [a2| |] eqn:E2; cbn [bind] in E; try discriminate. injection E as <- <-.
        destruct (children_floats_free _ _ F _ _ _ _ _ _ E1) as [-> (fs0 & G & Hp)]. exists fs0, s. apply no_late in E2; [|reflexivity]. auto.
      - destruct (children_layout (map layout_blb l) cb 0 abs) as [[fs a]| |] eqn:E1; cbn [bind] in E; try discriminate.
        destruct (place_all fs (placement_start col)) as [[fs1 s]| |] eqn:E3; cbn [bind] in E; try discriminate.
        destruct (adjust_static_positions _ a fs1 rank) as [a2| |] eqn:E2; cbn [bind] in E; try discriminate. injection E as <- <-.
        destruct (children_layout_free _ _ F _ _ _ _ E1) as [-> G]. exists fs, s. apply no_late in E2; [|reflexivity]. auto. }
    destruct K as (fs & s & G & Hp & Ht & ->). split; [reflexivity|]. rewrite Ht. intros T. exact (proj2 (place_all_collapses _ _ _ _ Hp G T)). }
  assert (H6 : forall st l, Forall (ilb_every (fun _ => R)) l -> Q (InlineFC st l)).
  { intros st l _ Hw cb rank abs floats col fl abs' E. cbn [af_container] in Hw.
    set (f := fun st c' => abs_layout st (fun cb' => layout_bfc c' cb' O [])).
    change (ifc_layout m_ascent m_descent m_width st (map (ilb_map f) l) cb rank abs = Ok (fl, abs')) in E.
    assert (K : abspos_oks (map (ilb_map f) l) /\ Forall (ilb_every (fun _ _ => False)) (map (ilb_map f) l)).
    { clear - Hw. induction l as [|b l IH]; [split; [exact I|constructor]|]. destruct Hw as [W1 W2]. destruct (IH W2) as [Y1 Y2].
      destruct (no_abs_oks f b W1) as [X1 X2]. split; [split; assumption|constructor; assumption]. }
    destruct K as [K1 K2]. destruct (ifc_frame m_ascent m_descent m_width st _ cb (fun _ => False) K1 K2) as (fl2 & g & Fg & Eg).
    rewrite Eg in E. injection E as <- <-. destruct g as [|a g]; [|inversion Fg; contradiction]. split; [cbn [map]; apply app_nil_r|].
    rewrite (ifc_margins _ _ _ _ _ _ _ _ _ _ (Eg rank abs)). discriminate. }
  assert (H7 : forall fl c, Q c -> R (BFC fl c)).
  { intros fl0 c Hc Hw cb rank abs fl abs' E. apply bfc_inv in E as (fl1 & E & _ & _ & ->). split; [exact (proj1 (Hc Hw _ _ _ _ _ _ _ E))|reflexivity]. }
  split; [|split].
  - exact (blb_tree P Q R H1 H2 H3 H4 H5 H6 H7).
  - exact (container_tree P Q R H1 H2 H3 H4 H5 H6 H7).
  - exact (bfc_tree P Q R H1 H2 H3 H4 H5 H6 H7).
Qed.

(* ------------------------------------------------------------------ *)
(** * Layout of the boxes with more appended *)

Definition lays_as (cb : cblock) (lay : blb_lay) (f : fragment) : Prop := exists g, framed_as (lay cb) f g.
Lemma lays_unique cb lay f f' : lays_as cb lay f -> lays_as cb lay f' -> f = f'.
Proof. intros [g E] [g' E']. specialize (E O [] false). specialize (E' O [] false). congruence. Qed.
Lemma lays_uniques cb lays : forall fs fs', Forall2 (lays_as cb) lays fs -> Forall2 (lays_as cb) lays fs' -> fs = fs'.
Proof.
  induction lays as [|lay lays IH]; intros fs fs' H H'; inversion H; inversion H'; subst; [reflexivity|].
  f_equal; [eapply lays_unique; eassumption|apply IH; assumption].
Qed.
Lemma framed_list_lays lays cb : forall fs gss, framed_list lays cb fs gss -> Forall2 (lays_as cb) lays fs.
Proof.
  induction lays as [|lay lays IH]; intros fs gss (F & L1 & L2); destruct fs as [|f fs], gss as [|g gss]; try discriminate; [constructor|].
  inversion F as [|? ? ? ? F1 F2]; subst. constructor; [exists g; exact F1|]. apply (IH fs gss). repeat split; cbn in L1, L2; auto.
Qed.
Lemma blocks_inv l cb rank abs floats col fl abs' : wf_container (BlockLevelBoxes l) ->
  layout_container (BlockLevelBoxes l) cb rank abs floats col = Ok (fl, abs') ->
  exists fs s1, Forall2 (fun b => lays_as cb (layout_blb b)) l fs /\ place_all fs (placement_start col) = Ok (fl_fragments fl, s1) /\
    cb_through (fl_margins fl) = pl_collapses s1 /\ cb_start (fl_margins fl) = pl_start s1.
Proof.
  intros W E. apply (children_result _ _ _ _ _ _ _ _ (wf_framed _ _ _ l W)) in E as (fs & gss & s1 & F & P & _ & M).
  exists fs, s1. rewrite M. split; [|split; [exact P|split; reflexivity]]. apply framed_list_lays in F. clear - F.
  revert fs F. induction l as [|b l IH]; intros fs F; inversion F; subst; constructor; [assumption|apply IH; assumption].
Qed.
Lemma wf_app a : forall b, wf_container (BlockLevelBoxes (a ++ b)) -> wf_container (BlockLevelBoxes a) /\ wf_container (BlockLevelBoxes b).
Proof. induction a as [|x a IH]; intros b H; [split; [exact I|exact H]|]. destruct H as [H1 H2]. destruct (IH b H2) as [A B]. split; [split; assumption|exact B]. Qed.
Lemma af_app a : forall b, af_container (BlockLevelBoxes (a ++ b)) -> af_container (BlockLevelBoxes a) /\ af_container (BlockLevelBoxes b).
Proof. induction a as [|x a IH]; intros b H; [split; [exact I|exact H]|]. destruct H as [H1 H2]. destruct (IH b H2) as [A B]. split; [split; assumption|exact B]. Qed.
Lemma lays_ok cb b f : lays_as cb (layout_blb b) f -> exists abs', layout_blb b cb O [] false = Ok (f, abs').
Proof. intros [g E]. eexists. apply E. Qed.
Lemma af_empty l cb fs : af_container (BlockLevelBoxes l) -> Forall2 (fun b => lays_as cb (layout_blb b)) l fs -> Forall empty_if_through fs.
Proof.
  intros A F. revert A. induction F as [|b f l fs H F IH]; intros A; [constructor|]. destruct A as [A1 A2]. constructor; [|exact (IH A2)].
  destruct (lays_ok _ _ _ H) as [a E]. exact (proj2 (proj1 free_layout b A1 _ _ _ _ _ _ E)).
Qed.

(** one block *)
Lemma same_longer cb st same lay lay' f f' abs abs' a a' :
  (forall cb abs col fl abs', lay cb abs col = Ok (fl, abs') -> abs' = abs) ->
  (forall fl abs1 a1 fl' abs1' a1', lay (if_children_cb cb st) abs1 (if_start_collapse cb st same) = Ok (fl, a1) ->
     lay' (if_children_cb cb st) abs1' (if_start_collapse cb st same) = Ok (fl', a1') -> flow_longer fl fl') ->
  layout_in_flow cb st same abs lay = Ok (f, a) -> layout_in_flow cb st same abs' lay' = Ok (f', a') -> frag_longer f f'.
Proof.
  intros Hf HL E E'. apply (in_flow_free _ _ _ _ _ _ _ Hf) in E as (fl & abs0 & E & -> & _). apply in_flow_inv in E' as (fl' & abs1 & extra & E' & -> & _).
  destruct (HL _ _ _ _ _ _ E E') as [T|(T & T' & S & P)]; [left; exact T|]. right.
  exists st, (fl_fragments fl), (fl_fragments fl' ++ extra). do 7 eexists. split; [reflexivity|]. split; [reflexivity|]. split; [reflexivity|].
  unfold if_margins. rewrite T, T', S. cbn [cb_through cb_start]. rewrite !andb_false_r.
  split; [reflexivity|]. split; [reflexivity|]. split; [reflexivity|]. intros o. rewrite flat_map_app. apply prefix_more, P.
Qed.
(** a list of blocks whose last is longer *)
Lemma blocks_longer l b b' more cb rank abs floats col fl a rank' abs' floats' fl' a' :
  wf_container (BlockLevelBoxes (l ++ [b])) -> wf_container (BlockLevelBoxes (l ++ b' :: more)) -> af_container (BlockLevelBoxes (l ++ [b])) ->
  (forall f f', lays_as cb (layout_blb b) f -> lays_as cb (layout_blb b') f' -> frag_longer f f') ->
  layout_container (BlockLevelBoxes (l ++ [b])) cb rank abs floats col = Ok (fl, a) ->
  layout_container (BlockLevelBoxes (l ++ b' :: more)) cb rank' abs' floats' col = Ok (fl', a') -> flow_longer fl fl'.
Proof.
  intros W W' A HL E E'.
  apply blocks_inv in E as (fs & s1 & F & P & T & S); [|exact W]. apply blocks_inv in E' as (fs' & s1' & F' & P' & T' & S'); [|exact W'].
  pose proof (af_empty _ _ _ A F) as G.
  apply Forall2_app_inv_l in F as (x & y & Fx & Fy & ->). apply Forall2_app_inv_l in F' as (x' & y' & Fx' & Fy' & ->).
  assert (x' = x) as ->.
  { clear - Fx Fx'. revert x' Fx'. induction Fx as [|b f l fs H _ IH]; intros x' F'; inversion F'; subst; [reflexivity|].
    f_equal; [eapply lays_unique; eassumption|apply IH; assumption]. }
  inversion Fy as [|? f ? ? Hf Fn]; subst. inversion Fn; subst. inversion Fy' as [|? f' ? fm Hf' Fm]; subst.
  specialize (HL _ _ Hf Hf').
  destruct (place_all_app _ _ _ _ _ P) as (x1 & y1 & s & Px & Py & Ex). destruct (place_all_app _ _ _ _ _ P') as (x2 & y2 & s' & Px' & Py' & Ex').
  rewrite Px in Px'. injection Px' as <- <-.
  cbn [place_all] in Py, Py'. destruct (place f s) as [[f1 s2]| |] eqn:Ef; cbn [bind] in Py; try discriminate. injection Py as <- <-.
  destruct (place f' s) as [[f1' s2']| |] eqn:Ef'; cbn [bind] in Py'; try discriminate.
  destruct (place_all fm s2') as [[fm1 s3]| |] eqn:Em; cbn [bind] in Py'; try discriminate. injection Py' as <- <-.
  unfold flow_longer. rewrite T, T', S, S', Ex, Ex'.
  destruct (pl_collapses s2) eqn:C2.
  { left. rewrite <- Ex. exact (proj2 (place_all_collapses _ _ _ _ P G C2)). }
  destruct (place_longer _ _ _ _ _ _ _ HL Ef Ef') as [N|(_ & C' & St & Pr)].
  - destruct (pl_collapses s) eqn:C.
    + left. apply textlesses_app; [|split; [exact N|exact I]]. apply Forall_app in G as [G _]. exact (proj2 (place_all_collapses _ _ _ _ Px G C)).
    + right. destruct (place_after _ _ _ _ Ef C) as [_ S2]. destruct (place_after _ _ _ _ Ef' C) as [C2' S2']. destruct (place_all_after _ _ _ _ Em C2') as [C3 S3].
      split; [reflexivity|]. split; [exact C3|]. split; [congruence|]. intros o. rewrite !flat_map_app. apply prefix_app.
      cbn [flat_map]. rewrite (textless_drawn _ N o). apply prefix_nil.
  - right. destruct (place_all_after _ _ _ _ Em C') as [C3 S3]. split; [reflexivity|]. split; [exact C3|]. split; [congruence|].
    intros o. rewrite !flat_map_app. apply prefix_app. cbn [flat_map]. rewrite app_nil_r. apply prefix_more, Pr.
Qed.
Lemma more_longer l more cb rank abs floats col fl a rank' abs' floats' fl' a' :
  wf_container (BlockLevelBoxes l) -> wf_container (BlockLevelBoxes (l ++ more)) -> af_container (BlockLevelBoxes l) ->
  layout_container (BlockLevelBoxes l) cb rank abs floats col = Ok (fl, a) ->
  layout_container (BlockLevelBoxes (l ++ more)) cb rank' abs' floats' col = Ok (fl', a') -> flow_longer fl fl'.
Proof.
  intros W W' A E E'.
  apply blocks_inv in E as (fs & s1 & F & P & T & S); [|exact W]. apply blocks_inv in E' as (fs' & s1' & F' & P' & T' & S'); [|exact W'].
  pose proof (af_empty _ _ _ A F) as G. apply Forall2_app_inv_l in F' as (x' & y' & Fx' & Fy' & ->).
  assert (x' = fs) as ->.
  { clear - F Fx'. revert x' Fx'. induction F as [|b f l fs H _ IH]; intros x' F'; inversion F'; subst; [reflexivity|].
    f_equal; [eapply lays_unique; eassumption|apply IH; assumption]. }
  destruct (place_all_app _ _ _ _ _ P') as (x2 & y2 & s' & Px' & Py' & Ex'). rewrite P in Px'. injection Px' as <- <-.
  unfold flow_longer. rewrite T, T', S, S', Ex'. destruct (pl_collapses s1) eqn:C.
  - left. exact (proj2 (place_all_collapses _ _ _ _ P G C)).
  - right. destruct (place_all_after _ _ _ _ Py' C) as [C3 S3]. split; [reflexivity|]. split; [exact C3|]. split; [congruence|].
    intros o. rewrite flat_map_app. apply prefix_more, prefix_refl.
Qed.

Variable allow : Prop.
(** inline content that becomes that of an anonymous block *)
Hypothesis anonymous_same : allow -> forall st l more cb rank abs floats col fl a rank' abs' floats' fl' a',
  wf_container (BlockLevelBoxes (SameFC (anonymous_inheriting_from (Some st)) (InlineFC st l) :: more)) -> af_container (InlineFC st l) ->
  cb_block cb = LAAuto ->
  layout_container (InlineFC st l) cb rank abs floats col = Ok (fl, a) ->
  layout_container (BlockLevelBoxes (SameFC (anonymous_inheriting_from (Some st)) (InlineFC st l) :: more)) cb rank' abs' floats' col = Ok (fl', a') ->
  flow_longer fl fl'.

Theorem longer_layout h c c' : longer allow h c c' -> wf_container c -> wf_container c' -> af_container c ->
  forall cb, (h = true -> cb_block cb = LAAuto) -> forall rank abs floats col fl a rank' abs' floats' fl' a',
  layout_container c cb rank abs floats col = Ok (fl, a) -> layout_container c' cb rank' abs' floats' col = Ok (fl', a') -> flow_longer fl fl'.
Proof.
  assert (AH : forall cb st, auto_height st = true -> cb_block (if_children_cb cb st) = LAAuto).
  { intros cb st. unfold auto_height, if_children_cb, if_block_size, box_size. cbn. destruct (sv st Lheight); [discriminate..|reflexivity]. }
  induction 1 as [h l more|st l more Al|h l st c c' more L IH|h l st fl fl' c c' more L IH]; intros W W' A cb Hh rank abs floats col f0 a rank' abs' floats' f0' a' E E'.
  - exact (more_longer _ _ _ _ _ _ _ _ _ _ _ _ _ _ W W' A E E').
  - exact (anonymous_same Al _ _ _ _ _ _ _ _ _ _ _ _ _ _ _ W' A (Hh eq_refl) E E').
  - apply (blocks_longer _ _ _ _ _ _ _ _ _ _ _ _ _ _ _ _ W W' A) with (2 := E) (3 := E'). intros f f' F F'.
    apply wf_app in W as [_ [W _]]. apply wf_app in W' as [_ [W' _]]. apply af_app in A as [_ [A _]].
    apply lays_ok in F as [b1 F]. apply lays_ok in F' as [b1' F'].
    refine (same_longer _ _ true _ _ _ _ _ _ _ _ _ _ F F').
    + intros cb0 abs0 col0 fl0 abs1 E0. exact (proj1 (proj1 (proj2 free_layout) c A _ _ _ _ _ _ _ E0)).
    + intros fl abs1 a1 fl1 abs2 a2 E1 E2. exact (IH W W' A _ (AH cb st) _ _ _ _ _ _ _ _ _ _ _ E1 E2).
  - apply (blocks_longer _ _ _ _ _ _ _ _ _ _ _ _ _ _ _ _ W W' A) with (2 := E) (3 := E'). intros f f' F F'.
    apply wf_app in W as [_ [W _]]. apply wf_app in W' as [_ [W' _]]. apply af_app in A as [_ [A _]].
    apply lays_ok in F as [b1 F]. apply lays_ok in F' as [b1' F'].
    refine (same_longer _ _ false _ _ _ _ _ _ _ _ _ _ F F').
    + intros cb0 abs0 col0 fl0 abs1 E0. exact (proj1 (proj2 (proj2 free_layout) (BFC fl c) A _ _ _ _ _ E0)).
    + intros f1 abs1 a1 f2 abs2 a2 E1 E2. apply bfc_inv in E1 as (g1 & E1 & X1 & _ & Y1). apply bfc_inv in E2 as (g2 & E2 & X2 & _ & Y2).
      unfold flow_longer. rewrite X1, X2, Y1, Y2. cbn [cb_through cb_start].
      destruct (IH W W' A _ (AH cb st) _ _ _ _ _ _ _ _ _ _ _ E1 E2) as [T|(_ & _ & S & P)]; [left; exact T|right]. auto.
Qed.
End Tree.
End Any.
