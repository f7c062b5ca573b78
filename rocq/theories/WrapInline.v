(** Wrapping inline content in an inline element that adds nothing: inline layout (C95). *)
From Verif Require Import Base Len StyleModel StyleSpec GeomModel GfxModel InlineModel BlockModel TreeModel PaintModel PaintProofs CStrModel AppendProofs WrapSpec.
From Coq Require Import Lia.
Local Open Scope len_scope.
Local Open Scope result_scope.

(* ------------------------------------------------------------------ *)
(** * What is seen of fragments *)
Section Font.
Variable font_of : style -> font.
Hypothesis Hfont : looks_at_font font_of.

Definition on (o : Len * Len) (r : rect Len) : prect Len :=
  prect_translate (PRect (PVec (v_inline (r_start r)) (v_block (r_start r))) (size_to_physical the_writing_mode (r_size r))) (PVec (fst o) (snd o)).
Definition box_calls (st : style) (br pr : prect Len) : list dcall :=
  paint_background st br ++ paint_top st br pr ++ paint_right st br pr ++ paint_bottom st br pr ++ paint_left st br pr.
Fixpoint seen (o : Len * Len) (f : fragment) : list dcall :=
  match f with
  | FBox st ch r p b _ _ => box_calls st (on o (border_rect_of r p b)) (on o (padding_rect_of r p)) ++ flat_map (seen (inside o r)) ch
  | FAnon r ch => flat_map (seen (inside o r)) ch
  | FText st r fo sg => [GfxModel.DText (label_of (seg_glyphs sg)) (fst (inside o r)) (snd (inside o r) + f_ascent (font_of fo)) (font_of fo) (sv st Lcolor)]
  end.
Notation sees := (fun o fs => flat_map (seen o) fs).
Lemma visible_app a b : visible (a ++ b) = visible a ++ visible b.
Proof. apply filter_app. Qed.
Lemma visible_box st br pr : visible (box_calls st br pr) = box_calls st br pr.
Proof.
  unfold box_calls. rewrite !visible_app. unfold paint_background, paint_top, paint_right, paint_bottom, paint_left. cbv zeta.
  repeat match goal with |- context [if ?x then _ else _] => destruct x end; reflexivity.
Qed.
Definition paints_seen (ts : list dcall) (r : result (list dcall)) : Prop := exists cs, r = Ok cs /\ visible cs = ts.
Lemma each_seen cb ch : Forall (fun f => forall cb, paints_seen (seen (at_ cb) f) (paint font_of cb f)) ch ->
  paints_seen (sees (at_ cb) ch) (each (paint font_of cb) ch).
Proof.
  induction 1 as [|f ch Hf _ (c2 & E2 & T2)]; [exists []; split; reflexivity|].
  destruct (Hf cb) as (c1 & E1 & T1). exists (c1 ++ c2). change (each (paint font_of cb) (f :: ch)) with (do c <- paint font_of cb f; do cs <- each (paint font_of cb) ch; Ok (c ++ cs)).
  rewrite E1. cbn [bind]. rewrite E2. split; [reflexivity|]. rewrite visible_app, T1, T2. reflexivity.
Qed.
Lemma paint_seen f : forall cb, paints_seen (seen (at_ cb) f) (paint font_of cb f).
Proof.
  induction f as [st ch r p b m cm IH|r ch IH|st r fo sg] using fragment_ind'; intros cb; cbn [seen].
  - cbn [paint]. unfold physical at 1 2 3 4. cbn [bind rect_to_physical the_writing_mode].
    match goal with |- context [each (paint font_of ?c) ch] => destruct (each_seen c ch IH) as (cs & E & T); rewrite E end.
    cbn [bind]. eexists. split; [reflexivity|].
    match goal with |- visible (?x :: ?l) = ?y => change (visible l = y) end.
    rewrite !app_assoc, visible_app, <- !app_assoc. f_equal; [|exact T].
    match goal with |- visible ?l = _ => change l with (box_calls st (on (at_ cb) (border_rect_of r p b)) (on (at_ cb) (padding_rect_of r p))) end.
    apply visible_box.
  - cbn [paint]. unfold physical at 1. cbn [bind rect_to_physical the_writing_mode].
    match goal with |- context [each (paint font_of ?c) ch] => destruct (each_seen c ch IH) as (cs & E & T); rewrite E end.
    cbn [bind]. eexists. split; [reflexivity|]. exact T.
  - cbn [paint]. unfold physical. cbn [bind rect_to_physical the_writing_mode]. eexists. split; reflexivity.
Qed.
Lemma page_seen fs size : paints_seen (sees (l0, l0) fs) (paint_page font_of fs size).
Proof.
  unfold paint_page. apply (each_seen (PRect (PVec l0 l0) (PVec (v_inline size) (v_block size)))). apply Forall_forall. intros f _. apply paint_seen.
Qed.

(** A box depends on where it is only through the sum of its own position and that of what it is in. *)
Definition move (r : rect Len) (x y : Len) : rect Len := Rect (Vec2 (v_inline (r_start r) + x) (v_block (r_start r) + y)) (r_size r).
Definition plus (o : Len * Len) (x y : Len) : Len * Len := (fst o + x, snd o + y).
Lemma inside_move o r x y : inside o (move r x y) = inside (plus o x y) r.
Proof. unfold inside, move, plus. cbn. f_equal; ring. Qed.
Lemma on_move o r x y : on o (move r x y) = on (plus o x y) r.
Proof. unfold on, move, plus, prect_translate, pvec_add. cbn. do 2 f_equal; ring. Qed.
Lemma inflate_move r s x y : inflate (move r x y) s = move (inflate r s) x y.
Proof. unfold inflate, move. cbn. do 2 f_equal; ring. Qed.
Lemma seen_box o st ch r p b m c x y : seen o (FBox st ch (move r x y) p b m c) = seen (plus o x y) (FBox st ch r p b m c).
Proof. cbn [seen]. unfold border_rect_of, padding_rect_of. rewrite !inflate_move, !on_move, inside_move. reflexivity. Qed.
Lemma seen_anon o ch r x y : seen o (FAnon (move r x y) ch) = seen (plus o x y) (FAnon r ch).
Proof. cbn [seen]. rewrite inside_move. reflexivity. Qed.
Lemma seen_text o st r fo sg x y : seen o (FText st (move r x y) fo sg) = seen (plus o x y) (FText st r fo sg).
Proof. cbn [seen]. rewrite inside_move. reflexivity. Qed.
Lemma shift_move r d : shift_block r d = move r l0 d.
Proof. unfold shift_block, move. do 2 f_equal. ring. Qed.
Lemma seen_translate o d f : seen o (translate_block d f) = seen (plus o l0 d) f.
Proof. destruct f; cbn [translate_block]; rewrite shift_move; [apply seen_box|apply seen_anon|apply seen_text]. Qed.
Lemma sees_translate o d fs : sees o (map (translate_block d) fs) = sees (plus o l0 d) fs.
Proof. induction fs as [|f fs IH]; [reflexivity|]. cbn [map flat_map]. rewrite seen_translate. cbv beta in IH. rewrite IH. reflexivity. Qed.
Lemma plus_plus o x y x' y' : plus (plus o x y) x' y' = plus o (x + x') (y + y').
Proof. unfold plus. cbn. f_equal; ring. Qed.
Lemma plus_0 o : plus o l0 l0 = o.
Proof. destruct o. unfold plus. cbn. f_equal; ring. Qed.

(** fragments that look the same *)
Definition alike (a b : list fragment) : Prop := forall o, sees o a = sees o b.
Lemma alike_app a b a' b' : alike a b -> alike a' b' -> alike (a ++ a') (b ++ b').
Proof. intros H H' o. cbv beta. rewrite !flat_map_app. pose proof (H o). pose proof (H' o). cbv beta in *. congruence. Qed.
Lemma alike_refl a : alike a a. Proof. intros o. reflexivity. Qed.

(** styles that count as the same for text *)
Lemma inherited_font {A} (f : style -> A) s s' : looks_at_font f -> same_inherited s s' -> f s' = f s.
Proof. intros F H. apply F; apply H; cbn; tauto. Qed.
Lemma same_inh s s' : same_style s s' -> same_inherited s s'.
Proof. intros [H _] l _. symmetry. apply H. Qed.
Lemma same_box st st' b p : same_style st st' -> box_calls st' b p = box_calls st b p.
Proof.
  intros [H _]. unfold box_calls, paint_background, paint_top, paint_right, paint_bottom, paint_left, to_rgba. rewrite <- !H. reflexivity.
Qed.
Lemma seen_box_alike o st st' ch ch' r p b m c m' c' : same_style st st' -> alike ch ch' -> seen o (FBox st' ch' r p b m' c') = seen o (FBox st ch r p b m c).
Proof. intros H A. cbn [seen]. rewrite (same_box _ _ _ _ H). f_equal. symmetry. apply A. Qed.
(** a box with nothing to show of its own *)
Definition no_border (b : sides Len) : Prop := s_inline_start b = l0 /\ s_inline_end b = l0 /\ s_block_start b = l0 /\ s_block_end b = l0.
Lemma bare_box o st ch r p b m c : sv st Lbackground_color = CRGBA transparent -> no_border b ->
  seen o (FBox st ch r p b m c) = sees (inside o r) ch.
Proof.
  intros B (E1 & E2 & E3 & E4). cbn [seen]. replace (box_calls st _ _) with (@nil dcall); [reflexivity|].
  assert (Z : forall x, x = l0 -> lltb l0 x = false) by (intros x ->; reflexivity).
  unfold box_calls, paint_background, to_rgba. rewrite B. cbn [c_alpha transparent].
  unfold paint_top, paint_right, paint_bottom, paint_left, border_rect_of, padding_rect_of, on, inflate, inline_sum, block_sum. cbn. rewrite ?E1, ?E2, ?E3, ?E4.
  rewrite !Z by ring. reflexivity.
Qed.

(* ------------------------------------------------------------------ *)
(** * Levels *)
Section Metrics.
Variables m_a m_d : style -> Len.
Variable m_w : style -> text -> Len.
Hypothesis Ha : looks_at_font m_a.
Hypothesis Hd : looks_at_font m_d.
Hypothesis Hw : looks_at_font m_w.

(** two levels that agree in everything but how the fragments are made up *)
Definition leq (c e : level) : Prop :=
  lv_inline_start e = lv_inline_start c /\ lv_ascent e = lv_ascent c /\ lv_ex e = lv_ex c /\ lv_baseline e = lv_baseline c /\
  lv_max_ascent e = lv_max_ascent c /\ lv_max_descent e = lv_max_descent c /\ alike (lv_fragments c) (lv_fragments e).
Lemma leq_refl c : leq c c.
Proof. repeat split; try reflexivity. Qed.
Lemma leq_trans a b c : leq a b -> leq b c -> leq a c.
Proof.
  intros (A1 & A2 & A3 & A4 & A5 & A6 & A7) (B1 & B2 & B3 & B4 & B5 & B6 & B7). repeat split; try congruence; intros o; rewrite (A7 o); apply B7.
Qed.
(** adding fragments to a level *)
Definition grow (c : level) (a d : Len) (fs : list fragment) : level :=
  Level (lv_fragments c ++ fs) (lv_inline_start c) (lv_ascent c) (lv_descent c) (lv_ex c) (lv_baseline c) (lmax (lv_max_ascent c) a) (lmax (lv_max_descent c) d).
Lemma leq_grow c e a d fs fs' : leq c e -> alike fs fs' -> leq (grow c a d fs) (grow e a d fs').
Proof.
  intros (A1 & A2 & A3 & A4 & A5 & A6 & A7) F. unfold grow. repeat split; cbn; try congruence; apply alike_app; assumption.
Qed.
(** a level is inside another one that is the same as [c'], at a distance *)
Definition apart (c c' : level) : Len := lv_inline_start c - lv_inline_start c'.
(** what the parent of an inline box is when the box is closed *)
Definition close (p : partial) (c : level) (pos : Len) (b : bool) : level := pt_parent (fst (finish_layout p c pos b)).
Definition closing (p : partial) (c : level) (pos : Len) (b : bool) : fragment :=
  let last := pt_last p && negb b in
  let e := fun s : sides Len => if last then s else zero_inline_end s in
  FBox (pt_style p) (lv_fragments c)
    (Rect (Vec2 (v_inline (pt_start p)) (v_block (pt_start p) + (lv_ascent (pt_parent p) - pt_ascent p))) (Vec2 (pos - lv_inline_start c) (pt_ascent p + pt_descent p)))
    (e (pt_padding p)) (e (pt_border p)) (e (pt_margin p)) cb_zero.
Lemma close_grow p c pos b : close p c pos b = grow (pt_parent p) (lv_max_ascent c) (lv_max_descent c) [closing p c pos b].
Proof. reflexivity. Qed.

(** an open box that adds nothing *)
Record bare (p : partial) (c : level) : Prop := {
  ba_background : sv (pt_style p) Lbackground_color = CRGBA transparent;
  ba_border : no_border (pt_border p);
  ba_end : s_inline_end (pt_padding p) = l0 /\ s_inline_end (pt_margin p) = l0;
  ba_ascent : pt_ascent p = lv_ascent (pt_parent p);
  ba_start : pt_start p = Vec2 (lv_inline_start c - lv_inline_start (pt_parent p)) l0
}.
Lemma bare_closing p c pos b o : bare p c -> seen o (closing p c pos b) = sees (plus o (lv_inline_start c - lv_inline_start (pt_parent p)) l0) (lv_fragments c).
Proof.
  intros [B1 B2 B3 B4 B5]. unfold closing. rewrite bare_box; [|exact B1|].
  - unfold inside. cbn [r_start v_inline v_block]. rewrite B5. cbn [v_inline v_block]. rewrite B4. unfold plus.
    match goal with |- flat_map (seen ?a) ?l = flat_map (seen ?b) ?l => replace a with b; [reflexivity|] end. f_equal; ring.
  - destruct B2 as (E1 & E2 & E3 & E4). destruct (_ && _); unfold no_border, zero_inline_end; cbn; auto.
Qed.
Lemma bare_close p c pos b pos' b' : bare p c -> leq (close p c pos b) (close p c pos' b').
Proof. intros B. rewrite !close_grow. apply leq_grow; [apply leq_refl|]. intros o. cbn [flat_map]. rewrite !bare_closing by exact B. reflexivity. Qed.

(** The two stacks of open boxes: one has open wrappers (true) that the other has not.  The styles are those of the boxes. *)
Definition ctx (base : style) (sh : list (bool * style)) : style := match sh with (_, st) :: _ => st | [] => base end.
Definition linked (st : style) (c : level) : Prop := lv_ascent c = m_a st /\ lv_ex c = font_ex st.
Definition agree (c c' : level) : Prop := lv_ascent c = lv_ascent c' /\ lv_ex c = lv_ex c' /\ lv_baseline c = lv_baseline c'.
Definition grown (c : level) : Prop := l0 <= lv_max_ascent c /\ l0 <= lv_max_descent c.
Inductive RS (base : style) : list (bool * style) -> list partial -> level -> list partial -> level -> Prop :=
| RS_nil c c' : leq c c' -> linked base c' -> grown c' -> RS base [] [] c [] c'
| RS_both sh st p p' stk stk' c c' : RS base sh stk (pt_parent p) stk' (pt_parent p') ->
    same_style (pt_style p) (pt_style p') -> pt_padding p' = pt_padding p -> pt_border p' = pt_border p -> pt_margin p' = pt_margin p ->
    pt_ascent p' = pt_ascent p -> pt_descent p' = pt_descent p -> pt_last p' = pt_last p ->
    pt_start p' = vec2_add (pt_start p) (Vec2 (apart (pt_parent p) (pt_parent p')) l0) ->
    leq c c' -> linked st c' -> grown c' -> RS base ((false, st) :: sh) (p :: stk) c (p' :: stk') c'
| RS_wrap sh st p stk c stk' c' : RS base sh stk (close p c l0 true) stk' c' -> bare p c -> agree c c' -> linked st c' -> grown c ->
    RS base ((true, st) :: sh) (p :: stk) c stk' c'.
Lemma RS_head base sh stk c stk' c' : RS base sh stk c stk' c' -> agree c c' /\ linked (ctx base sh) c' /\ grown c' /\ grown c.
Proof.
  assert (K : forall c c', leq c c' -> grown c' -> grown c) by (intros c0 c1 (_ & _ & _ & _ & E5 & E6 & _) G; unfold grown in *; rewrite <- E5, <- E6; exact G).
  induction 1 as [c c' A L G|sh st p p' stk stk' c c' _ _ _ _ _ _ _ _ _ _ A L G|sh st p stk c stk' c' _ (_ & _ & G & _) _ A L Gc]; cbn [ctx].
  - pose proof (K _ _ A G). destruct A as (A1 & A2 & A3 & A4 & _). repeat split; try congruence; try apply L; try apply G; apply H.
  - pose proof (K _ _ A G). destruct A as (A1 & A2 & A3 & A4 & _). repeat split; try congruence; try apply L; try apply G; apply H.
  - auto.
Qed.
Lemma RS_ext base sh stk c stk' c' : RS base sh stk c stk' c' -> forall e, leq c e -> RS base sh stk e stk' c'.
Proof.
  assert (S : forall c c' e, leq c c' -> leq c e -> leq e c').
  { intros c0 c1 e (A1 & A2 & A3 & A4 & A5 & A6 & A7) (B1 & B2 & B3 & B4 & B5 & B6 & B7). repeat split; try congruence; intros o; rewrite <- (A7 o); symmetry; apply B7. }
  induction 1 as [c0 c0' A L G|sh st p p' stk stk' c0 c0' K IH K1 K2 K3 K4 K5 K6 K7 K8 A L G|sh st p stk c0 stk' c0' K IH B A L Gc]; intros e E.
  - constructor; [exact (S _ _ _ A E)|exact L|exact G].
  - constructor; try assumption. exact (S _ _ _ A E).
  - pose proof E as (E1 & E2 & E3 & E4 & E5 & E6 & E7). assert (B' : bare p e) by (destruct B as [B1 B2 B3 B4 B5]; split; try assumption; rewrite E1; exact B5).
    constructor; [|exact B'| |exact L|unfold grown; rewrite E5, E6; exact Gc].
    + apply IH. rewrite !close_grow, E5, E6. apply leq_grow; [apply leq_refl|]. intros o. cbn [flat_map]. rewrite !bare_closing by assumption.
      rewrite !app_nil_r, E1. apply E7.
    + destruct A as (A1 & A2 & A3). repeat split; congruence.
Qed.
Lemma grown_grow c a d fs : grown c -> grown (grow c a d fs).
Proof. intros [G1 G2]. unfold grown, grow. cbn. revert G1 G2. generalize (lv_max_ascent c) (lv_max_descent c). intros x y H1 H2. unfold Qcle in *. split; lenq. Qed.
Lemma RS_grow base sh stk c stk' c' : RS base sh stk c stk' c' -> forall a d fs fs',
  (forall o, sees (plus o (apart c c') l0) fs = sees o fs') -> RS base sh stk (grow c a d fs) stk' (grow c' a d fs').
Proof.
  induction 1 as [c0 c0' A L G|sh st p p' stk stk' c0 c0' K IH K1 K2 K3 K4 K5 K6 K7 K8 A L G|sh st p stk c0 stk' c0' K IH B A L Gc]; intros a d fs fs' F.
  - constructor; [|exact L|apply grown_grow; exact G]. apply leq_grow; [exact A|]. intros o. rewrite <- (F o). destruct A as (A1 & _). unfold apart. rewrite A1.
    replace (lv_inline_start c0 - lv_inline_start c0) with l0 by ring. rewrite plus_0. reflexivity.
  - constructor; try assumption; [|apply grown_grow; exact G]. apply leq_grow; [exact A|]. intros o. rewrite <- (F o). destruct A as (A1 & _). unfold apart. rewrite A1.
    replace (lv_inline_start c0 - lv_inline_start c0) with l0 by ring. rewrite plus_0. reflexivity.
  - assert (B' : bare p (grow c0 a d fs)) by (destruct B as [B1 B2 B3 B4 B5]; split; assumption).
    constructor; [|exact B'|exact A|exact L|apply grown_grow; exact Gc].
    set (q := Level fs (lv_inline_start c0) (lv_ascent c0) (lv_descent c0) (lv_ex c0) (lv_baseline c0) l0 l0).
    assert (Bq : bare p q) by (destruct B as [B1 B2 B3 B4 B5]; split; assumption).
    eapply RS_ext; [apply (IH a d [closing p q l0 true] fs')|].
    + intros o. cbn [flat_map]. rewrite bare_closing by exact Bq. rewrite app_nil_r, plus_plus. cbn [lv_inline_start lv_fragments q]. rewrite <- (F o).
      cbn beta.
      match goal with |- flat_map (seen ?a) ?l = flat_map (seen ?b) ?l => replace a with b; [reflexivity|] end. unfold apart, plus. rewrite close_grow. cbn [grow lv_inline_start]. f_equal; ring.
    + rewrite !close_grow. unfold grow. repeat split; cbn [lv_inline_start lv_ascent lv_ex lv_baseline lv_max_ascent lv_max_descent lv_fragments].
      * apply lmax_assoc.
      * apply lmax_assoc.
      * intros o. cbv beta. rewrite !flat_map_app. cbn [flat_map]. rewrite !bare_closing by assumption. cbn [lv_inline_start lv_fragments q].
        rewrite !flat_map_app, !app_nil_r, <- ?app_assoc. reflexivity.
Qed.

(* ------------------------------------------------------------------ *)
(** * Ends of lines *)
Lemma level_next_leq c e : leq c e -> leq (level_next_line c) (level_next_line e).
Proof. intros (A1 & A2 & A3 & A4 & A5 & A6 & A7). repeat split; cbn; try congruence; apply alike_refl. Qed.
Lemma grown_next c : grown (level_next_line c).
Proof. split; cbn; apply Qcle_refl. Qed.
Lemma closing_both p p' c c' pos b : same_style (pt_style p) (pt_style p') -> pt_padding p' = pt_padding p -> pt_border p' = pt_border p -> pt_margin p' = pt_margin p ->
  pt_ascent p' = pt_ascent p -> pt_descent p' = pt_descent p -> pt_last p' = pt_last p ->
  pt_start p' = vec2_add (pt_start p) (Vec2 (apart (pt_parent p) (pt_parent p')) l0) -> lv_ascent (pt_parent p') = lv_ascent (pt_parent p) -> leq c c' ->
  forall o, sees (plus o (apart (pt_parent p) (pt_parent p')) l0) [closing p c pos b] = sees o [closing p' c' pos b].
Proof.
  intros K1 K2 K3 K4 K5 K6 K7 K8 K9 (A1 & A2 & A3 & A4 & A5 & A6 & A7) o. cbn [flat_map]. rewrite !app_nil_r. unfold closing. cbv zeta. rewrite K2, K3, K4, K5, K6, K7, K8, K9, A1.
  cbn [vec2_add v_inline v_block]. set (x := apart _ _). 
  match goal with |- _ = seen o (FBox _ _ (Rect (Vec2 ?a ?b0) ?sz) ?pa ?bo ?ma ?cm) => 
    replace (Rect (Vec2 a b0) sz) with (move (Rect (Vec2 (v_inline (pt_start p)) (v_block (pt_start p) + (lv_ascent (pt_parent p) - pt_ascent p))) sz) x l0) end.
  - rewrite seen_box. symmetry. apply seen_box_alike; [exact K1|exact A7].
  - unfold move. cbn [r_start r_size v_inline v_block]. do 2 f_equal. ring.
Qed.
Lemma finish_pos p c pos : snd (finish_layout p c pos true) = pos.
Proof. unfold finish_layout. cbn [snd]. rewrite andb_false_r. reflexivity. Qed.
Lemma RS_finish base : forall sh stk c stk' c' pos, RS base sh stk c stk' c' ->
  let x := finish_partials stk c pos in let y := finish_partials stk' c' pos in
  snd x = pos /\ snd y = pos /\ leq (snd (fst x)) (snd (fst y)) /\ RS base sh (fst (fst x)) (level_next_line c) (fst (fst y)) (level_next_line c').
Proof.
  induction sh as [|[w st] sh IH]; intros stk c stk' c' pos H.
  - inversion H as [c0 c0' A L G| |]; subst. cbn. repeat split; try reflexivity; try exact A; try apply A.
    constructor; [apply level_next_leq; exact A|exact L|apply grown_next].
  - inversion H as [|sh0 st0 p p' stk0 stk0' c0 c0' K K1 K2 K3 K4 K5 K6 K7 K8 A L G|sh0 st0 p stk0 c0 stk0' c0' K B A L Gc]; subst.
    + destruct (RS_head _ _ _ _ _ _ K) as ((Ag1 & _ & _) & _).
      assert (K' : RS base sh stk0 (close p c pos true) stk0' (close p' c' pos true)).
      { rewrite !close_grow. pose proof A as (A1 & A2 & A3 & A4 & A5 & A6 & A7). rewrite A5, A6. apply RS_grow; [exact K|]. apply closing_both; auto. }
      specialize (IH _ _ _ _ pos K'). cbn [finish_partials]. cbv zeta in IH.
      pose proof (finish_pos p c pos) as E. pose proof (finish_pos p' c' pos) as E'. unfold close in IH.
      assert (F1 : pt_start (fst (finish_layout p c pos true)) = pt_start p /\ pt_style (fst (finish_layout p c pos true)) = pt_style p /\ pt_padding (fst (finish_layout p c pos true)) = pt_padding p /\
         pt_border (fst (finish_layout p c pos true)) = pt_border p /\ pt_margin (fst (finish_layout p c pos true)) = pt_margin p /\ pt_ascent (fst (finish_layout p c pos true)) = pt_ascent p /\
         pt_descent (fst (finish_layout p c pos true)) = pt_descent p /\ pt_last (fst (finish_layout p c pos true)) = pt_last p) by (repeat split).
      assert (F2 : pt_start (fst (finish_layout p' c' pos true)) = pt_start p' /\ pt_style (fst (finish_layout p' c' pos true)) = pt_style p' /\ pt_padding (fst (finish_layout p' c' pos true)) = pt_padding p' /\
         pt_border (fst (finish_layout p' c' pos true)) = pt_border p' /\ pt_margin (fst (finish_layout p' c' pos true)) = pt_margin p' /\ pt_ascent (fst (finish_layout p' c' pos true)) = pt_ascent p' /\
         pt_descent (fst (finish_layout p' c' pos true)) = pt_descent p' /\ pt_last (fst (finish_layout p' c' pos true)) = pt_last p') by (repeat split).
      destruct (finish_layout p c pos true) as [p1 pos1], (finish_layout p' c' pos true) as [p1' pos1']. cbn [fst snd] in *. subst pos1 pos1'.
      destruct (finish_partials stk0 (pt_parent p1) pos) as [[r t] q], (finish_partials stk0' (pt_parent p1') pos) as [[r' t'] q']. cbn [fst snd] in *.
      destruct IH as (I1 & I2 & I3 & I4). repeat split; try assumption; try apply I3.
      destruct F1 as (F11 & F12 & F13 & F14 & F15 & F16 & F17 & F18), F2 as (F21 & F22 & F23 & F24 & F25 & F26 & F27 & F28).
      apply RS_both; cbn [partial_next_line pt_parent pt_style pt_padding pt_border pt_margin pt_ascent pt_descent pt_last pt_start]; try congruence.
      * rewrite F11, F21, K8. unfold apart, vec2_add. cbn [v_inline v_block level_next_line lv_inline_start]. f_equal; ring.
      * apply level_next_leq; exact A.
      * exact L.
      * apply grown_next.
    + assert (K' : RS base sh stk0 (close p c pos true) stk' c') by (eapply RS_ext; [exact K|apply bare_close; exact B]).
      specialize (IH _ _ _ _ pos K'). cbn [finish_partials]. cbv zeta in IH. pose proof (finish_pos p c pos) as E.
      assert (F1 : pt_start (fst (finish_layout p c pos true)) = pt_start p /\ pt_style (fst (finish_layout p c pos true)) = pt_style p /\ pt_padding (fst (finish_layout p c pos true)) = pt_padding p /\
         pt_border (fst (finish_layout p c pos true)) = pt_border p /\ pt_margin (fst (finish_layout p c pos true)) = pt_margin p /\ pt_ascent (fst (finish_layout p c pos true)) = pt_ascent p /\
         pt_descent (fst (finish_layout p c pos true)) = pt_descent p /\ lv_ascent (pt_parent (fst (finish_layout p c pos true))) = lv_ascent (pt_parent p)) by (repeat split).
      unfold close in IH. destruct (finish_layout p c pos true) as [p1 pos1]. cbn [fst snd] in *. subst pos1.
      destruct (finish_partials stk0 (pt_parent p1) pos) as [[r t] q]. destruct (finish_partials stk' c' pos) as [[r' t'] q']. cbn [fst snd] in *.
      destruct IH as (I1 & I2 & I3 & I4). repeat split; try assumption; try apply I3.
      destruct F1 as (F11 & F12 & F13 & F14 & F15 & F16 & F17 & F18). destruct B as [B1 B2 B3 B4 B5].
      match goal with |- RS _ _ (?p2 :: _) _ _ _ => assert (B' : bare p2 (level_next_line c)) end.
      { split; cbn [pt_style pt_border pt_padding pt_margin pt_ascent pt_parent pt_start partial_next_line level_next_line lv_inline_start lv_ascent]; try congruence.
        - rewrite F14. destruct B2 as (? & ? & ? & ?). unfold no_border, zero_inline_start; cbn; auto.
        - rewrite F13, F15. exact B3.
        - rewrite F11, B5. cbn. f_equal; ring. }
      apply RS_wrap; [|exact B'|exact A|exact L|apply grown_next].
      eapply RS_ext; [exact I4|]. rewrite close_grow.
      repeat split; cbn [grow pt_parent level_next_line lv_inline_start lv_ascent lv_ex lv_baseline lv_max_ascent lv_max_descent lv_fragments]; try (cbn; lenq; fail).
      intros o. cbv beta. rewrite flat_map_app. cbn [flat_map]. rewrite bare_closing by exact B'. reflexivity.
Qed.

(* ------------------------------------------------------------------ *)
(** * Fragments of blocks and lines, results *)
Inductive zfrag : fragment -> fragment -> Prop :=
| ZFBox st st' ch ch' r p b m c : same_style st st' -> alike ch ch' -> zfrag (FBox st ch r p b m c) (FBox st' ch' r p b m c)
| ZFAnon r ch ch' : alike ch ch' -> zfrag (FAnon r ch) (FAnon r ch').
Notation zfrags := (Forall2 zfrag).
Lemma z_seen f f' : zfrag f f' -> forall o, seen o f = seen o f'.
Proof.
  intros H o. destruct H as [st st' ch ch' r p b m c S A|r ch ch' A]; [symmetry; apply seen_box_alike; assumption|]. cbn [seen]. apply A.
Qed.
Lemma z_alike l l' : zfrags l l' -> alike l l'.
Proof. induction 1 as [|f f' l l' Hf _ IH]; intros o; [reflexivity|]. cbn [flat_map]. rewrite (z_seen _ _ Hf). f_equal. apply IH. Qed.

Definition zres {A B} (R : A -> B -> Prop) (r : result A) (r' : result B) : Prop :=
  match r, r' with Ok a, Ok b => R a b | Panic, Panic => True | OutOfFuel, OutOfFuel => True | _, _ => False end.
Lemma zres_bind {A B C D} (R : A -> B -> Prop) (Q : C -> D -> Prop) r r' f f' :
  zres R r r' -> (forall a b, R a b -> zres Q (f a) (f' b)) -> zres Q (bind r f) (bind r' f').
Proof. destruct r, r'; cbn; try tauto. auto. Qed.
Definition zlay (lay lay' : offsets -> offsets -> vec2 Len -> result fragment) : Prop :=
  forall i b size, zres zfrag (lay i b size) (lay' i b size).
Definition zabs (a a' : abs_frag) : Prop :=
  same_style (af_style a) (af_style a') /\ af_rank a' = af_rank a /\ af_inline a' = af_inline a /\
  af_block a' = af_block a /\ zlay (af_layout a) (af_layout a').
Notation zabss := (Forall2 zabs).
Lemma z_abs_box st st' lay lay' c rank : same_style st st' -> zlay lay lay' ->
  zabs (abs_box_layout st lay c rank) (abs_box_layout st' lay' c rank).
Proof.
  intros H L. unfold abs_box_layout, zabs; cbn [af_style af_rank af_inline af_block af_layout].
  unfold box_offsets. destruct H as [H H']. rewrite <- !H. repeat split; auto.
Qed.

(* ------------------------------------------------------------------ *)
(** * Inline layout *)
Definition ST (base : style) (sh : list (bool * style)) (s s' : ifc) : Prop :=
  RS base sh (is_stack s) (is_cur s) (is_stack s') (is_cur s') /\ is_pos s' = is_pos s /\
  zfrags (ln_boxes (is_lines s)) (ln_boxes (is_lines s')) /\ ln_next (is_lines s') = ln_next (is_lines s) /\ zabss (is_abs s) (is_abs s').
Lemma ST_finish_line base sh cb ta s s' : ST base sh s s' -> ST base sh (finish_line cb ta s) (finish_line cb ta s').
Proof.
  intros (R & P & L & N & A). unfold finish_line. rewrite P.
  pose proof (RS_finish base sh _ _ _ _ (is_pos s) R) as F. cbv zeta in F.
  destruct (finish_partials (is_stack s) (is_cur s) (is_pos s)) as [[r t] q], (finish_partials (is_stack s') (is_cur s') (is_pos s)) as [[r' t'] q']. cbn [fst snd] in F.
  destruct F as (-> & -> & (T1 & T2 & T3 & T4 & T5 & T6 & T7) & RF). split; [exact RF|]. cbn [is_pos is_lines is_abs]. split; [reflexivity|].
  unfold lines_finish. cbn [ln_boxes ln_next v_block]. rewrite T2, T5, T6, N. split; [|split; [reflexivity|exact A]].
  apply Forall2_app; [exact L|]. constructor; [|constructor]. constructor. intros o. cbv beta. rewrite !(sees_translate _ _). apply T7.
Qed.
Lemma line_height_inh s s' : same_inherited s s' -> line_height s' = line_height s.
Proof. intros H. unfold line_height. rewrite (H Lline_height), (H Lfont_size) by (cbn; tauto). reflexivity. Qed.
Lemma ST_add_text base sh st st' fo fo' sg n s s' : same_inherited st st' -> same_inherited fo fo' -> ST base sh s s' ->
  ST base sh (add_text m_a m_d m_w st fo sg n s) (add_text m_a m_d m_w st' fo' sg n s').
Proof.
  intros H Hf (R & P & L & N & A). unfold add_text. rewrite (inherited_font m_w _ _ Hw Hf).
  destruct (seg_advance (m_w fo) sg) as [w sg1].
  replace (line_ascent_descent m_a m_d st' fo') with (line_ascent_descent m_a m_d st fo)
    by (unfold line_ascent_descent; rewrite (line_height_inh _ _ H), (inherited_font m_a _ _ Ha Hf), (inherited_font m_d _ _ Hd Hf); reflexivity).
  destruct (line_ascent_descent m_a m_d st fo) as [a d].
  destruct (RS_head _ _ _ _ _ _ R) as ((_ & _ & E) & _). rewrite P, <- E.
  set (x := a - lv_baseline (is_cur s)). set (y := d + lv_baseline (is_cur s)).
  destruct (seg_empty sg1); cbn [negb orb].
  - destruct n; [|unfold set_cur; split; [exact R|auto]]. unfold set_cur. split; [|auto]. cbn [is_stack is_cur].
    pose proof (RS_grow _ _ _ _ _ _ R x y [] [] (fun o => eq_refl)) as K. unfold grow in K. rewrite !app_nil_r in K. exact K.
  - unfold ST. cbn [is_stack is_cur is_pos is_lines is_abs]. split; [|auto].
    apply (RS_grow _ _ _ _ _ _ R x y [FText st _ fo sg1] [FText st' _ fo' sg1]). intros o. cbn [flat_map seen]. unfold inside. cbn [r_start v_inline v_block fst snd].
    rewrite (inherited_font font_of _ _ Hfont Hf), (H Lcolor) by (cbn; tauto).
    unfold apart, plus. cbn [fst snd]. repeat (f_equal; try ring).
Qed.
Lemma z_wrap_line fo fo' av : same_inherited fo fo' -> forall chars sg lb, wrap_line m_w fo' av chars sg lb = wrap_line m_w fo av chars sg lb.
Proof.
  intros H. induction chars as [|ch rest IH]; intros sg lb; cbn; rewrite (inherited_font m_w _ _ Hw H); [reflexivity|].
  destruct (if is_break_char ch then _ else _) as [over sg1]. destruct over; [reflexivity|]. destruct (ch =? nl)%N; [reflexivity|]. apply IH.
Qed.
Lemma ST_wrap_loop base sh cb ta st st' fo fo' : same_inherited st st' -> same_inherited fo fo' -> forall fuel chars sg lb s s', ST base sh s s' ->
  zres (ST base sh) (wrap_loop m_a m_d m_w fuel cb ta st fo chars sg lb s) (wrap_loop m_a m_d m_w fuel cb ta st' fo' chars sg lb s').
Proof.
  intros H Hf. induction fuel as [|fuel IH]; intros chars sg lb s s' S; cbn [wrap_loop]; [exact I|].
  rewrite (proj1 (proj2 S)), (z_wrap_line _ _ _ Hf). destruct (wrap_line _ _ _ _ _ _) as [[[sg1 ch1] n1]| |]; cbn [bind]; [|exact I..].
  pose proof (ST_add_text base sh st st' fo fo' sg1 n1 s s' H Hf S) as S1.
  destruct (_ || _); [|exact S1]. rewrite (inherited_font m_w _ _ Hw Hf). apply IH. apply ST_finish_line. exact S1.
Qed.
Lemma ST_nowrap_loop base sh cb ta st st' fo fo' : same_inherited st st' -> same_inherited fo fo' -> forall fuel chars s s', ST base sh s s' ->
  zres (ST base sh) (nowrap_loop m_a m_d m_w fuel cb ta st fo chars s) (nowrap_loop m_a m_d m_w fuel cb ta st' fo' chars s').
Proof.
  intros H Hf. induction fuel as [|fuel IH]; intros chars s s' S; cbn [nowrap_loop]; [exact I|].
  destruct (nowrap_line chars seg_new) as [[sg1 ch1] n1]. pose proof (ST_add_text base sh st st' fo fo' sg1 n1 s s' H Hf S) as S1.
  destruct (_ || _); [|exact S1]. apply IH. apply ST_finish_line. exact S1.
Qed.
Lemma ST_text_run base sh cb ta st st' fo fo' t s s' : same_inherited st st' -> same_inherited fo fo' -> ST base sh s s' ->
  zres (ST base sh) (text_run_layout m_a m_d m_w cb ta st fo t s) (text_run_layout m_a m_d m_w cb ta st' fo' t s').
Proof.
  intros H Hf S. unfold text_run_layout, layout_wrap. rewrite (H Lwhite_space) by (cbn; tauto).
  destruct (sv st Lwhite_space); auto using ST_wrap_loop, ST_nowrap_loop.
Qed.

(** An inline box that is on both sides *)
Lemma ST_start base sh cb st st' fi la_ s s' : same_style st st' -> ST base sh s s' ->
  ST base ((false, st) :: sh) (start_layout m_a m_d cb st fi la_ s) (start_layout m_a m_d cb st' fi la_ s').
Proof.
  intros H (R & P & L & N & A). pose proof (same_inh _ _ H) as Hi.
  destruct (RS_head _ _ _ _ _ _ R) as ((E1 & E2 & E3) & _).
  assert (B : baseline_shift st' (m_a st) (m_d st) (is_cur s') = baseline_shift st (m_a st) (m_d st) (is_cur s)).
  { unfold baseline_shift. rewrite (line_height_inh _ _ Hi), E1, E2, (proj1 H Lvertical_align). reflexivity. }
  unfold start_layout. rewrite (inherited_font m_a _ _ Ha Hi), (inherited_font m_d _ _ Hd Hi), B, P.
  assert (V : style_padding st' = style_padding st /\ style_border_width st' = style_border_width st /\ style_margin st' = style_margin st /\ relative_adjustement st' (cb_inline cb) (cb_block cb) = relative_adjustement st (cb_inline cb) (cb_block cb)).
  { unfold style_padding, style_border_width, style_margin, relative_adjustement, box_offsets. destruct H as [H _]. rewrite <- !H. auto. }
  destruct V as (-> & -> & -> & ->).
  assert (X : font_ex st' = font_ex st) by (unfold font_ex; rewrite (proj1 H Lfont_size); reflexivity).
  rewrite X. split; [|auto]. cbn [is_stack is_cur]. apply RS_both; cbn [pt_parent pt_style pt_padding pt_border pt_margin pt_ascent pt_descent pt_last pt_start]; try reflexivity; try assumption.
  - unfold vec2_add, apart. cbn [v_inline v_block]. f_equal; ring.
  - repeat split; try reflexivity. cbn. rewrite E3. reflexivity.
  - split; reflexivity.
  - split; cbn; apply Qcle_refl.
Qed.
(** One that is on one side only *)
Lemma lmax_0 x : l0 <= x -> lmax x l0 = x.
Proof. intros H. unfold Qcle in H. lenq. Qed.
Lemma ST_wrap base sh cb st fi la_ s s' : adds_nothing (ctx base sh) st -> ST base sh s s' ->
  ST base ((true, st) :: sh) (start_layout m_a m_d cb st fi la_ s) s'.
Proof.
  intros [An1 An2 An3 An4 [An5 An6] [An7 An8] (An9 & An10 & An11 & An12) An13] (R & P & L & N & A).
  destruct (RS_head _ _ _ _ _ _ R) as ((E1 & E2 & E3) & (L1 & L2) & G' & [G1 G2]).
  assert (M : m_a st = lv_ascent (is_cur s)) by (rewrite (inherited_font m_a _ _ Ha An1); congruence).
  assert (Sh : baseline_shift st (m_a st) (m_d st) (is_cur s) = l0) by (unfold baseline_shift; rewrite An4; reflexivity).
  assert (Re : relative_adjustement st (cb_inline cb) (cb_block cb) = vec2_zero) by (unfold relative_adjustement; rewrite An3; reflexivity).
  set (e := fun x : sides Len => if fi then x else zero_inline_start x).
  assert (Pd : forall b, s_inline_start (e (sides_lp_rel (style_padding st) b)) = l0 /\ s_inline_end (e (sides_lp_rel (style_padding st) b)) = l0).
  { intros b. unfold e, sides_lp_rel, style_padding, zero_inline_start, sides_map. destruct fi; cbn; rewrite ?An7, ?An8; auto. }
  assert (Mg : forall b, s_inline_start (e (sides_auto_is (sides_lpa_rel (style_margin st) b) l0)) = l0 /\ s_inline_end (e (sides_auto_is (sides_lpa_rel (style_margin st) b) l0)) = l0).
  { intros b. unfold e, sides_auto_is, sides_lpa_rel, style_margin, zero_inline_start, sides_map. destruct fi; cbn; rewrite ?An5, ?An6; auto. }
  assert (Bd : forall b, no_border (e (sides_lp_rel (style_border_width st) b))).
  { intros b. unfold no_border, e, sides_lp_rel, style_border_width, zero_inline_start, sides_map. destruct fi; cbn; rewrite ?An9, ?An10, ?An11, ?An12; auto. }
  unfold start_layout. rewrite Sh, Re. cbv zeta beta. unfold e in Pd, Mg, Bd. clear e. cbv beta in Pd, Mg, Bd.
  specialize (Pd (cb_inline cb)). specialize (Mg (cb_inline cb)). specialize (Bd (cb_inline cb)). destruct Pd as [Pd1 Pd2], Mg as [Mg1 Mg2]. pose proof Bd as (Bd1 & _).
  rewrite Pd1, Mg1, Bd1.
  replace (if fi then is_pos s + (l0 + l0 + l0) else is_pos s) with (is_pos s) by (destruct fi; [ring|reflexivity]).
  replace (vec2_add (Vec2 (is_pos s - lv_inline_start (is_cur s)) l0) vec2_zero) with (Vec2 (is_pos s - lv_inline_start (is_cur s)) l0) by (unfold vec2_add, vec2_zero; cbn; f_equal; ring).
  replace (lv_baseline (is_cur s) + l0) with (lv_baseline (is_cur s)) by ring.
  split; [|auto]. cbn [is_stack is_cur].
  match goal with |- RS _ _ (?p :: _) ?c _ _ => assert (Ba : bare p c) end.
  { split; cbn [pt_style pt_border pt_padding pt_margin pt_ascent pt_parent pt_start lv_inline_start]; auto. }
  apply RS_wrap; [|exact Ba| | |split; cbn; apply Qcle_refl].
  - eapply RS_ext; [exact R|]. rewrite close_grow. cbn [pt_parent lv_max_ascent lv_max_descent].
    repeat split; cbn [grow lv_inline_start lv_ascent lv_ex lv_baseline lv_max_ascent lv_max_descent lv_fragments]; try (apply lmax_0; assumption).
    intros o. cbv beta. rewrite flat_map_app. cbn [flat_map]. rewrite bare_closing by exact Ba. cbn. rewrite !app_nil_r. reflexivity.
  - repeat split; cbn [lv_ascent lv_ex lv_baseline]; try congruence.
    rewrite <- E2 in L2. rewrite E2 in L2. rewrite L2. unfold font_ex. rewrite (An1 Lfont_size) by (cbn; tauto). reflexivity.
  - split; [congruence|]. rewrite L2. unfold font_ex. rewrite (An1 Lfont_size) by (cbn; tauto). reflexivity.
Qed.
Lemma ST_unwrap base sh st s s' p stk : ST base ((true, st) :: sh) s s' -> is_stack s = p :: stk ->
  ST base sh (let '(p1, pos) := finish_layout p (is_cur s) (is_pos s) false in Ifc (is_lines s) pos stk (pt_parent p1) (is_abs s)) s'.
Proof.
  intros (R & P & L & N & A) E. rewrite E in R. inversion R as [| |sh0 st0 p0 stk0 c0 stk0' c0' K B Ag Li Gc]; subst.
  assert (Pos : snd (finish_layout p (is_cur s) (is_pos s) false) = is_pos s).
  { unfold finish_layout. cbn [snd]. destruct B as [_ (_ & B2 & _) [B3 B4] _ _]. rewrite B2, B3, B4. destruct (pt_last p && negb false); [ring|reflexivity]. }
  pose proof (RS_ext _ _ _ _ _ _ K _ (bare_close p _ l0 true (is_pos s) false B)) as K'. unfold close in K'.
  destruct (finish_layout p (is_cur s) (is_pos s) false) as [p1 pos]. cbn [fst snd] in *. subst pos. split; [exact K'|auto].
Qed.
Lemma ST_end base sh st s s' p stk p' stk' : ST base ((false, st) :: sh) s s' -> is_stack s = p :: stk -> is_stack s' = p' :: stk' ->
  ST base sh (let '(p1, pos) := finish_layout p (is_cur s) (is_pos s) false in Ifc (is_lines s) pos stk (pt_parent p1) (is_abs s))
             (let '(p1, pos) := finish_layout p' (is_cur s') (is_pos s') false in Ifc (is_lines s') pos stk' (pt_parent p1) (is_abs s')).
Proof.
  intros (R & P & L & N & A) E E'. rewrite E, E' in R. inversion R as [|sh0 st0 p0 p0' stk0 stk0' c0 c0' K K1 K2 K3 K4 K5 K6 K7 K8 Lq Li Gr|]; subst.
  destruct (RS_head _ _ _ _ _ _ K) as ((Ag1 & _ & _) & _).
  assert (K' : RS base sh stk (close p (is_cur s) (is_pos s) false) stk' (close p' (is_cur s') (is_pos s) false)).
  { rewrite !close_grow. pose proof Lq as (A1 & A2 & A3 & A4 & A5 & A6 & A7). rewrite A5, A6. apply RS_grow; [exact K|]. apply closing_both; auto. }
  rewrite P. unfold close in K'.
  assert (Pos : snd (finish_layout p' (is_cur s') (is_pos s) false) = snd (finish_layout p (is_cur s) (is_pos s) false)) by (unfold finish_layout; cbn [snd]; rewrite K2, K3, K4, K7; reflexivity).
  destruct (finish_layout p (is_cur s) (is_pos s) false) as [p1 pos], (finish_layout p' (is_cur s') (is_pos s) false) as [p1' pos']. cbn [fst snd] in *. subst pos'.
  split; [exact K'|auto].
Qed.

(** Boxes of which some, on the left, are only there on that side *)
Section Boxes.
Context {C D : Type}.
Variable R : style -> style -> C -> D -> Prop.
Inductive wis : style -> list (ilb C) -> list (ilb D) -> Prop :=
| W_nil ctx : wis ctx [] []
| W_box ctx st st' fi la_ ch ch' l l' : same_style st st' -> wis st ch ch' -> wis ctx l l' ->
    wis ctx (InlineBox st fi la_ ch :: l) (InlineBox st' fi la_ ch' :: l')
| W_run ctx st st' t fo fo' l l' : same_inherited st st' -> same_inherited fo fo' -> wis ctx l l' ->
    wis ctx (TextRun st t fo :: l) (TextRun st' t fo' :: l')
| W_abs ctx st st' c c' l l' : same_style st st' -> R st st' c c' -> wis ctx l l' -> wis ctx (IAbspos st c :: l) (IAbspos st' c' :: l')
| W_float ctx st st' c c' l l' : same_style st st' -> R st st' c c' -> wis ctx l l' -> wis ctx (IFloat st c :: l) (IFloat st' c' :: l')
| W_wrap ctx st fi la_ inner inner' l l' : adds_nothing ctx st -> wis st inner inner' -> wis ctx l l' ->
    wis ctx (InlineBox st fi la_ inner :: l) (inner' ++ l').
Lemma wis_app ctx l1 l1' l2 l2' : wis ctx l1 l1' -> wis ctx l2 l2' -> wis ctx (l1 ++ l2) (l1' ++ l2').
Proof. induction 1; intros K; cbn [app]; rewrite <- ?app_assoc; try (constructor; auto; fail). exact K. Qed.
End Boxes.
Definition zlays (st st' : style) (l l' : abs_lay) : Prop := zlay l l'.
Lemma steps_app {C} (l l' : list (ilb C)) : boxes_steps (l ++ l') = (boxes_steps l + boxes_steps l')%nat.
Proof. unfold boxes_steps. rewrite map_app. apply list_sum_app. Qed.
Lemma ST_stack base sh b st s s' : ST base ((b, st) :: sh) s s' -> exists p stk, is_stack s = p :: stk.
Proof. intros (R & _). inversion R; subst; eexists _, _; reflexivity. Qed.
Lemma ST_stack' base sh st s s' : ST base ((false, st) :: sh) s s' -> exists p stk, is_stack s' = p :: stk.
Proof. intros (R & _). inversion R; subst; eexists _, _; reflexivity. Qed.
Section Loop.
Variable cb : cblock.
Variable ta : text_align.
Variable rank : nat.
Notation loop := (ifc_loop m_a m_d m_w).
Lemma W_loop ctx0 l l' : wis zlays ctx0 l l' -> forall base sh s s' r r' rs rs' fuel fuel', ctx0 = ctx base sh -> ST base sh s s' ->
  zres (fun _ _ => False) (loop (boxes_steps l + fuel) cb ta rank ((l ++ r) :: rs) s) (loop (boxes_steps l' + fuel') cb ta rank ((l' ++ r') :: rs') s') \/
  exists s1 s1', ST base sh s1 s1' /\ loop (boxes_steps l + fuel) cb ta rank ((l ++ r) :: rs) s = loop fuel cb ta rank (r :: rs) s1 /\
    loop (boxes_steps l' + fuel') cb ta rank ((l' ++ r') :: rs') s' = loop fuel' cb ta rank (r' :: rs') s1'.
Proof.
  induction 1 as [c|c st st' fi la_ ch ch' l l' S _ IHc _ IHl|c st st' t fo fo' l l' S Sf _ IHl|c st st' k k' l l' S K _ IHl|c st st' k k' l l' S K _ IHl|c st fi la_ inner inner' l l' An _ IHc _ IHl];
    intros base sh s s' r r' rs rs' fuel fuel' Ec Hs.
  - right. exists s, s'. auto.
  - change (boxes_steps (InlineBox st fi la_ ch :: l)) with (ilb_steps (InlineBox st fi la_ ch) + boxes_steps l)%nat.
    change (boxes_steps (InlineBox st' fi la_ ch' :: l')) with (ilb_steps (InlineBox st' fi la_ ch') + boxes_steps l')%nat.
    change (ilb_steps (InlineBox st fi la_ ch)) with (Datatypes.S (Datatypes.S (boxes_steps ch))). change (ilb_steps (InlineBox st' fi la_ ch')) with (Datatypes.S (Datatypes.S (boxes_steps ch'))).
    replace (Datatypes.S (Datatypes.S (boxes_steps ch)) + boxes_steps l + fuel)%nat with (Datatypes.S (boxes_steps ch + Datatypes.S (boxes_steps l + fuel)))%nat by lia.
    replace (Datatypes.S (Datatypes.S (boxes_steps ch')) + boxes_steps l' + fuel')%nat with (Datatypes.S (boxes_steps ch' + Datatypes.S (boxes_steps l' + fuel')))%nat by lia.
    cbn [InlineModel.ifc_loop hd tl app].
    pose proof (IHc base ((false, st) :: sh) _ _ [] [] ((l ++ r) :: rs) ((l' ++ r') :: rs') (Datatypes.S (boxes_steps l + fuel)) (Datatypes.S (boxes_steps l' + fuel')) eq_refl (ST_start base sh cb st st' fi la_ s s' S Hs)) as H.
    rewrite !app_nil_r in H. destruct H as [H|(s1 & s1' & H1 & E & E')]; [left; exact H|]. rewrite E, E'. clear E E'.
    cbn [InlineModel.ifc_loop hd tl].
    destruct (ST_stack _ _ _ _ _ _ H1) as (p & stk & Ep), (ST_stack' _ _ _ _ _ H1) as (p' & stk' & Ep').
    pose proof (ST_end _ _ _ _ _ _ _ _ _ H1 Ep Ep') as H2. rewrite Ep, Ep'.
    destruct (finish_layout p (is_cur s1) (is_pos s1) false) as [p1 pos1], (finish_layout p' (is_cur s1') (is_pos s1') false) as [p1' pos1'].
    apply (IHl base sh _ _ r r' rs rs' fuel fuel' Ec H2).
  - change (boxes_steps (TextRun st t fo :: l)) with (Datatypes.S (boxes_steps l)). change (boxes_steps (TextRun st' t fo' :: l')) with (Datatypes.S (boxes_steps l')).
    cbn [Nat.add InlineModel.ifc_loop hd tl app].
    pose proof (ST_text_run base sh cb ta st st' fo fo' t s s' S Sf Hs) as T.
    destruct (text_run_layout m_a m_d m_w cb ta st fo t s) as [s1| |], (text_run_layout m_a m_d m_w cb ta st' fo' t s') as [s1'| |]; cbn [zres bind] in *; try contradiction; try (left; exact I).
    apply (IHl base sh _ _ r r' rs rs' fuel fuel' Ec T).
  - change (boxes_steps (IAbspos st k :: l)) with (Datatypes.S (boxes_steps l)). change (boxes_steps (IAbspos st' k' :: l')) with (Datatypes.S (boxes_steps l')).
    cbn [Nat.add InlineModel.ifc_loop hd tl app].
    pose proof Hs as (Hr & P & L & N & A).
    assert (E : inline_static_corner st' s' = inline_static_corner st s) by (unfold inline_static_corner; rewrite P, N, (proj2 S); reflexivity).
    rewrite E. destruct (inline_static_corner st s) as [co| |]; cbn [bind]; try (left; exact I).
    apply (IHl base sh _ _ r r' rs rs' fuel fuel' Ec). split; [exact Hr|]. cbn [push_abs is_pos is_lines is_abs]. split; [exact P|]. split; [exact L|]. split; [exact N|].
    apply Forall2_app; [exact A|]. constructor; [|constructor]. apply z_abs_box; assumption.
  - change (boxes_steps (IFloat st k :: l)) with (Datatypes.S (boxes_steps l)). change (boxes_steps (IFloat st' k' :: l')) with (Datatypes.S (boxes_steps l')).
    cbn [Nat.add InlineModel.ifc_loop hd tl app]. apply (IHl base sh _ _ r r' rs rs' fuel fuel' Ec Hs).
  - change (boxes_steps (InlineBox st fi la_ inner :: l)) with (ilb_steps (InlineBox st fi la_ inner) + boxes_steps l)%nat.
    change (ilb_steps (InlineBox st fi la_ inner)) with (Datatypes.S (Datatypes.S (boxes_steps inner))).
    replace (Datatypes.S (Datatypes.S (boxes_steps inner)) + boxes_steps l + fuel)%nat with (Datatypes.S (boxes_steps inner + Datatypes.S (boxes_steps l + fuel)))%nat by lia.
    rewrite steps_app, <- app_assoc, <- Nat.add_assoc.
    cbn [app]. change (loop (Datatypes.S (boxes_steps inner + Datatypes.S (boxes_steps l + fuel))) cb ta rank ((InlineBox st fi la_ inner :: l ++ r) :: rs) s)
      with (loop (boxes_steps inner + Datatypes.S (boxes_steps l + fuel)) cb ta rank (inner :: (l ++ r) :: rs) (start_layout m_a m_d cb st fi la_ s)).
    rewrite Ec in An.
    pose proof (IHc base ((true, st) :: sh) _ _ [] (l' ++ r') ((l ++ r) :: rs) rs' (Datatypes.S (boxes_steps l + fuel)) (boxes_steps l' + fuel')%nat eq_refl (ST_wrap base sh cb st fi la_ s s' An Hs)) as H.
    rewrite app_nil_r in H. destruct H as [H|(s1 & s1' & H1 & E & E')]; [left; exact H|]. rewrite E, E'. clear E E'.
    change (loop (Datatypes.S (boxes_steps l + fuel)) cb ta rank ([] :: (l ++ r) :: rs) s1) with
      (match is_stack s1 with
       | p :: stack => let '(p1, pos) := finish_layout p (is_cur s1) (is_pos s1) false in
           loop (boxes_steps l + fuel) cb ta rank ((l ++ r) :: rs) (Ifc (is_lines s1) pos stack (pt_parent p1) (is_abs s1))
       | [] => Ok (finish_line cb ta s1) end).
    destruct (ST_stack _ _ _ _ _ _ H1) as (p & stk & Ep). pose proof (ST_unwrap _ _ _ _ _ _ _ H1 Ep) as H2. rewrite Ep.
    destruct (finish_layout p (is_cur s1) (is_pos s1) false) as [p1 pos1].
    apply (IHl base sh _ _ r r' rs rs' fuel fuel' Ec H2).
Qed.
End Loop.
Definition zflow (f f' : flow) : Prop := zfrags (fl_fragments f) (fl_fragments f') /\ fl_block_size f' = fl_block_size f /\ fl_margins f' = fl_margins f.
Definition zfa (x y : flow * list abs_frag) : Prop := zflow (fst x) (fst y) /\ zabss (snd x) (snd y).
Lemma W_ifc_layout par par' boxes boxes' cb rank abs abs' : same_inherited par par' -> wis zlays par boxes boxes' -> zabss abs abs' ->
  zres zfa (ifc_layout m_a m_d m_w par boxes cb rank abs) (ifc_layout m_a m_d m_w par' boxes' cb rank abs').
Proof.
  intros H F A. unfold ifc_layout. assert (Ta : sv par' Ltext_align = sv par Ltext_align) by (apply H; cbn; tauto). rewrite Ta. pose proof H as Hi.
  assert (S0 : ST par [] (ifc_start m_a m_d par abs) (ifc_start m_a m_d par' abs')).
  { unfold ifc_start. split; [|cbn [is_pos is_lines is_abs ln_boxes ln_next]; repeat split; [constructor|exact A]]. cbn [is_stack is_cur].
    assert (X : font_ex par' = font_ex par) by (unfold font_ex; rewrite (H Lfont_size) by (cbn; tauto); reflexivity).
    rewrite (inherited_font m_a _ _ Ha Hi), (inherited_font m_d _ _ Hd Hi), X. apply RS_nil; [repeat split|split; reflexivity|split; cbn; apply Qcle_refl]. }
  pose proof (W_loop cb (sv par Ltext_align) rank par boxes boxes' F par [] _ _ [] [] [] [] 1%nat 1%nat eq_refl S0) as L.
  rewrite !app_nil_r, !(Nat.add_comm _ 1) in L. cbn [Nat.add] in L.
  destruct L as [L|(s1 & s1' & H1 & E & E')].
  - destruct (ifc_loop _ _ _ _ _ _ _ _ _), (ifc_loop _ _ _ _ _ _ _ _ _); cbn [zres] in L; try contradiction; exact I.
  - rewrite E, E'. pose proof H1 as (Hr & _). inversion Hr as [c c' Q1 Q2 Q3 e1 e2 e3 e4 e5| |]; subst.
    cbn [ifc_loop hd]. rewrite <- e2, <- e4. cbn [bind zres].
    destruct (ST_finish_line _ _ cb (sv par Ltext_align) _ _ H1) as (_ & _ & B & N & A1).
    split; [|exact A1]. cbn [fst]. split; [exact B|]. cbn [fl_block_size fl_margins]. rewrite N. auto.
Qed.
End Metrics.
End Font.
