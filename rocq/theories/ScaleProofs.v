(** Enlarging the input of layout and painting enlarges the output (proofs for C87). *)
From Verif Require Import Base Len GeomModel StyleModel GfxModel InlineModel BlockModel TreeModel PaintModel UnsetModel ScaleSpec.
Local Open Scope len_scope.
Local Open Scope list_scope.
Local Open Scope result_scope.

Section Zoom.
Variable k : Len.
Hypothesis Hk : (l0 < k)%len.

(* ------------------------------------------------------------------ *)
(** * Arithmetic *)
Lemma k_pos : Qlt (0#1) (this k). Proof. exact Hk. Qed.
Lemma z_leb a b : lleb (k * a) (k * b) = lleb a b.
Proof.
  pose proof k_pos as P. apply eq_true_iff_eq. rewrite !lleb_iff, !this_mul. exact (Qmult_le_l _ _ _ P).
Qed.
Lemma z_ltb a b : lltb (k * a) (k * b) = lltb a b.
Proof. change (negb (lleb (k * b) (k * a)) = negb (lleb b a)). rewrite z_leb. reflexivity. Qed.
Lemma z_0 : k * l0 = l0. Proof. ring. Qed.
Lemma z_eqb a b : leqb (k * a) (k * b) = leqb a b.
Proof.
  pose proof k_pos as P. apply eq_true_iff_eq. rewrite !leqb_iff. split; [|intros ->; reflexivity].
  intros H. apply Qc_eq_iff in H. rewrite !this_mul in H. apply Qc_eq_iff.
  apply Qmult_inj_l in H; [exact H|]. intros E. rewrite E in P. discriminate P.
Qed.
Lemma z_leb0 a : lleb l0 (k * a) = lleb l0 a. Proof. rewrite <- z_0 at 1. apply z_leb. Qed.
Lemma z_ltb0 a : lltb l0 (k * a) = lltb l0 a. Proof. rewrite <- z_0 at 1. apply z_ltb. Qed.
Lemma z_eqb0 a : leqb (k * a) l0 = leqb a l0. Proof. rewrite <- z_0 at 1. apply z_eqb. Qed.
Lemma z_max a b : lmax (k * a) (k * b) = k * lmax a b.
Proof. rewrite !lmax_def, z_leb. destruct (lleb a b); reflexivity. Qed.
Lemma z_min a b : lmin (k * a) (k * b) = k * lmin a b.
Proof. rewrite !lmin_def, z_leb. destruct (lleb a b); reflexivity. Qed.
Lemma z_max0 a : lmax (k * a) l0 = k * lmax a l0. Proof. rewrite <- z_max, z_0. reflexivity. Qed.
Lemma z_min0 a : lmin (k * a) l0 = k * lmin a l0. Proof. rewrite <- z_min, z_0. reflexivity. Qed.
Lemma half_mul (a : Len) : lhalf a = a * px (1#2). Proof. reflexivity. Qed.
Lemma z_half a : lhalf (k * a) = k * lhalf a. Proof. rewrite !half_mul. ring. Qed.

(** close an equation between scaled things *)
Ltac zeq := rewrite ?half_mul; first [reflexivity | ring | progress f_equal; zeq].

(* ------------------------------------------------------------------ *)
(** * Geometry *)
Definition zv (v : vec2 Len) : vec2 Len := Vec2 (k * v_inline v) (k * v_block v).
Definition zr (r : rect Len) : rect Len := Rect (zv (r_start r)) (zv (r_size r)).
Definition zs (s : sides Len) : sides Len := sides_map (lmul k) s.
Definition zla (v : la) : la := match v with LALen l => LALen (k * l) | LAAuto => LAAuto end.
Definition zcm (c : cmargin) : cmargin := CMargin (k * max_positive c) (k * min_negative c).
Definition zcbm (c : cbmargins) : cbmargins := CBMargins (cb_through c) (zcm (cb_start c)) (zcm (cb_end c)).
Definition zcb (c : cblock) : cblock := CBlock (k * cb_inline c) (zla (cb_block c)).
Definition zoff (o : offsets) : offsets :=
  match o with OStatic s => OStatic (k * s) | OStart s => OStart (zoom_lp k s) | OEnd e => OEnd (zoom_lp k e)
             | OBoth s e => OBoth (zoom_lp k s) (zoom_lp k e) end.
Definition zseg (s : segment) : segment := Seg (seg_glyphs s) (option_map (lmul k) (seg_width s)).
Definition zsst (s : seg_state) : seg_state := SegState (ss_glyphs s) (option_map (lmul k) (ss_width s)).

Lemma z_vec_zero : zv vec2_zero = vec2_zero. Proof. unfold zv; cbn. rewrite z_0. reflexivity. Qed.
Lemma z_rect_zero : zr rect_zero = rect_zero. Proof. unfold zr; cbn. rewrite z_vec_zero. reflexivity. Qed.
Lemma z_vec_add a b : vec2_add (zv a) (zv b) = zv (vec2_add a b). Proof. unfold vec2_add, zv; cbn. zeq. Qed.
Lemma z_sides_add a b : sides_add (zs a) (zs b) = zs (sides_add a b). Proof. unfold sides_add, zs, sides_map; cbn. zeq. Qed.
Lemma z_inline_sum s : inline_sum (zs s) = k * inline_sum s. Proof. unfold inline_sum; cbn. ring. Qed.
Lemma z_block_sum s : block_sum (zs s) = k * block_sum s. Proof. unfold block_sum; cbn. ring. Qed.
Lemma z_inflate r s : inflate (zr r) (zs s) = zr (inflate r s).
Proof. unfold inflate. rewrite z_inline_sum, z_block_sum. unfold zr, zv; cbn. zeq. Qed.
Lemma z_shift r d : shift_block (zr r) (k * d) = zr (shift_block r d). Proof. unfold shift_block, zr, zv; cbn. zeq. Qed.
Lemma z_zis s : zero_inline_start (zs s) = zs (zero_inline_start s). Proof. unfold zero_inline_start, zs, sides_map; cbn. zeq. Qed.
Lemma z_zie s : zero_inline_end (zs s) = zs (zero_inline_end s). Proof. unfold zero_inline_end, zs, sides_map; cbn. zeq. Qed.
Lemma z_cm_zero : zcm cm_zero = cm_zero. Proof. unfold zcm; cbn. rewrite z_0. reflexivity. Qed.
Lemma z_cm_new m : cm_new (k * m) = zcm (cm_new m). Proof. unfold cm_new, zcm; cbn. rewrite z_max0, z_min0. reflexivity. Qed.
Lemma z_cm_adjoin a b : cm_adjoin (zcm a) (zcm b) = zcm (cm_adjoin a b). Proof. unfold cm_adjoin, zcm; cbn. rewrite z_max, z_min. reflexivity. Qed.
Lemma z_cm_solve a : cm_solve (zcm a) = k * cm_solve a. Proof. unfold cm_solve; cbn. ring. Qed.
Lemma z_cb_from m : cb_from_margin (zs m) = zcbm (cb_from_margin m). Proof. unfold cb_from_margin, zcbm; cbn. rewrite !z_cm_new. reflexivity. Qed.
Lemma z_cb_zero : zcbm cb_zero = cb_zero. Proof. unfold zcbm; cbn. rewrite z_cm_zero. reflexivity. Qed.
Lemma z_auto_is v d : auto_is (zla v) (k * d) = k * auto_is v d. Proof. destruct v; reflexivity. Qed.
Lemma z_auto_is0 v : auto_is (zla v) l0 = k * auto_is v l0. Proof. rewrite <- z_auto_is, z_0. reflexivity. Qed.
Lemma z_lp_rel v r : lp_rel (zoom_lp k v) (k * r) = k * lp_rel v r. Proof. destruct v; cbn; ring. Qed.
Lemma z_lpa_rel v r : lpa_rel (zoom_lpa k v) (k * r) = zla (lpa_rel v r). Proof. destruct v; cbn; zeq. Qed.
Lemma z_lpn_rel v r : lpn_rel (zoom_lpn k v) (k * r) = k * lpn_rel v r. Proof. destruct v; cbn; ring. Qed.
Lemma z_lpa_non_auto v : lpa_non_auto (zoom_lpa k v) = option_map (zoom_lp k) (lpa_non_auto v). Proof. destruct v; reflexivity. Qed.

(* ------------------------------------------------------------------ *)
(** * Styles *)
Notation zst := (zoomed_style k).
Lemma z_sv s s' l : zst s s' -> sv s' l = zoom_value k l (sv s l). Proof. intros [H _]. apply H. Qed.
Lemma z_padding s s' : zst s s' -> style_padding s' = sides_map (zoom_lp k) (style_padding s).
Proof. intros H. unfold style_padding; cbn. rewrite !(z_sv s s' _ H). reflexivity. Qed.
Lemma z_border s s' : zst s s' -> style_border_width s' = sides_map (zoom_lp k) (style_border_width s).
Proof. intros H. unfold style_border_width; cbn. rewrite !(z_sv s s' _ H). reflexivity. Qed.
Lemma z_margin s s' : zst s s' -> style_margin s' = sides_map (zoom_lpa k) (style_margin s).
Proof. intros H. unfold style_margin; cbn. rewrite !(z_sv s s' _ H). reflexivity. Qed.
Lemma z_offsets s s' : zst s s' -> box_offsets s' = sides_map (zoom_lpa k) (box_offsets s).
Proof. intros H. unfold box_offsets; cbn. rewrite !(z_sv s s' _ H). reflexivity. Qed.
Lemma z_width s s' : zst s s' -> v_inline (box_size s') = zoom_lpa k (v_inline (box_size s)).
Proof. intros H. cbn. rewrite !(z_sv s s' _ H). reflexivity. Qed.
Lemma z_height s s' : zst s s' -> v_block (box_size s') = zoom_lpa k (v_block (box_size s)).
Proof. intros H. cbn. rewrite !(z_sv s s' _ H). reflexivity. Qed.
Lemma z_sides_lp s r : sides_lp_rel (sides_map (zoom_lp k) s) (k * r) = zs (sides_lp_rel s r).
Proof. unfold sides_lp_rel, sides_map, zs, sides_map; cbn. rewrite !z_lp_rel. reflexivity. Qed.
Lemma z_sides_lpa s r : sides_lpa_rel (sides_map (zoom_lpa k) s) (k * r) = sides_map zla (sides_lpa_rel s r).
Proof. unfold sides_lpa_rel, sides_map; cbn. rewrite !z_lpa_rel. reflexivity. Qed.
Lemma z_sides_auto s : sides_auto_is (sides_map zla s) l0 = zs (sides_auto_is s l0).
Proof. unfold sides_auto_is, zs, sides_map; cbn. rewrite !z_auto_is0. reflexivity. Qed.
Lemma z_rel_adjust a b : rel_adjust (zla a) (zla b) = k * rel_adjust a b. Proof. destruct a, b; cbn; ring. Qed.
Lemma z_relative s s' i b : zst s s' -> relative_adjustement s' (k * i) (zla b) = zv (relative_adjustement s i b).
Proof.
  intros H. unfold relative_adjustement. rewrite (z_sv s s' Lposition H). cbn [zoom_value].
  destruct (is_relatively_positioned _); [|symmetry; apply z_vec_zero].
  rewrite (z_offsets s s' H), z_auto_is0. unfold sides_map_axes, sides_map, zv; cbn [s_inline_start s_inline_end s_block_start s_block_end].
  rewrite !z_lpa_rel, !z_rel_adjust. reflexivity.
Qed.
Lemma z_abs_offsets c a b : absolute_box_offsets (k * c) (zoom_lpa k a) (zoom_lpa k b) = zoff (absolute_box_offsets c a b).
Proof. unfold absolute_box_offsets. rewrite !z_lpa_non_auto. destruct (lpa_non_auto a), (lpa_non_auto b); reflexivity. Qed.

(* ------------------------------------------------------------------ *)
(** * Fragments and results *)
Inductive zfrag : fragment -> fragment -> Prop :=
| ZFBox st st' ch ch' r p b m c : zst st st' -> Forall2 zfrag ch ch' ->
    zfrag (FBox st ch r p b m c) (FBox st' ch' (zr r) (zs p) (zs b) (zs m) (zcbm c))
| ZFAnon r ch ch' : Forall2 zfrag ch ch' -> zfrag (FAnon r ch) (FAnon (zr r) ch')
| ZFText st st' r fo fo' sg : zst st st' -> zst fo fo' -> zfrag (FText st r fo sg) (FText st' (zr r) fo' (zseg sg)).
Notation zfrags := (Forall2 zfrag).

Definition zres {A B} (R : A -> B -> Prop) (r : result A) (r' : result B) : Prop :=
  match r, r' with Ok a, Ok b => R a b | Panic, Panic => True | OutOfFuel, OutOfFuel => True | _, _ => False end.
Lemma zres_bind {A B C D} (R : A -> B -> Prop) (Q : C -> D -> Prop) r r' f f' :
  zres R r r' -> (forall a b, R a b -> zres Q (f a) (f' b)) -> zres Q (bind r f) (bind r' f').
Proof. destruct r, r'; cbn; try tauto. auto. Qed.
Lemma zres_mapR {A B C D} (R : A -> B -> Prop) (Q : C -> D -> Prop) f f' l l' :
  Forall2 R l l' -> (forall a b, R a b -> zres Q (f a) (f' b)) -> zres (Forall2 Q) (mapR f l) (mapR f' l').
Proof.
  intros H Hf. induction H as [|a b l l' Hab _ IH]; cbn; [constructor|].
  eapply zres_bind; [apply Hf, Hab|]. intros x y Hxy. eapply zres_bind; [apply IH|]. intros xs ys Hs. cbn. constructor; assumption.
Qed.

Definition zlay (lay lay' : offsets -> offsets -> vec2 Len -> result fragment) : Prop :=
  forall i b size, zres zfrag (lay i b size) (lay' (zoff i) (zoff b) (zv size)).
Definition zabs (a a' : abs_frag) : Prop :=
  zst (af_style a) (af_style a') /\ af_rank a' = af_rank a /\ af_inline a' = zoff (af_inline a) /\
  af_block a' = zoff (af_block a) /\ zlay (af_layout a) (af_layout a').
Notation zabss := (Forall2 zabs).
Definition zflow (f f' : flow) : Prop :=
  zfrags (fl_fragments f) (fl_fragments f') /\ fl_block_size f' = k * fl_block_size f /\ fl_margins f' = zcbm (fl_margins f).
Definition zfa (x y : flow * list abs_frag) : Prop := zflow (fst x) (fst y) /\ zabss (snd x) (snd y).

Lemma z_abs_box st st' lay lay' c rank : zst st st' -> zlay lay lay' ->
  zabs (abs_box_layout st lay c rank) (abs_box_layout st' lay' (zv c) rank).
Proof.
  intros H L. unfold abs_box_layout, zabs; cbn [af_style af_rank af_inline af_block af_layout zv v_inline v_block].
  rewrite (z_offsets st st' H). cbn [sides_map s_inline_start s_inline_end s_block_start s_block_end]. rewrite !z_abs_offsets. auto.
Qed.
Lemma z_translate d f f' : zfrag f f' -> zfrag (translate_block d f) (translate_block (k * d) f').
Proof. intros H. destruct H; cbn; rewrite z_shift; constructor; assumption. Qed.
Lemma z_no_op : zfrag anon_no_op anon_no_op.
Proof. unfold anon_no_op. rewrite <- z_rect_zero at 2. constructor. constructor. Qed.

(* ------------------------------------------------------------------ *)
(** * Inline layout *)
Section Metrics.
Variables m_a m_a' m_d m_d' : style -> Len.
Variables m_w m_w' : style -> text -> Len.
Hypothesis Ha : forall s s', zst s s' -> m_a' s' = k * m_a s.
Hypothesis Hd : forall s s', zst s s' -> m_d' s' = k * m_d s.
Hypothesis Hw : forall s s', zst s s' -> forall t, m_w' s' t = k * m_w s t.

Definition zlevel (l l' : level) : Prop :=
  exists fs', zfrags (lv_fragments l) fs' /\
    l' = Level fs' (k * lv_inline_start l) (k * lv_ascent l) (k * lv_descent l) (k * lv_ex l) (k * lv_baseline l)
           (k * lv_max_ascent l) (k * lv_max_descent l).
Definition zpartial (p p' : partial) : Prop :=
  exists st' par', zst (pt_style p) st' /\ zlevel (pt_parent p) par' /\
    p' = Partial st' (zv (pt_start p)) (zs (pt_padding p)) (zs (pt_border p)) (zs (pt_margin p))
           (k * pt_ascent p) (k * pt_descent p) (pt_last p) par'.
Definition zlines (l l' : lines) : Prop := exists bs', zfrags (ln_boxes l) bs' /\ l' = Lines bs' (k * ln_next l).
Definition zifc (s s' : ifc) : Prop :=
  exists ls' stk' cur' abs', zlines (is_lines s) ls' /\ Forall2 zpartial (is_stack s) stk' /\ zlevel (is_cur s) cur' /\
    zabss (is_abs s) abs' /\ s' = Ifc ls' (k * is_pos s) stk' cur' abs'.

Lemma z_ex s s' : zst s s' -> font_ex s' = k * font_ex s.
Proof. intros H. unfold font_ex. rewrite (z_sv s s' Lfont_size H). cbn. ring. Qed.
Lemma z_line_height s s' : zst s s' -> line_height s' = k * line_height s.
Proof. intros H. unfold line_height. rewrite (z_sv s s' Lfont_size H), (z_sv s s' Lline_height H). cbn. apply z_lpn_rel. Qed.
Lemma z_lad s s' f f' : zst s s' -> zst f f' ->
  line_ascent_descent m_a' m_d' s' f' = (k * fst (line_ascent_descent m_a m_d s f), k * snd (line_ascent_descent m_a m_d s f)).
Proof.
  intros H Hf. unfold line_ascent_descent. rewrite (z_line_height s s' H), (Ha f f' Hf), (Hd f f' Hf). cbn [fst snd]. zeq.
Qed.
Lemma z_shift_ s s' a d l l' : zst s s' -> zlevel l l' -> baseline_shift s' (k * a) (k * d) l' = k * baseline_shift s a d l.
Proof.
  intros H (fs' & _ & ->). unfold baseline_shift. rewrite (z_sv s s' Lvertical_align H), (z_line_height s s' H). cbn [zoom_value lv_ascent lv_ex].
  destruct (sv s Lvertical_align); cbn; ring.
Qed.
Lemma z_push l l' f f' : zlevel l l' -> zfrag f f' -> zlevel (push_fragment l f) (push_fragment l' f').
Proof. intros (fs & F & ->) Hf. exists (fs ++ [f']). split; [apply Forall2_app; [exact F|repeat constructor; exact Hf]|reflexivity]. Qed.
Lemma z_max_assign l l' a d : zlevel l l' -> zlevel (max_assign l a d) (max_assign l' (k * a) (k * d)).
Proof. intros (fs & F & ->). exists fs. split; [exact F|]. unfold max_assign; cbn. rewrite !z_max. reflexivity. Qed.
Lemma z_level_next l l' : zlevel l l' -> zlevel (level_next_line l) (level_next_line l').
Proof. intros (fs & F & ->). exists []. split; [constructor|]. unfold level_next_line; cbn. rewrite !z_0. reflexivity. Qed.
Lemma z_finish_layout p p' l l' pos b : zpartial p p' -> zlevel l l' ->
  zpartial (fst (finish_layout p l pos b)) (fst (finish_layout p' l' (k * pos) b)) /\
  snd (finish_layout p' l' (k * pos) b) = k * snd (finish_layout p l pos b).
Proof.
  intros (st' & par' & Hs & (pf & PF & ->) & ->) (fs & F & ->). unfold finish_layout; cbn [fst snd pt_style pt_start pt_padding pt_border pt_margin pt_ascent pt_descent pt_last pt_parent].
  split; [|destruct (pt_last p && negb b); [cbn; ring|reflexivity]].
  eexists _, _. split; [exact Hs|]. split; [|reflexivity]. cbn [pt_parent].
  apply z_push.
  - cbn [lv_max_ascent lv_max_descent]. apply z_max_assign. exists pf. split; [exact PF|reflexivity].
  - assert (E : forall s, (if pt_last p && negb b then zs s else zero_inline_end (zs s)) = zs (if pt_last p && negb b then s else zero_inline_end s)).
    { intros s. destruct (pt_last p && negb b); [reflexivity|apply z_zie]. }
    rewrite !E. cbn [lv_fragments lv_ascent lv_inline_start]. rewrite <- z_cb_zero.
    assert (R : forall r r', r' = zr r -> forall c, zfrag (FBox (pt_style p) (lv_fragments l) r
        (if pt_last p && negb b then pt_padding p else zero_inline_end (pt_padding p))
        (if pt_last p && negb b then pt_border p else zero_inline_end (pt_border p))
        (if pt_last p && negb b then pt_margin p else zero_inline_end (pt_margin p)) c)
      (FBox st' fs r' (zs (if pt_last p && negb b then pt_padding p else zero_inline_end (pt_padding p)))
        (zs (if pt_last p && negb b then pt_border p else zero_inline_end (pt_border p)))
        (zs (if pt_last p && negb b then pt_margin p else zero_inline_end (pt_margin p))) (zcbm c))).
    { intros r r' -> c. constructor; assumption. }
    rewrite z_cb_zero at 1. apply R. unfold zr, zv; cbn. zeq.
Qed.
Lemma z_lines ls ls' top top' w pos ta : zlines ls ls' -> zlevel top top' ->
  zlines (lines_finish ls top w pos ta) (lines_finish ls' top' (k * w) (k * pos) ta).
Proof.
  intros (bs & B & ->) (fs & F & ->). unfold lines_finish; cbn [ln_boxes ln_next lv_max_ascent lv_max_descent lv_ascent lv_fragments v_block].
  eexists. split; [|cbn [ln_next]; f_equal; ring]. cbn [ln_boxes]. apply Forall2_app; [exact B|]. constructor; [|constructor].
  match goal with |- zfrag (FAnon ?r _) (FAnon ?r' _) => assert (E : r' = zr r) by (unfold zr, zv; cbn; zeq); rewrite E; clear E end.
  constructor. replace (k * lv_max_ascent top - k * lv_ascent top) with (k * (lv_max_ascent top - lv_ascent top)) by ring.
  induction F; cbn; constructor; [apply z_translate; assumption|assumption].
Qed.
Lemma z_next_line p p' : zpartial p p' -> zpartial (partial_next_line p) (partial_next_line p').
Proof.
  intros (st' & par' & Hs & Hp & ->). exists st', par'. split; [exact Hs|]. split; [exact Hp|].
  unfold partial_next_line; cbn. rewrite !z_zis. unfold zv; cbn. rewrite z_0. reflexivity.
Qed.
Lemma z_partial_parent p p' l l' : zpartial p p' -> zlevel l l' ->
  zpartial (Partial (pt_style p) (pt_start p) (pt_padding p) (pt_border p) (pt_margin p) (pt_ascent p) (pt_descent p) (pt_last p) l)
    (Partial (pt_style p') (pt_start p') (pt_padding p') (pt_border p') (pt_margin p') (pt_ascent p') (pt_descent p') (pt_last p') l').
Proof. intros (st' & par' & Hs & Hp & ->) L. exists st', l'. split; [exact Hs|]. split; [exact L|reflexivity]. Qed.
Lemma z_parent p p' : zpartial p p' -> zlevel (pt_parent p) (pt_parent p').
Proof. intros (st' & par' & Hs & Hp & ->). exact Hp. Qed.
Lemma z_finish_partials stk stk' : Forall2 zpartial stk stk' -> forall l l' pos, zlevel l l' ->
  let x := finish_partials stk l pos in let y := finish_partials stk' l' (k * pos) in
  Forall2 zpartial (fst (fst x)) (fst (fst y)) /\ zlevel (snd (fst x)) (snd (fst y)) /\ snd y = k * snd x.
Proof.
  induction 1 as [|p p' stk stk' Hp _ IH]; intros l l' pos L; cbn [finish_partials]; cbv zeta.
  - split; [constructor|]. split; [exact L|reflexivity].
  - destruct (z_finish_layout p p' l l' pos true Hp L) as [P1 P2].
    destruct (finish_layout p l pos true) as [p1 pos1], (finish_layout p' l' (k * pos) true) as [p1' pos1']. cbn [fst snd] in *. subst pos1'.
    specialize (IH _ _ pos1 (z_parent _ _ P1)). cbv zeta in IH.
    destruct (finish_partials stk (pt_parent p1) pos1) as [[r t] q], (finish_partials stk' (pt_parent p1') (k * pos1)) as [[r' t'] q'].
    cbn [fst snd] in *. destruct IH as (I1 & I2 & I3). split; [|split; assumption]. constructor; [|exact I1].
    exact (z_partial_parent _ _ _ _ (z_next_line _ _ P1) (z_level_next _ _ (z_parent _ _ P1))).
Qed.
Lemma z_finish_line cb ta s s' : zifc s s' -> zifc (finish_line cb ta s) (finish_line (zcb cb) ta s').
Proof.
  intros (ls & stk & cur & abs & L & K & C & A & ->). unfold finish_line. cbn [is_lines is_pos is_stack is_cur is_abs].
  pose proof (z_finish_partials _ _ K _ _ (is_pos s) C) as P. cbv zeta in P.
  destruct (finish_partials (is_stack s) (is_cur s) (is_pos s)) as [[r t] q], (finish_partials stk cur (k * is_pos s)) as [[r' t'] q'].
  cbn [fst snd] in P. destruct P as (P1 & P2 & ->).
  eexists _, _, _, _. cbn [is_lines is_pos is_stack is_cur is_abs]. split; [apply z_lines; eassumption|]. split; [exact P1|].
  split; [apply z_level_next; exact C|]. split; [exact A|]. rewrite z_0. reflexivity.
Qed.
Lemma z_start_layout cb st st' fi la_ s s' : zst st st' -> zifc s s' ->
  zifc (start_layout m_a m_d cb st fi la_ s) (start_layout m_a' m_d' (zcb cb) st' fi la_ s').
Proof.
  intros H (ls & stk & cur & abs & L & K & C & A & ->). unfold start_layout. cbn [is_lines is_pos is_stack is_cur is_abs zcb cb_inline cb_block].
  rewrite (Ha st st' H), (Hd st st' H), (z_padding st st' H), (z_border st st' H), (z_margin st st' H), !z_sides_lp, z_sides_lpa, z_sides_auto.
  rewrite (z_shift_ st st' (m_a st) (m_d st) (is_cur s) cur H C), (z_relative st st' (cb_inline cb) (cb_block cb) H), (z_ex st st' H).
  assert (E : forall x, (if fi then zs x else zero_inline_start (zs x)) = zs (if fi then x else zero_inline_start x)).
  { intros x. destruct fi; [reflexivity|apply z_zis]. }
  rewrite !E.
  set (P := if fi then sides_lp_rel (style_padding st) (cb_inline cb) else _).
  set (B := if fi then sides_lp_rel (style_border_width st) (cb_inline cb) else _).
  set (M := if fi then sides_auto_is _ l0 else _).
  destruct C as (cf & CF & ->). cbn [lv_inline_start lv_baseline].
  assert (E2 : (if fi then k * is_pos s + (s_inline_start (zs P) + s_inline_start (zs B) + s_inline_start (zs M)) else k * is_pos s)
     = k * (if fi then is_pos s + (s_inline_start P + s_inline_start B + s_inline_start M) else is_pos s)) by (destruct fi; cbn; ring).
  rewrite E2. set (pos := if fi then _ else _).
  eexists _, _, _, _. cbn [is_lines is_pos is_stack is_cur is_abs]. split; [exact L|]. split; [|split; [|split; [exact A|reflexivity]]].
  - constructor; [|exact K]. eexists _, _. cbn [pt_style pt_start pt_padding pt_border pt_margin pt_ascent pt_descent pt_last pt_parent].
    split; [exact H|]. split; [exists cf; split; [exact CF|reflexivity]|]. f_equal.
    replace (Vec2 (k * pos - k * lv_inline_start (is_cur s)) (k * baseline_shift st (m_a st) (m_d st) (is_cur s)))
      with (zv (Vec2 (pos - lv_inline_start (is_cur s)) (baseline_shift st (m_a st) (m_d st) (is_cur s)))) by (unfold zv; cbn; zeq).
    apply z_vec_add.
  - exists []. split; [constructor|]. cbn. f_equal; ring.
Qed.
Lemma z_advance w w' sg : (forall t, w' t = k * w t) ->
  seg_advance w' (zseg sg) = (k * fst (seg_advance w sg), zseg (snd (seg_advance w sg))).
Proof. intros H. destruct sg as [g [x|]]; unfold seg_advance, zseg; cbn; [reflexivity|]. rewrite H. reflexivity. Qed.
Lemma z_seg_empty sg : seg_empty (zseg sg) = seg_empty sg. Proof. reflexivity. Qed.
Lemma z_seg_append sg c : seg_append_char (zseg sg) c = zseg (seg_append_char sg c). Proof. reflexivity. Qed.
Lemma z_seg_strip sg : seg_strip_space (zseg sg) = zseg (seg_strip_space sg).
Proof. unfold seg_strip_space. cbn [zseg seg_glyphs]. destruct (rev (seg_glyphs sg)) as [|c l]; [reflexivity|]. destruct (N.eqb c sp); reflexivity. Qed.
Lemma z_seg_save sg : seg_save (zseg sg) = zsst (seg_save sg). Proof. reflexivity. Qed.
Lemma z_seg_new : zseg seg_new = seg_new. Proof. reflexivity. Qed.

Lemma z_add_text st st' fo fo' sg n s s' : zst st st' -> zst fo fo' -> zifc s s' ->
  zifc (add_text m_a m_d m_w st fo sg n s) (add_text m_a' m_d' m_w' st' fo' (zseg sg) n s').
Proof.
  intros H Hf (ls & stk & cur & abs & L & K & C & A & ->). unfold add_text.
  rewrite (z_advance _ _ sg (Hw fo fo' Hf)), (z_lad st st' fo fo' H Hf).
  destruct (seg_advance (m_w fo) sg) as [w sg1], (line_ascent_descent m_a m_d st fo) as [a d]. cbn [fst snd].
  rewrite z_seg_empty. cbn [is_lines is_pos is_stack is_cur is_abs].
  assert (M : zlevel (max_assign (is_cur s) (a - lv_baseline (is_cur s)) (d + lv_baseline (is_cur s)))
                     (max_assign cur (k * a - lv_baseline cur) (k * d + lv_baseline cur))).
  { replace (lv_baseline cur) with (k * lv_baseline (is_cur s)) by (destruct C as (cf & CF & ->); reflexivity).
    replace (k * a - k * lv_baseline (is_cur s)) with (k * (a - lv_baseline (is_cur s))) by ring.
    replace (k * d + k * lv_baseline (is_cur s)) with (k * (d + lv_baseline (is_cur s))) by ring. apply z_max_assign, C. }
  assert (M2 : zlevel (if negb (seg_empty sg1) || n then max_assign (is_cur s) (a - lv_baseline (is_cur s)) (d + lv_baseline (is_cur s)) else is_cur s)
     (if negb (seg_empty sg1) || n then max_assign cur (k * a - lv_baseline cur) (k * d + lv_baseline cur) else cur)).
  { destruct (negb (seg_empty sg1) || n); assumption. }
  destruct (negb (seg_empty sg1)).
  - eexists _, _, _, _. cbn [is_lines is_pos is_stack is_cur is_abs]. split; [exact L|]. split; [exact K|]. split; [|split; [exact A|f_equal; ring]].
    apply z_push; [exact M2|].
    match goal with |- zfrag (FText _ ?r _ _) (FText _ ?r' _ _) => assert (E : r' = zr r) end.
    { destruct C as (cf & CF & ->). unfold zr, zv; cbn. zeq. }
    rewrite E. constructor; assumption.
  - eexists _, _, _, _. unfold set_cur. cbn [is_lines is_pos is_stack is_cur is_abs]. split; [exact L|]. split; [exact K|]. split; [exact M2|]. split; [exact A|reflexivity].
Qed.

Definition zbrk (x : option (seg_state * text)) : option (seg_state * text) := option_map (fun '(s, t) => (zsst s, t)) x.
Definition zline (x y : segment * text * bool) : Prop := y = (zseg (fst (fst x)), snd (fst x), snd x).
Lemma z_break_here sg rest lb : zres zline (break_here sg rest lb) (break_here (zseg sg) rest (zbrk lb)).
Proof.
  destruct lb as [[st it]|]; cbn; [|reflexivity]. unfold seg_restore; cbn. destruct (str_truncate (seg_glyphs sg) (ss_glyphs st)); cbn; try exact I. reflexivity.
Qed.
Lemma z_wrap_line fo fo' av : zst fo fo' -> forall chars sg lb,
  zres zline (wrap_line m_w fo av chars sg lb) (wrap_line m_w' fo' (k * av) chars (zseg sg) (zbrk lb)).
Proof.
  intros H. induction chars as [|ch rest IH]; intros sg lb; cbn.
  - rewrite (z_advance _ _ sg (Hw fo fo' H)). destruct (seg_advance (m_w fo) sg) as [w sg1]. cbn [fst snd]. rewrite z_ltb.
    destruct (lltb av w); [apply z_break_here|reflexivity].
  - rewrite (z_advance _ _ sg (Hw fo fo' H)). destruct (seg_advance (m_w fo) sg) as [w sg1] eqn:E. cbn [fst snd]. rewrite z_ltb.
    set (o := if is_break_char ch then (lltb av w, sg1) else (false, sg)).
    replace (if is_break_char ch then (lltb av w, zseg sg1) else (false, zseg sg)) with (fst o, zseg (snd o)) by (unfold o; destruct (is_break_char ch); reflexivity).
    destruct o as [over sg2]. cbn [fst snd]. destruct over; [apply z_break_here|].
    destruct (N.eqb ch nl); [cbn; rewrite z_seg_strip; reflexivity|].
    rewrite z_seg_append, !z_seg_save.
    match goal with |- zres _ (wrap_line _ _ _ _ _ ?x) (wrap_line _ _ _ _ _ ?y) => assert (X : y = zbrk x) end.
    { destruct (N.eqb ch hyphen); [reflexivity|]. destruct (N.eqb ch sp); reflexivity. }
    rewrite X. apply IH.
Qed.
Lemma z_wrap_loop cb ta st st' fo fo' : zst st st' -> zst fo fo' -> forall fuel chars sg lb s s', zifc s s' ->
  zres zifc (wrap_loop m_a m_d m_w fuel cb ta st fo chars sg lb s) (wrap_loop m_a' m_d' m_w' fuel (zcb cb) ta st' fo' chars (zseg sg) (zbrk lb) s').
Proof.
  intros H Hf. induction fuel as [|fuel IH]; intros chars sg lb s s' Hs; cbn [wrap_loop]; [exact I|].
  assert (P : is_pos s' = k * is_pos s) by (destruct Hs as (? & ? & ? & ? & _ & _ & _ & _ & ->); reflexivity).
  rewrite P. cbn [zcb cb_inline]. replace (k * cb_inline cb - k * is_pos s) with (k * (cb_inline cb - is_pos s)) by ring.
  eapply zres_bind; [apply z_wrap_line, Hf|]. intros [[sg1 ch1] n1] y E. unfold zline in E; cbn [fst snd] in E. subst y.
  pose proof (z_add_text st st' fo fo' sg1 n1 s s' H Hf Hs) as T.
  destruct (negb _ || n1); [|exact T].
  change (seg_empty (zseg sg1)) with (seg_empty sg1). rewrite (z_advance _ _ sg1 (Hw fo fo' Hf)). cbn [snd].
  replace (if seg_empty sg1 then zseg (snd (seg_advance (m_w fo) sg1)) else seg_new) with (zseg (if seg_empty sg1 then snd (seg_advance (m_w fo) sg1) else seg_new)) by (destruct (seg_empty sg1); reflexivity).
  change (@None (seg_state * text)) with (zbrk None) at 2. apply (IH ch1 _ None). exact (z_finish_line cb ta _ _ T).
Qed.
Lemma z_nowrap_loop cb ta st st' fo fo' : zst st st' -> zst fo fo' -> forall fuel chars s s', zifc s s' ->
  zres zifc (nowrap_loop m_a m_d m_w fuel cb ta st fo chars s) (nowrap_loop m_a' m_d' m_w' fuel (zcb cb) ta st' fo' chars s').
Proof.
  intros H Hf. induction fuel as [|fuel IH]; intros chars s s' Hs; cbn [nowrap_loop]; [exact I|].
  assert (N : forall ch sg, seg_width sg = None -> zseg (fst (fst (nowrap_line ch sg))) = fst (fst (nowrap_line ch sg))).
  { induction ch as [|c ch IHc]; intros sg E; cbn; [destruct sg; cbn in *; subst; reflexivity|].
    destruct (N.eqb c nl); [destruct sg; cbn in *; subst; reflexivity|apply IHc; reflexivity]. }
  specialize (N chars seg_new eq_refl). destruct (nowrap_line chars seg_new) as [[sg1 ch1] n1]. cbn [fst] in N.
  pose proof (z_add_text st st' fo fo' sg1 n1 s s' H Hf Hs) as T. rewrite N in T.
  destruct (negb _ || n1); [|exact T]. apply IH. exact (z_finish_line cb ta _ _ T).
Qed.
Lemma z_text_run cb ta st st' fo fo' t s s' : zst st st' -> zst fo fo' -> zifc s s' ->
  zres zifc (text_run_layout m_a m_d m_w cb ta st fo t s) (text_run_layout m_a' m_d' m_w' (zcb cb) ta st' fo' t s').
Proof.
  intros H Hf Hs. unfold text_run_layout. rewrite (z_sv st st' Lwhite_space H). cbn [zoom_value].
  destruct (sv st Lwhite_space); first [apply z_nowrap_loop; assumption | exact (z_wrap_loop cb ta st st' fo fo' H Hf _ t seg_new (Some (seg_save seg_new, t)) s s' Hs)].
Qed.

Inductive zilb {C D} (R : style -> style -> C -> D -> Prop) : ilb C -> ilb D -> Prop :=
| ZInline st st' fi la_ ch ch' : zst st st' -> Forall2 (zilb R) ch ch' -> zilb R (InlineBox st fi la_ ch) (InlineBox st' fi la_ ch')
| ZRun st st' t fo fo' : zst st st' -> zst fo fo' -> zilb R (TextRun st t fo) (TextRun st' t fo')
| ZIAbs st st' c c' : zst st st' -> R st st' c c' -> zilb R (IAbspos st c) (IAbspos st' c')
| ZIFloat st st' c c' : zst st st' -> R st st' c c' -> zilb R (IFloat st c) (IFloat st' c').
Lemma z_steps {C D} (R : style -> style -> C -> D -> Prop) : forall b b', zilb R b b' -> ilb_steps b' = ilb_steps b.
Proof.
  fix IH 3. intros b b' H. destruct H as [st st' fi la_ ch ch' Hs F| | |]; try reflexivity. cbn. do 3 f_equal.
  induction F as [|x y l l' Hxy F IHF]; [reflexivity|]. cbn. f_equal; [exact (IH _ _ Hxy)|exact IHF].
Qed.
Definition zlays (st st' : style) (l l' : abs_lay) : Prop := zlay l l'.

Lemma z_ifc_loop cb ta rank : forall fuel rems rems' s s', Forall2 (Forall2 (zilb zlays)) rems rems' -> zifc s s' ->
  zres zifc (ifc_loop m_a m_d m_w fuel cb ta rank rems s) (ifc_loop m_a' m_d' m_w' fuel (zcb cb) ta rank rems' s').
Proof.
  induction fuel as [|fuel IH]; intros rems rems' s s' HR Hs; cbn [ifc_loop]; [exact I|].
  assert (T : Forall2 (Forall2 (zilb zlays)) (tl rems) (tl rems')) by (destruct HR; [constructor|assumption]).
  assert (Hh : Forall2 (zilb zlays) (hd [] rems) (hd [] rems')) by (destruct HR; [constructor|assumption]).
  destruct Hh as [|child child' rest rest' Hc Hr].
  - pose proof Hs as (ls & stk & cur & abs & L & K & C & A & E). rewrite E. cbn [is_stack is_cur is_pos is_lines is_abs].
    destruct K as [|p p' stk0 stk0' Hp Hk']; [rewrite <- E; exact (z_finish_line cb ta _ _ Hs)|].
    destruct (z_finish_layout p p' _ _ (is_pos s) false Hp C) as [P1 P2].
    destruct (finish_layout p (is_cur s) (is_pos s) false) as [p1 pos1], (finish_layout p' cur (k * is_pos s) false) as [p1' pos1']. cbn [fst snd] in *. subst pos1'.
    apply IH; [exact T|]. eexists _, _, _, _. cbn [is_lines is_pos is_stack is_cur is_abs].
    split; [exact L|]. split; [exact Hk'|]. split; [exact (z_parent _ _ P1)|]. split; [exact A|reflexivity].
  - destruct Hc as [st st' fi la_ ch ch' H F|st st' t fo fo' H Hf|st st' lay lay' H HL|st st' lay lay' H HL].
    + apply IH; [constructor; [exact F|constructor; assumption]|]. apply z_start_layout; assumption.
    + eapply zres_bind; [apply z_text_run; eassumption|]. intros a b Hab. apply IH; [constructor; assumption|exact Hab].
    + eapply (zres_bind (fun c c' => c' = zv c)).
      * unfold inline_static_corner. rewrite (proj2 H). destruct Hs as (ls & stk & cur & abs & (bs & B & ->) & K & C & A & ->).
        destruct (s_specified_display st) as [| |[] ?]; cbn; try exact I; unfold zv; cbn; rewrite ?z_0; reflexivity.
      * intros c c' ->. apply IH; [constructor; assumption|].
        destruct Hs as (ls & stk & cur & abs & L & K & C & A & ->). unfold push_abs. eexists _, _, _, _. cbn [is_lines is_pos is_stack is_cur is_abs].
        split; [exact L|]. split; [exact K|]. split; [exact C|]. split; [|reflexivity]. apply Forall2_app; [exact A|]. constructor; [|constructor]. apply z_abs_box; assumption.
    + apply IH; [constructor; assumption|exact Hs].
Qed.
Lemma z_ifc_layout par par' boxes boxes' cb rank abs abs' : zst par par' -> Forall2 (zilb zlays) boxes boxes' -> zabss abs abs' ->
  zres zfa (ifc_layout m_a m_d m_w par boxes cb rank abs) (ifc_layout m_a' m_d' m_w' par' boxes' (zcb cb) rank abs').
Proof.
  intros H F A. unfold ifc_layout. rewrite (z_sv par par' Ltext_align H). cbn [zoom_value].
  assert (E : boxes_steps boxes' = boxes_steps boxes).
  { unfold boxes_steps. f_equal. induction F; cbn; f_equal; [eapply z_steps; eassumption|assumption]. }
  rewrite E. eapply zres_bind; [apply z_ifc_loop; [constructor; [exact F|constructor]|]|].
  - unfold ifc_start. eexists _, _, _, _. cbn [is_lines is_pos is_stack is_cur is_abs].
    split; [exists []; split; [constructor|]; cbn; rewrite z_0; reflexivity|]. split; [constructor|].
    split; [exists []; split; [constructor|]; cbn; rewrite z_0; reflexivity|]. split; [exact A|].
    rewrite z_0, (Ha _ _ H), (Hd _ _ H), (z_ex _ _ H). reflexivity.
  - intros s s' (ls & stk & cur & abs1 & (bs & B & ->) & K & C & A1 & ->). cbn. split; [|exact A1].
    split; [exact B|]. split; [reflexivity|]. cbn. symmetry. apply z_cb_zero.
Qed.

(* ------------------------------------------------------------------ *)
(** * Block layout *)
Definition zplace (s : placement) : placement := Placement (pl_collapses s) (zcm (pl_start s)) (zcm (pl_margin s)) (k * pl_pos s).
Lemma z_placement_start c : zplace (placement_start c) = placement_start c.
Proof. unfold zplace; cbn. rewrite z_cm_zero, z_0. reflexivity. Qed.
Definition zplaced (x y : fragment * placement) : Prop := zfrag (fst x) (fst y) /\ snd y = zplace (snd x).
Lemma z_place f f' s : zfrag f f' -> zres zplaced (place f s) (place f' (zplace s)).
Proof.
  intros H. destruct H as [st st' ch ch' r p b m c Hs F|r ch ch' F|]; [| |exact I].
  - unfold place. cbn [pl_collapses pl_margin pl_start pl_pos zplace cb_through cb_start cb_end zcbm]. rewrite !z_cm_adjoin, !z_cm_solve, z_eqb0, !z_block_sum. cbn [zr r_size zv v_block].
    assert (X : forall M q, shift_block (zr r) (cm_solve (zcm M) + k * q) = zr (shift_block r (cm_solve M + q))).
    { intros M q. rewrite z_cm_solve, <- z_shift. f_equal. ring. }
    assert (E : forall q a, k * q + (k * a + (k * block_sum p + k * block_sum b + k * v_block (r_size r))) = k * (q + (a + (block_sum p + block_sum b + v_block (r_size r))))) by (intros; ring).
    change (Rect (zv (r_start r)) (zv (r_size r))) with (zr r).
    destruct (pl_collapses s).
    + destruct (leqb (cm_solve (pl_margin s)) l0); [|exact I]. destruct (cb_through c); cbn [zres].
      * split; [constructor; assumption|reflexivity].
      * split; cbn [fst snd]; [change (zr r) with (zr r); rewrite <- z_cm_solve, X; constructor; assumption|rewrite E; reflexivity].
    + destruct (cb_through c); cbn [zres].
      * split; cbn [fst snd]; [rewrite <- z_cm_solve, X; constructor; assumption|reflexivity].
      * split; cbn [fst snd]; [rewrite <- z_cm_solve, X; constructor; assumption|rewrite E; reflexivity].
  - cbn. destruct F; [|exact I]. rewrite z_eqb0. destruct (leqb _ l0); [|exact I]. cbn. split; cbn; [rewrite z_shift; constructor; constructor|reflexivity].
Qed.
Lemma z_shift_static d o : shift_static (k * d) (zoff o) = zoff (shift_static d o). Proof. destruct o; cbn; try reflexivity. f_equal. ring. Qed.
Lemma z_nth {A} (R : A -> A -> Prop) l l' : Forall2 R l l' -> forall n,
  match nth_error l n, nth_error l' n with Some x, Some y => R x y | None, None => True | _, _ => False end.
Proof. induction 1 as [|x y l l' Hxy _ IH]; intros [|n]; cbn; [exact I|exact I|exact Hxy|exact (IH n)]. Qed.
Lemma z_adjust_one fs fs' rank a a' : zfrags fs fs' -> zabs a a' -> zres zabs (adjust_one fs rank a) (adjust_one fs' rank a').
Proof.
  intros F (A1 & A2 & A3 & A4 & A5). unfold adjust_one. rewrite A2. pose proof (z_nth _ _ _ F (af_rank a)) as N.
  destruct (nth_error fs (af_rank a)) as [f|], (nth_error fs' (af_rank a)) as [f'|]; cbn; try tauto.
  eapply (zres_bind (fun r r' => r' = zr r)); [destruct N; cbn; auto|].
  intros r r' ->. cbn. unfold zabs; cbn. rewrite A3, A4, !z_shift_static. auto.
Qed.
Lemma z_firstn {A B} (R : A -> B -> Prop) l l' : Forall2 R l l' -> forall n, Forall2 R (firstn n l) (firstn n l').
Proof. induction 1; intros [|n]; cbn; constructor; auto. Qed.
Lemma z_skipn {A B} (R : A -> B -> Prop) l l' : Forall2 R l l' -> forall n, Forall2 R (skipn n l) (skipn n l').
Proof. induction 1; intros [|n]; cbn; auto; constructor; auto. Qed.
Lemma z_adjust n abs abs' fs fs' rank : zabss abs abs' -> zfrags fs fs' ->
  zres zabss (adjust_static_positions n abs fs rank) (adjust_static_positions n abs' fs' rank).
Proof.
  intros A F. unfold adjust_static_positions. eapply zres_bind.
  - apply (zres_mapR zabs zabs); [apply z_skipn, A|]. intros a a' Ha'. apply z_adjust_one; assumption.
  - intros l l' L. cbn. apply Forall2_app; [apply z_firstn, A|exact L].
Qed.
Lemma z_in_positioned abs abs' fs fs' size p : zabss abs abs' -> zfrags fs fs' ->
  zres zfrags (in_positioned_containing_block abs fs size p) (in_positioned_containing_block abs' fs' (zv size) (zs p)).
Proof.
  intros A F. unfold in_positioned_containing_block. destruct A as [|a a' l l' Haa A]; [exact F|].
  assert (E : Rect vec2_zero (zv size) = zr (Rect vec2_zero size)) by (unfold zr; cbn [r_start r_size]; rewrite z_vec_zero; reflexivity).
  rewrite E, z_inflate. eapply zres_bind.
  - eapply (zres_mapR zabs zfrag); [constructor; eassumption|]. intros x y (_ & _ & X3 & X4 & X5). rewrite X3, X4. apply X5.
  - intros u u' U. cbn. apply Forall2_app; [exact F|]. constructor; [|constructor]. constructor. exact U.
Qed.
Lemma z_solve_inline w i pb m : solve_inline_margins (k * w) (zla i) (zs pb) (sides_map zla m) = sides_map zla (solve_inline_margins w i pb m).
Proof.
  unfold solve_inline_margins. destruct i as [i|]; [|reflexivity]. cbn [zla]. rewrite z_inline_sum.
  replace (k * w - k * i - k * inline_sum pb) with (k * (w - i - inline_sum pb)) by ring. rewrite z_half.
  destruct m as [[a|] [b|] c d]; reflexivity.
Qed.
Lemma z_used h cb : used_block_size (zoom_lpa k h) (zcb cb) = zla (used_block_size h cb).
Proof. destruct h as [l|p|], cb as [w [b|]]; cbn; try reflexivity. f_equal. ring. Qed.

Section InFlow.
Variable cb : cblock.
Variables st st' : style.
Hypothesis H : zst st st'.
Variable same : bool.
Lemma z_if_padding : if_padding (zcb cb) st' = zs (if_padding cb st).
Proof. unfold if_padding. rewrite (z_padding st st' H). apply z_sides_lp. Qed.
Lemma z_if_border : if_border (zcb cb) st' = zs (if_border cb st).
Proof. unfold if_border. rewrite (z_border st st' H). apply z_sides_lp. Qed.
Lemma z_if_pb : if_pb (zcb cb) st' = zs (if_pb cb st).
Proof. unfold if_pb. rewrite z_if_padding, z_if_border. apply z_sides_add. Qed.
Lemma z_if_cis : if_computed_inline_size (zcb cb) st' = zla (if_computed_inline_size cb st).
Proof. unfold if_computed_inline_size. rewrite (z_width st st' H). apply z_lpa_rel. Qed.
Lemma z_if_margin : if_margin (zcb cb) st' = zs (if_margin cb st).
Proof. unfold if_margin. rewrite z_if_pb, z_if_cis, (z_margin st st' H). cbn [zcb cb_inline]. rewrite z_sides_lpa, z_solve_inline. apply z_sides_auto. Qed.
Lemma z_if_inline : if_inline_size (zcb cb) st' = k * if_inline_size cb st.
Proof.
  unfold if_inline_size. rewrite z_if_cis, z_if_pb, z_if_margin, !z_inline_sum. cbn [zcb cb_inline].
  replace (k * cb_inline cb - k * inline_sum (if_pb cb st) - k * inline_sum (if_margin cb st)) with (k * (cb_inline cb - inline_sum (if_pb cb st) - inline_sum (if_margin cb st))) by ring.
  apply z_auto_is.
Qed.
Lemma z_if_block : if_block_size (zcb cb) st' = zla (if_block_size cb st).
Proof. unfold if_block_size. rewrite (z_height st st' H). apply z_used. Qed.
Lemma z_if_children : if_children_cb (zcb cb) st' = zcb (if_children_cb cb st).
Proof. unfold if_children_cb. rewrite z_if_inline, z_if_block. reflexivity. Qed.
Lemma z_if_sc : if_start_collapse (zcb cb) st' same = if_start_collapse cb st same.
Proof. unfold if_start_collapse. rewrite z_if_pb. cbn. rewrite z_eqb0. reflexivity. Qed.
Lemma z_if_ec : if_end_collapse (zcb cb) st' same = if_end_collapse cb st same.
Proof. unfold if_end_collapse. rewrite z_if_pb, z_if_block. cbn. rewrite z_eqb0. destruct (if_block_size cb st); reflexivity. Qed.
Lemma z_if_child_end c : if_child_end (zcb cb) st' same (zcbm c) = zcm (if_child_end cb st same c).
Proof. unfold if_child_end. rewrite z_if_sc. cbn. destruct (_ && _); [symmetry; apply z_cm_zero|reflexivity]. Qed.
Lemma z_if_margins c : if_margins (zcb cb) st' same (zcbm c) = zcbm (if_margins cb st same c).
Proof.
  unfold if_margins. rewrite z_if_sc, z_if_ec, z_if_margin, z_if_child_end, z_cb_from. unfold zcbm; cbn [cb_start cb_end cb_through]. f_equal.
  - destruct (if_start_collapse cb st same); [|reflexivity]. rewrite z_cm_adjoin. destruct (cb_through c); [apply z_cm_adjoin|reflexivity].
  - destruct (if_end_collapse cb st same); [apply z_cm_adjoin|reflexivity].
Qed.
Lemma z_if_height fl fl' : zflow fl fl' -> if_height (zcb cb) st' same fl' = k * if_height cb st same fl.
Proof.
  intros (_ & E & M). unfold if_height. rewrite z_if_block, z_if_ec, E, M, z_if_child_end, z_cm_solve.
  rewrite <- z_auto_is. f_equal. destruct (if_end_collapse cb st same); ring.
Qed.
Lemma z_if_content fl fl' : zflow fl fl' -> if_content (zcb cb) st' same fl' = zr (if_content cb st same fl).
Proof.
  intros F. unfold if_content. rewrite z_if_inline, z_if_block, z_if_pb, z_if_margin, (z_if_height fl fl' F), (z_relative st st' _ _ H). unfold zr, zv; cbn. zeq.
Qed.
Definition zfragabs (x y : fragment * list abs_frag) : Prop := zfrag (fst x) (fst y) /\ zabss (snd x) (snd y).
Lemma z_in_flow abs abs' lay lay' : zabss abs abs' ->
  (forall c a a' b, zabss a a' -> zres zfa (lay c a b) (lay' (zcb c) a' b)) ->
  zres zfragabs (layout_in_flow cb st same abs lay) (layout_in_flow (zcb cb) st' same abs' lay').
Proof.
  intros A L. unfold layout_in_flow. rewrite (z_sv st st' Lposition H), z_if_children, z_if_sc. cbn [zoom_value].
  set (rel := is_relatively_positioned (sv st Lposition)).
  eapply zres_bind; [apply L; destruct rel; [constructor|exact A]|]. intros [fl a1] [fl' a1'] [F A1]. cbn [fst snd] in *.
  rewrite (z_if_content fl fl' F), z_if_padding, z_if_border, z_if_margin. rewrite (proj2 (proj2 F)), z_if_margins.
  eapply (zres_bind zfrags).
  - destruct rel; [|exact (proj1 F)]. cbn [zr r_size]. apply z_in_positioned; [exact A1|exact (proj1 F)].
  - intros ch ch' C. cbn. split; cbn; [constructor; assumption|destruct rel; assumption].
Qed.
End InFlow.

Definition zanchor (a : anchor) : anchor := match a with AStart l => AStart (k * l) | AEnd l => AEnd (k * l) end.
Lemma z_solve_axis w pb ms me f o size : (forall m, f (k * m) = (k * fst (f m), k * snd (f m))) ->
  solve_axis (k * w) (k * pb) (zla ms) (zla me) f (zoff o) (zoom_lpa k size) =
  (zanchor (fst (fst (fst (solve_axis w pb ms me f o size)))), zla (snd (fst (fst (solve_axis w pb ms me f o size)))),
   k * snd (fst (solve_axis w pb ms me f o size)), k * snd (solve_axis w pb ms me f o size)).
Proof.
  intros Hf. unfold solve_axis. destruct o as [s|s|e|s e]; cbn [zoff]; rewrite ?z_lpa_rel, ?z_lp_rel, ?z_auto_is0; try reflexivity.
  destruct (lpa_rel size w) as [z|]; cbn [zla fst snd zanchor].
  - replace (k * w - k * lp_rel s w - k * lp_rel e w - k * pb - k * z) with (k * (w - lp_rel s w - lp_rel e w - pb - z)) by ring.
    destruct ms as [ms|], me as [me|]; cbn [zla]; rewrite ?Hf; try destruct (f _); cbn [fst snd]; zeq.
  - zeq.
Qed.
Lemma z_smi m : solve_margins_inline (k * m) = (k * fst (solve_margins_inline m), k * snd (solve_margins_inline m)).
Proof. unfold solve_margins_inline. rewrite z_leb0. destruct (lleb l0 m); cbn; rewrite ?z_half, ?z_0; reflexivity. Qed.
Lemma z_smb m : solve_margins_block (k * m) = (k * fst (solve_margins_block m), k * snd (solve_margins_block m)).
Proof. unfold solve_margins_block. cbn. rewrite z_half. reflexivity. Qed.
Lemma z_abs_layout st st' lay lay' : zst st st' -> (forall c, zres zfa (lay c) (lay' (zcb c))) -> zlay (abs_layout st lay) (abs_layout st' lay').
Proof.
  intros H L oi ob size. unfold abs_layout. cbn [zv v_inline v_block].
  rewrite (z_padding st st' H), (z_border st st' H), (z_margin st st' H), (z_width st st' H), (z_height st st' H), !z_sides_lp, z_sides_lpa, z_sides_add, z_inline_sum, z_block_sum.
  set (W := v_inline size). set (Hh := v_block size).
  set (P := sides_lp_rel (style_padding st) W). set (B := sides_lp_rel (style_border_width st) W).
  set (M := sides_lpa_rel (style_margin st) W). cbn [sides_map s_inline_start s_inline_end s_block_start s_block_end].
  rewrite (z_solve_axis W (inline_sum (sides_add P B)) (s_inline_start M) (s_inline_end M) _ oi (v_inline (box_size st)) z_smi).
  rewrite (z_solve_axis W (block_sum (sides_add P B)) (s_block_start M) (s_block_end M) _ ob (v_block (box_size st)) z_smb).
  destruct (solve_axis W (inline_sum (sides_add P B)) _ _ _ oi _) as [[[ia is] mis] mie].
  destruct (solve_axis W (block_sum (sides_add P B)) _ _ _ ob _) as [[[ba bs] mbs] mbe]. cbn [fst snd].
  change (Sides (k * mis) (k * mie) (k * mbs) (k * mbe)) with (zs (Sides mis mie mbs mbe)).
  set (MM := Sides mis mie mbs mbe). rewrite !z_inline_sum.
  set (isz := auto_is is _).
  match goal with |- zres _ _ (bind (lay' (CBlock ?x _)) _) => assert (E : x = k * isz) end.
  { unfold isz. rewrite <- z_auto_is. f_equal. destruct ia; cbn; ring. }
  rewrite !E. clear E. change (CBlock (k * isz) (zla bs)) with (zcb (CBlock isz bs)).
  eapply zres_bind; [apply L|]. intros [fl a1] [fl' a1'] [F A1]. cbn [fst snd] in *. rewrite (proj1 (proj2 F)), z_auto_is.
  match goal with |- zres _ (bind (in_positioned_containing_block _ _ (r_size ?x) _) _) (bind (in_positioned_containing_block _ _ (r_size ?y) _) _) =>
    assert (E : y = zr x) by (unfold zr, zv; cbn; destruct ia, ba; cbn; zeq) end.
  rewrite E. clear E. match goal with |- context [r_size (zr ?x)] => change (r_size (zr x)) with (zv (r_size x)) end.
  eapply zres_bind; [apply z_in_positioned; [exact A1|exact (proj1 F)]|]. intros ch ch' C. cbn. rewrite <- z_cb_zero at 2. constructor; assumption.
Qed.

Definition zblay (b b' : @blb_lay Exact) : Prop :=
  forall cb rank abs abs' fl, zabss abs abs' -> zres zfragabs (b cb rank abs fl) (b' (zcb cb) rank abs' fl).
Definition zfloats (x y : list fragment * list abs_frag * placement) : Prop :=
  zfrags (fst (fst x)) (fst (fst y)) /\ zabss (snd (fst x)) (snd (fst y)) /\ snd y = zplace (snd x).
Lemma z_children_floats bs bs' : Forall2 zblay bs bs' -> forall cb rank abs abs' s, zabss abs abs' ->
  zres zfloats (children_floats bs cb rank abs s) (children_floats bs' (zcb cb) rank abs' (zplace s)).
Proof.
  induction 1 as [|b b' bs bs' Hb _ IH]; intros cb rank abs abs' s A; cbn [children_floats].
  - split; [constructor|]. split; [exact A|reflexivity].
  - eapply zres_bind; [apply Hb, A|]. intros [f a1] [f' a1'] [F A1]. cbn [fst snd] in *.
    eapply zres_bind; [apply z_place, F|]. intros [f1 s1] [f1' s1'] [F1 E1]. cbn [fst snd] in *. subst s1'.
    eapply zres_bind; [apply IH, A1|]. intros [[fs a2] s2] [[fs' a2'] s2'] (G1 & G2 & G3). cbn [fst snd] in *. cbn.
    split; [constructor; assumption|]. split; assumption.
Qed.
Definition zfsabs (x y : list fragment * list abs_frag) : Prop := zfrags (fst x) (fst y) /\ zabss (snd x) (snd y).
Lemma z_children_layout bs bs' : Forall2 zblay bs bs' -> forall cb rank abs abs', zabss abs abs' ->
  zres zfsabs (children_layout bs cb rank abs) (children_layout bs' (zcb cb) rank abs').
Proof.
  induction 1 as [|b b' bs bs' Hb _ IH]; intros cb rank abs abs' A; cbn [children_layout].
  - split; [constructor|exact A].
  - eapply zres_bind; [apply Hb, A|]. intros [f a1] [f' a1'] [F A1]. cbn [fst snd] in *.
    eapply zres_bind; [apply IH, A1|]. intros [fs a2] [fs' a2'] (G1 & G2). cbn. split; [constructor; assumption|assumption].
Qed.
Definition zplaceds (x y : list fragment * placement) : Prop := zfrags (fst x) (fst y) /\ snd y = zplace (snd x).
Lemma z_place_all fs fs' : zfrags fs fs' -> forall s, zres zplaceds (place_all fs s) (place_all fs' (zplace s)).
Proof.
  induction 1 as [|f f' fs fs' Hf _ IH]; intros s; cbn [place_all]; [split; [constructor|reflexivity]|].
  eapply zres_bind; [apply z_place, Hf|]. intros [f1 s1] [f1' s1'] [F1 E1]. cbn [fst snd] in *. subst s1'.
  eapply zres_bind; [apply IH|]. intros [g s2] [g' s2'] [G1 G2]. cbn in *. split; [constructor; assumption|assumption].
Qed.
Lemma z_length {A B} (R : A -> B -> Prop) l l' : Forall2 R l l' -> List.length l' = List.length l.
Proof. induction 1; cbn; congruence. Qed.
Lemma z_children bs bs' cb rank abs abs' floats coll : Forall2 zblay bs bs' -> zabss abs abs' ->
  zres zfa (layout_block_level_children bs cb rank abs floats coll) (layout_block_level_children bs' (zcb cb) rank abs' floats coll).
Proof.
  intros F A. unfold layout_block_level_children. eapply (zres_bind zfloats).
  - destruct floats.
    + rewrite <- (z_placement_start coll) at 2. apply z_children_floats; assumption.
    + eapply zres_bind; [apply z_children_layout; eassumption|]. intros [fs a1] [fs' a1'] [G1 G2]. cbn [fst snd] in *.
      rewrite <- (z_placement_start coll) at 2. eapply zres_bind; [apply z_place_all, G1|]. intros [g s] [g' s'] [H1 H2]. cbn in *. split; [exact H1|]. split; assumption.
  - intros [[fs a1] s] [[fs' a1'] s'] (G1 & G2 & E1). cbn [fst snd] in *. subst s'. rewrite (z_length _ _ _ A).
    eapply zres_bind; [apply z_adjust; eassumption|]. intros a2 a2' A2. cbn. split; [|exact A2]. split; [exact G1|]. split; reflexivity.
Qed.
Lemma z_bfc_finish r r' : zres zfa r r' -> zres zfa (bfc_finish r) (bfc_finish r').
Proof.
  intros R. unfold bfc_finish. eapply zres_bind; [exact R|]. intros [fl a] [fl' a'] [(F1 & F2 & F3) A]. cbn in *. split; [|exact A].
  split; [exact F1|]. cbn. rewrite F2, F3. unfold zcbm; cbn. rewrite z_cm_solve, z_cm_zero. split; [ring|reflexivity].
Qed.

(** Box trees, enlarged *)
Inductive zblb : blb -> blb -> Prop :=
| ZSame st st' c c' : zst st st' -> zcont c c' -> zblb (SameFC st c) (SameFC st' c')
| ZAbs st st' c c' : zst st st' -> zbfc c c' -> zblb (BAbspos st c) (BAbspos st' c')
| ZFloat st st' c c' : zst st st' -> zbfc c c' -> zblb (BFloat st c) (BFloat st' c')
| ZIndep st st' c c' : zst st st' -> zbfc c c' -> zblb (Indep st c) (Indep st' c')
with zcont : bcontainer -> bcontainer -> Prop :=
| ZBlocks l l' : Forall2 zblb l l' -> zcont (BlockLevelBoxes l) (BlockLevelBoxes l')
| ZInlines p p' l l' : zst p p' -> Forall2 (zilb (fun _ _ => zbfc)) l l' -> zcont (InlineFC p l) (InlineFC p' l')
with zbfc : bfc -> bfc -> Prop :=
| ZBfc fl c c' : zcont c c' -> zbfc (BFC fl c) (BFC fl c').

Lemma z_blb (b b' : blb) (H : zblb b b') : zblay (layout_blb m_a m_d m_w b) (layout_blb m_a' m_d' m_w' b')
with z_cont (c c' : bcontainer) (HC : zcont c c') : forall cb rank abs abs' fl co, zabss abs abs' ->
  zres zfa (layout_container m_a m_d m_w c cb rank abs fl co) (layout_container m_a' m_d' m_w' c' (zcb cb) rank abs' fl co)
with z_bfc (c c' : bfc) (HB : zbfc c c') : forall cb rank abs abs', zabss abs abs' ->
  zres zfa (layout_bfc m_a m_d m_w c cb rank abs) (layout_bfc m_a' m_d' m_w' c' (zcb cb) rank abs').
Proof.
  - intros cb rank abs abs' fl A. destruct H as [st st' c c' Hs Hc|st st' c c' Hs Hc|st st' c c' Hs Hc|st st' c c' Hs Hc]; cbn [layout_blb].
    + apply z_in_flow; [exact Hs|exact A|]. intros cb' a a' co Haa. apply z_cont; assumption.
    + split; cbn; [apply z_no_op|]. apply Forall2_app; [exact A|]. constructor; [|constructor]. rewrite <- z_vec_zero at 2. apply z_abs_box; [exact Hs|].
      apply z_abs_layout; [exact Hs|]. intros cb'. apply z_bfc; [exact Hc|constructor].
    + split; cbn; [apply z_no_op|exact A].
    + apply z_in_flow; [exact Hs|exact A|]. intros cb' a a' co Haa. apply z_bfc; assumption.
  - intros cb rank abs abs' fl co A. destruct HC as [l l' F|p p' l l' Hp F]; cbn [layout_container].
    + apply z_children; [|exact A]. induction F as [|x y l l' Hxy F IHF]; cbn; constructor; [apply z_blb; exact Hxy|exact IHF].
    + apply z_ifc_layout; [exact Hp| |exact A].
      induction F as [|x y l l' Hxy F IHF]; cbn [map]; constructor; [|exact IHF]. clear IHF F.
      revert x y Hxy. fix IHi 3. intros x y Hxy. destruct Hxy as [st st' fi la_ ch ch' Hs G|st st' t fo fo' Hs Hf|st st' c c' Hs Hc|st st' c c' Hs Hc]; cbn [ilb_map].
      * constructor; [exact Hs|]. induction G as [|u v ch ch' Huv G IHG]; cbn [map]; constructor; [apply IHi; exact Huv|exact IHG].
      * constructor; assumption.
      * constructor; [exact Hs|]. apply z_abs_layout; [exact Hs|]. intros cb'. apply z_bfc; [exact Hc|constructor].
      * constructor; [exact Hs|]. apply z_abs_layout; [exact Hs|]. intros cb'. apply z_bfc; [exact Hc|constructor].
  - intros cb rank abs abs' A. destruct HB as [fl c c' Hc]. cbn [layout_bfc]. apply z_bfc_finish. apply z_cont; assumption.
Qed.

Lemma z_layout_root c c' vp : zbfc c c' ->
  zres zfrags (layout_root m_a m_d m_w c vp) (layout_root m_a' m_d' m_w' c' (zv vp)).
Proof.
  intros H. unfold layout_root. cbn [zv v_inline v_block].
  change (CBlock (k * v_inline vp) (LALen (k * v_block vp))) with (zcb (CBlock (v_inline vp) (LALen (v_block vp)))).
  eapply zres_bind; [apply z_bfc; [exact H|constructor]|]. intros [fl a] [fl' a'] [(F & _) A]. cbn [fst snd] in *.
  eapply (zres_bind zfrags).
  - eapply (zres_mapR zabs zfrag); [exact A|]. intros x y (_ & _ & X3 & X4 & X5). rewrite X3, X4. apply X5.
  - intros u u' U. cbn. apply Forall2_app; assumption.
Qed.

End Metrics.

(* ------------------------------------------------------------------ *)
(** * Painting *)
Definition zpv (v : pvec Len) : pvec Len := PVec (k * px_ v) (k * py_ v).
Definition zpr (r : prect Len) : prect Len := PRect (zpv (p_top_left r)) (zpv (p_size r)).
Notation zcalls := (Forall2 (zoomed_call k)).
Lemma z_physical r c : zres (fun p p' => p' = zpr p) (physical r c) (physical (zr r) (zpr c)).
Proof. unfold physical; cbn. unfold zpr, zpv, prect_translate, pvec_add; cbn. zeq. Qed.
Lemma z_line x1 y1 x2 y2 x1' y1' x2' y2' c c' w w' s s' : x1' = k * x1 -> y1' = k * y1 -> x2' = k * x2 -> y2' = k * y2 -> w' = k * w -> c' = c -> s' = s ->
  zoomed_call k (DLine [(x1, y1); (x2, y2)] c w s) (DLine [(x1', y1'); (x2', y2')] c' w' s').
Proof. intros -> -> -> -> -> -> ->. exact (ZLine k [(x1, y1); (x2, y2)] c w s). Qed.
Lemma z_to_rgba st st' c : zst st st' -> to_rgba st' c = to_rgba st c.
Proof. intros H. destruct c; [reflexivity|]. exact (z_sv st st' Lcolor H). Qed.
Lemma z_background st st' b : zst st st' -> zcalls (paint_background st b) (paint_background st' (zpr b)).
Proof.
  intros H. unfold paint_background. rewrite (z_sv st st' Lbackground_color H), (z_to_rgba st st' _ H). cbn [zoom_value].
  destruct (_ <? _)%N; [|constructor]. constructor; [constructor|constructor].
Qed.
Ltac zside H :=
  match goal with |- context [if lltb l0 ?x && _ then _ else _] => idtac end;
  rewrite ?(z_sv _ _ _ H), ?(z_to_rgba _ _ _ H); cbn [zoom_value];
  match goal with |- Forall2 _ (if lltb l0 ?x && _ then _ else _) (if lltb l0 ?y && _ then _ else _) =>
    let E := fresh in assert (E : y = k * x) by (cbn; ring); rewrite E, z_ltb0; clear E;
    destruct (lltb l0 x && _); [|constructor]; constructor; [|constructor]; apply z_line; try reflexivity; rewrite ?z_half; cbn; ring end.
Lemma z_top st st' b p : zst st st' -> zcalls (paint_top st b p) (paint_top st' (zpr b) (zpr p)).
Proof. intros H. unfold paint_top; cbv zeta. zside H. Qed.
Lemma z_right st st' b p : zst st st' -> zcalls (paint_right st b p) (paint_right st' (zpr b) (zpr p)).
Proof. intros H. unfold paint_right; cbv zeta. zside H. Qed.
Lemma z_bottom st st' b p : zst st st' -> zcalls (paint_bottom st b p) (paint_bottom st' (zpr b) (zpr p)).
Proof. intros H. unfold paint_bottom; cbv zeta. zside H. Qed.
Lemma z_left st st' b p : zst st st' -> zcalls (paint_left st b p) (paint_left st' (zpr b) (zpr p)).
Proof. intros H. unfold paint_left; cbv zeta. zside H. Qed.

Section Paint.
Variables font_of font_of' : style -> font.
Hypothesis Hfont : zoomed_fonts k font_of font_of'.
Lemma z_each {A} (R : A -> A -> Prop) f f' l l' : Forall2 R l l' -> (forall a a', R a a' -> zres zcalls (f a) (f' a')) ->
  zres zcalls (each f l) (each f' l').
Proof.
  intros F Hf. induction F as [|x y l l' Hxy _ IH]; cbn; [constructor|].
  eapply zres_bind; [apply Hf, Hxy|]. intros c c' Hc. eapply zres_bind; [exact IH|]. intros d d' Hd. cbn. apply Forall2_app; assumption.
Qed.
Lemma z_paint f f' (H : zfrag f f') : forall c, zres zcalls (paint font_of c f) (paint font_of' (zpr c) f').
Proof.
  revert f f' H. fix IH 3. intros f f' H c.
  assert (BB : forall r, zoomed_call k (bbox_call r) (bbox_call (zpr r))) by (intros r; constructor).
  destruct H as [st st' ch ch' r p b m cm Hs F|r ch ch' F|st st' r fo fo' sg Hs Hf]; cbn [paint].
  - unfold margin_rect_of, border_rect_of, padding_rect_of. rewrite !z_inflate.
    eapply zres_bind; [apply z_physical|]. intros mr ? ->. eapply zres_bind; [apply z_physical|]. intros br ? ->.
    eapply zres_bind; [apply z_physical|]. intros pr ? ->. eapply zres_bind; [apply z_physical|]. intros cr ? ->.
    eapply (zres_bind zcalls).
    + induction F as [|x y l l' Hxy F IHF]; cbn [each]; [constructor|].
      eapply zres_bind; [exact (IH _ _ Hxy cr)|]. intros d d' Hd. eapply zres_bind; [exact IHF|]. intros e e' He. cbn. apply Forall2_app; assumption.
    + intros cs cs' Hcs. cbn. constructor; [apply BB|].
      repeat apply Forall2_app; auto using z_background, z_top, z_right, z_bottom, z_left.
  - eapply zres_bind; [apply z_physical|]. intros mr ? ->.
    eapply (zres_bind zcalls).
    + induction F as [|x y l l' Hxy F IHF]; cbn [each]; [constructor|].
      eapply zres_bind; [exact (IH _ _ Hxy mr)|]. intros d d' Hd. eapply zres_bind; [exact IHF|]. intros e e' He. cbn. apply Forall2_app; assumption.
    + intros cs cs' Hcs. cbn. constructor; [apply BB|exact Hcs].
  - eapply zres_bind; [apply z_physical|]. intros mr ? ->. cbn. constructor; [apply BB|]. constructor; [|constructor].
    pose proof (Hfont fo fo' Hf) as HF. rewrite (z_sv st st' Lcolor Hs). cbn [zoom_value].
    replace (k * py_ (p_top_left mr) + f_ascent (font_of' fo')) with (k * (py_ (p_top_left mr) + f_ascent (font_of fo))).
    + constructor. exact HF.
    + destruct HF as (_ & _ & _ & _ & -> & _). ring.
Qed.
Lemma z_paint_page fs fs' page : zfrags fs fs' -> zres zcalls (paint_page font_of fs page) (paint_page font_of' fs' (zv page)).
Proof.
  intros F. unfold paint_page. cbv zeta.
  replace (PRect (PVec l0 l0) (PVec (v_inline (zv page)) (v_block (zv page)))) with (zpr (PRect (PVec l0 l0) (PVec (v_inline page) (v_block page)))) by (unfold zpr, zpv; cbn; rewrite z_0; reflexivity).
  eapply z_each; [exact F|]. intros a a' H. apply z_paint, H.
Qed.
End Paint.

(* ------------------------------------------------------------------ *)
(** * Box construction *)
Notation zi := (zilb (fun _ _ => zbfc)).
Notation zis := (Forall2 zi).
Definition zout {A B} (R : A -> B -> Prop) (r : TreeModel.outcome A) (r' : TreeModel.outcome B) : Prop :=
  match r, r' with TreeModel.Done a, TreeModel.Done b => R a b | Panics, Panics => True | Fatal, Fatal => True | _, _ => False end.
Lemma zout_bind {A B C D} (R : A -> B -> Prop) (Q : C -> D -> Prop) r r' f f' :
  zout R r r' -> (forall a b, R a b -> zout Q (f a) (f' b)) -> zout Q (obind r f) (obind r' f').
Proof. destruct r, r'; cbn; try tauto. auto. Qed.
Lemma zout_slot {A B} (R : A -> B -> Prop) r r' : zout R r r' -> zout R (with_slot r) (with_slot r').
Proof. destruct r, r'; cbn; tauto. Qed.
Inductive zong : ongoing -> ongoing -> Prop :=
| ZOng st st' f c c' : zst st st' -> zis c c' -> zong (Ongoing st f c) (Ongoing st' f c').
Definition zcf (x y : bcontainer * bool) : Prop := zcont (fst x) (fst y) /\ snd y = snd x.
Inductive zinter : inter -> inter -> Prop :=
| ZMAnon st st' ps ps' l l' : zst st st' -> zst ps ps' -> zis l l' -> zinter (MAnon st ps l) (MAnon st' ps' l')
| ZMDef st st' r r' : zst st st' -> zout zcf r r' -> zinter (MDeferred st r) (MDeferred st' r')
| ZMInd st st' r r' : zst st st' -> zout zbfc r r' -> zinter (MIndep st r) (MIndep st' r')
| ZMAbs st st' r r' : zst st st' -> zout zbfc r r' -> zinter (MAbspos st r) (MAbspos st' r')
| ZMFlo st st' r r' : zst st st' -> zout zbfc r r' -> zinter (MFloat st r) (MFloat st' r').
Inductive zbuilder : builder -> builder -> Prop :=
| ZBuilder st st' b b' i i' s s' f : zst st st' -> Forall2 zinter b b' -> zis i i' -> Forall2 zong s s' ->
    zbuilder (Builder st b i s f) (Builder st' b' i' s' f).
Lemma z_current b b' : zbuilder b b' -> zis (current b) (current b').
Proof. intros [st st' bx bx' i i' s s' f H1 H2 H3 H4]. unfold current; cbn. destruct H4 as [|o o' ? ? Ho]; [exact H3|]. destruct Ho; assumption. Qed.
Lemma z_set_current b b' l l' : zbuilder b b' -> zis l l' -> zbuilder (set_current b l) (set_current b' l').
Proof.
  intros [st st' bx bx' i i' s s' f H1 H2 H3 H4] L. unfold set_current; cbn. destruct H4 as [|o o' ? ? Ho]; constructor; auto.
  constructor; [|assumption]. destruct Ho; constructor; assumption.
Qed.
Lemma z_push_box b b' m m' : zbuilder b b' -> zinter m m' -> zbuilder (push_box b m) (push_box b' m').
Proof. intros [st st' bx bx' i i' s s' f H1 H2 H3 H4] M. unfold push_box; cbn. constructor; auto. apply Forall2_app; [assumption|constructor; [assumption|constructor]]. Qed.
Lemma z_search b b' : zi b b' -> search_box b' = search_box b.
Proof.
  revert b b'. fix IH 3. intros b b' H. destruct H as [st st' fi la_ ch ch' Hs F| | |]; try reflexivity. cbn.
  induction F as [|x y l l' Hxy F IHF]; [reflexivity|]. cbn. rewrite IHF, (IH _ _ Hxy). reflexivity.
Qed.
Lemma z_search_back l l' : zis l l' -> search_back l' = search_back l.
Proof. induction 1 as [|x y l l' Hxy _ IH]; cbn; [reflexivity|]. rewrite IH, (z_search _ _ Hxy). reflexivity. Qed.
Lemma z_append_text l l' t st st' : zst st st' -> zis l l' -> zis (append_text l t st) (append_text l' t st').
Proof.
  intros H F. induction F as [|x y l l' Hxy F IH]; cbn [append_text].
  - constructor; [constructor; assumption|constructor].
  - assert (D : zis (x :: append_text l t st) (y :: append_text l' t st')) by (constructor; assumption).
    destruct Hxy; destruct F; try exact D. constructor; [constructor; assumption|constructor].
Qed.
Lemma z_leading b b' t : zbuilder b b' -> handle_leading_whitespace b' t = handle_leading_whitespace b t.
Proof. intros H. unfold handle_leading_whitespace. rewrite (z_search_back _ _ (z_current b b' H)). reflexivity. Qed.
Lemma z_slots bx bx' : Forall2 zinter bx bx' -> existsb has_real_slot bx' = existsb has_real_slot bx.
Proof. induction 1 as [|x y l l' Hxy _ IH]; cbn; [reflexivity|]. rewrite IH. destruct Hxy; reflexivity. Qed.
Lemma z_handle_text t st st' b b' : zst st st' -> zbuilder b b' -> zout zbuilder (handle_text t st b) (handle_text t st' b').
Proof.
  intros H B. unfold handle_text. rewrite (z_sv st st' Lwhite_space H). cbn [zoom_value].
  assert (T : forall t, zbuilder (set_current b (append_text (current b) t st)) (set_current b' (append_text (current b') t st'))).
  { intros u. apply z_set_current; [exact B|]. apply z_append_text; [exact H|apply z_current, B]. }
  assert (C : zout zbuilder (handle_text_collapse t st b) (handle_text_collapse t st' b')).
  { unfold handle_text_collapse. rewrite (z_leading b b' t B). destruct (handle_leading_whitespace b t) as [le u].
    destruct (_ || _); [|exact B]. destruct (collapse_loop _ u); [|exact I]. apply T. }
  assert (P : zout zbuilder (handle_text_preserve t st b) (handle_text_preserve t st' b')).
  { unfold handle_text_preserve. destruct t; [exact B|apply T]. }
  assert (X : zout zbuilder (if existsb has_real_slot (b_boxes b) then Fatal else Panics) (if existsb has_real_slot (b_boxes b') then Fatal else Panics)).
  { destruct B as [? ? bx bx' ? ? ? ? ? ? H2]; cbn. rewrite (z_slots _ _ H2). destruct (existsb _ _); exact I. }
  destruct (sv st Lwhite_space); assumption.
Qed.
Lemma z_push_inline st st' b b' : zst st st' -> zbuilder b b' -> zbuilder (push_inline st b) (push_inline st' b').
Proof. intros H [? ? ? ? ? ? ? ? ? H1 H2 H3 H4]. unfold push_inline; cbn. constructor; auto. constructor; [constructor; [assumption|constructor]|assumption]. Qed.
Lemma z_pop_inline b b' : zbuilder b b' -> zout zbuilder (pop_inline b) (pop_inline b').
Proof.
  intros [st st' bx bx' i i' s s' f H1 H2 H3 H4]. unfold pop_inline; cbn [b_stack]. destruct H4 as [|o o' ? ? Ho H4]; [exact I|]. cbn [b_style b_boxes b_inlines b_floats zout].
  destruct Ho as [so so' fo c c' Hso Hc]. cbn [og_style og_first og_children].
  assert (B : zbuilder (Builder st bx i l f) (Builder st' bx' i' l' f)) by (constructor; assumption).
  apply z_set_current; [exact B|]. apply Forall2_app; [apply z_current, B|]. constructor; [constructor; assumption|constructor].
Qed.
Lemma z_anonymous st st' : zst st st' -> zst (anonymous_inheriting_from (Some st)) (anonymous_inheriting_from (Some st')).
Proof.
  intros [H H0]. unfold anonymous_inheriting_from, style_new. cbn [style_new].
  split; [|reflexivity]. intros l. destruct l; cbn; rewrite ?H, ?z_0; reflexivity.
Qed.
Lemma z_end_ifc b b' : zbuilder b b' -> zout zbuilder (end_ifc b) (end_ifc b').
Proof.
  intros [st st' bx bx' i i' s s' f H1 H2 H3 H4]. unfold end_ifc; cbn [b_stack b_inlines]. destruct H4; [|exact I].
  destruct H3; cbn.
  - constructor; auto.
  - constructor; auto. apply Forall2_app; [assumption|]. constructor; [|constructor]. constructor; [apply z_anonymous; assumption|assumption|constructor; assumption].
Qed.
Lemma z_fragmented s s' : Forall2 zong s s' -> forall i i', match i, i' with Some x, Some y => zi x y | None, None => True | _, _ => False end ->
  match fragmented s i, fragmented s' i' with Some x, Some y => zi x y | None, None => True | _, _ => False end.
Proof.
  induction 1 as [|o o' s s' Ho _ IH]; intros i i' Hi; cbn; [exact Hi|]. apply IH. destruct Ho. cbn. constructor; [assumption|].
  apply Forall2_app; [assumption|]. destruct i, i'; try tauto; [|constructor]. constructor; [exact Hi|constructor].
Qed.
Lemma z_fragment_inlines b b' : zbuilder b b' -> zbuilder (fragment_inlines b) (fragment_inlines b').
Proof.
  intros [st st' bx bx' i i' s s' f H1 H2 H3 H4]. unfold fragment_inlines; cbn. constructor; auto.
  - apply Forall2_app; [assumption|]. pose proof (z_fragmented _ _ H4 None None I) as F. destruct (fragmented s None), (fragmented s' None); try tauto; [|constructor].
    constructor; [exact F|constructor].
  - induction H4 as [|o o' ? ? Ho]; cbn; constructor; [|assumption]. destruct Ho. constructor; [assumption|constructor].
Qed.
Lemma z_handle_block st st' ins r r' b b' : zst st st' -> zout zcf r r' -> zbuilder b b' ->
  zout zbuilder (handle_block st ins r b) (handle_block st' ins r' b').
Proof.
  intros H R B. unfold handle_block. eapply zout_bind; [apply z_end_ifc, z_fragment_inlines, B|]. intros c c' C. cbn. apply z_push_box; [exact C|].
  destruct ins; constructor; auto. eapply zout_bind; [exact R|]. intros [x fl] [y fl'] [X E]. cbn in *. subst. constructor. exact X.
Qed.
Lemma z_finish_one m m' : zinter m m' -> zout (fun x y => zblb (fst x) (fst y) /\ snd y = snd x) (finish_one m) (finish_one m').
Proof.
  intros H. destruct H as [| st st' r r' H R|st st' r r' H R|st st' r r' H R|st st' r r' H R]; cbn [finish_one].
  - split; [|reflexivity]. constructor; [assumption|]. constructor; assumption.
  - apply zout_slot. eapply zout_bind; [exact R|]. intros [c fl] [c' fl'] [C E]. cbn in *. split; [constructor; assumption|assumption].
  - apply zout_slot. eapply zout_bind; [exact R|]. intros c c' C. cbn. split; [constructor; assumption|reflexivity].
  - apply zout_slot. eapply zout_bind; [exact R|]. intros c c' C. cbn. split; [constructor; assumption|reflexivity].
  - apply zout_slot. eapply zout_bind; [exact R|]. intros c c' C. cbn. split; [constructor; assumption|reflexivity].
Qed.
Lemma z_finish_all l l' : Forall2 zinter l l' -> forall fl,
  zout (fun x y => Forall2 zblb (fst x) (fst y) /\ snd y = snd x) (finish_all l fl) (finish_all l' fl).
Proof.
  induction 1 as [|m m' l l' Hm _ IH]; intros fl; cbn [finish_all]; [split; [constructor|reflexivity]|].
  eapply zout_bind; [apply z_finish_one, Hm|]. intros [x f] [x' f'] [X E]. cbn [fst snd] in *. subst f'.
  eapply zout_bind; [apply IH|]. intros [xs f2] [xs' f2'] [Xs E2]. cbn in *. split; [constructor; assumption|assumption].
Qed.
Lemma z_finish_container b b' : zbuilder b b' -> zout zcf (finish_container b) (finish_container b').
Proof.
  intros B. unfold finish_container.
  assert (G : forall c c', zbuilder c c' -> zout zcf (obind (finish_all (b_boxes c) (b_floats c)) (fun '(l, floats) => TreeModel.Done (BlockLevelBoxes l, floats)))
     (obind (finish_all (b_boxes c') (b_floats c')) (fun '(l, floats) => TreeModel.Done (BlockLevelBoxes l, floats)))).
  { intros c c' [? ? ? ? ? ? ? ? f H1 H2 H3 H4]. cbn [b_boxes b_floats]. eapply zout_bind; [apply z_finish_all, H2|].
    intros [l fl] [l' fl'] [L E]. cbn in *. split; [constructor; assumption|assumption]. }
  pose proof (z_end_ifc b b' B) as E.
  assert (K : zout zcf (obind (end_ifc b) (fun b0 => obind (finish_all (b_boxes b0) (b_floats b0)) (fun '(l, floats) => TreeModel.Done (BlockLevelBoxes l, floats))))
     (obind (end_ifc b') (fun b0 => obind (finish_all (b_boxes b0) (b_floats b0)) (fun '(l, floats) => TreeModel.Done (BlockLevelBoxes l, floats))))).
  { eapply zout_bind; [exact E|]. exact G. }
  specialize (G b b' B). destruct B as [st st' bx bx' i i' s s' f H1 H2 H3 H4]. cbn [b_inlines b_boxes b_style b_floats] in *.
  destruct H3; destruct H2; first [exact K | exact G | idtac].
  split; cbn; [|reflexivity]. constructor; [assumption|constructor; assumption].
Qed.
Inductive zsnode : snode -> snode -> Prop :=
| ZSText t : zsnode (SText t) (SText t)
| ZSOther : zsnode SOther SOther
| ZSElem br st st' l l' : zst st st' -> Forall2 zsnode l l' -> zsnode (SElem br st l) (SElem br st' l').
Lemma z_has_ongoing b b' : zbuilder b b' -> has_ongoing_ifc b' = has_ongoing_ifc b.
Proof. intros [? ? ? ? ? ? ? ? ? H1 H2 H3 H4]. unfold has_ongoing_ifc; cbn. destruct H3; [destruct H4; reflexivity|reflexivity]. Qed.
Lemma z_handle_abspos st st' r r' b b' : zst st st' -> zout zbfc r r' -> zbuilder b b' -> zout zbuilder (handle_abspos st r b) (handle_abspos st' r' b').
Proof.
  intros H R B. unfold handle_abspos. rewrite (z_has_ongoing b b' B). destruct (has_ongoing_ifc b).
  - apply zout_slot. eapply zout_bind; [exact R|]. intros c c' C. cbn. apply z_set_current; [exact B|]. apply Forall2_app; [apply z_current, B|].
    constructor; [constructor; assumption|constructor].
  - cbn. apply z_push_box; [exact B|constructor; assumption].
Qed.
Lemma z_handle_float st st' r r' b b' : zst st st' -> zout zbfc r r' -> zbuilder b b' -> zout zbuilder (handle_float st r b) (handle_float st' r' b').
Proof.
  intros H R B. unfold handle_float. cbv zeta.
  assert (B1 : zbuilder (Builder (b_style b) (b_boxes b) (b_inlines b) (b_stack b) true) (Builder (b_style b') (b_boxes b') (b_inlines b') (b_stack b') true)).
  { destruct B; constructor; assumption. }
  rewrite (z_has_ongoing _ _ B1). destruct (has_ongoing_ifc (Builder (b_style b) _ _ _ _)).
  - apply zout_slot. eapply zout_bind; [exact R|]. intros c c' C. cbn [zout]. apply z_set_current; [exact B1|]. apply Forall2_app; [apply z_current, B1|].
    constructor; [constructor; assumption|constructor].
  - cbn [zout]. apply z_push_box; [exact B1|constructor; assumption].
Qed.
Lemma z_builder_new st st' : zst st st' -> zbuilder (builder_new st) (builder_new st').
Proof. intros H. constructor; [exact H|constructor..]. Qed.
Lemma z_handle_node n n' (H : zsnode n n') : forall p p' nx b b', zst p p' -> zbuilder b b' ->
  zout zbuilder (handle_node p n nx b) (handle_node p' n' nx b').
Proof.
  revert n n' H. fix IH 3. intros n n' H p p' nx b b' Hp B. destruct H as [t| |br st st' l l' Hs F]; cbn [handle_node].
  - apply z_handle_text; assumption.
  - exact B.
  - assert (T : forall c c', zbuilder c c' -> zout zbuilder (traverse_with (handle_node st) l c) (traverse_with (handle_node st') l' c')).
    { clear B b b'. induction F as [|x y l l' Hxy F IHF]; intros c c' C; cbn [traverse_with]; [exact C|].
      eapply zout_bind.
      - replace (match l' with [] => false | _ => true end) with (match l with [] => false | _ => true end) by (destruct F; reflexivity). exact (IH _ _ Hxy _ _ _ _ _ Hs C).
      - exact IHF. }
    assert (K : zout zcf (obind (traverse_with (handle_node st) l (builder_new st)) finish_container) (obind (traverse_with (handle_node st') l' (builder_new st')) finish_container)).
    { eapply zout_bind; [apply T, z_builder_new, Hs|]. exact z_finish_container. }
    assert (X : zout zbfc (obind (obind (traverse_with (handle_node st) l (builder_new st)) finish_container) (fun '(c, fl) => TreeModel.Done (BFC fl c)))
       (obind (obind (traverse_with (handle_node st') l' (builder_new st')) finish_container) (fun '(c, fl) => TreeModel.Done (BFC fl c)))).
    { eapply zout_bind; [exact K|]. intros [c fl] [c' fl'] [C E]. cbn in *. subst. constructor. exact C. }
    destruct br; [apply z_handle_text; assumption|].
    rewrite (z_sv st st' Ldisplay Hs), (z_sv st st' Lposition Hs), (z_sv st st' Lfloat Hs). cbn [zoom_value].
    destruct (sv st Ldisplay) as [| |[] ins].
    + destruct nx; [exact B|exact I].
    + apply T, B.
    + destruct ins; [|exact I]. apply zout_slot. eapply zout_bind; [apply T, z_push_inline; assumption|]. exact z_pop_inline.
    + destruct (is_absolutely_positioned _); [apply z_handle_abspos; assumption|]. destruct (is_floating _); [apply z_handle_float; assumption|].
      apply zout_slot. apply z_handle_block; assumption.
Qed.
Lemma z_construct_root st st' l l' : zst st st' -> Forall2 zsnode l l' -> zout zbfc (construct_root st l) (construct_root st' l').
Proof.
  intros H F. unfold construct_root. rewrite (z_sv st st' Ldisplay H), (z_sv st st' Lposition H), (z_sv st st' Lfloat H). cbn [zoom_value].
  assert (T : forall c c', zbuilder c c' -> zout zbuilder (traverse_with (handle_node st) l c) (traverse_with (handle_node st') l' c')).
  { induction F as [|x y l l' Hxy F IHF]; intros c c' C; cbn [traverse_with]; [exact C|]. eapply zout_bind; [|exact IHF].
    replace (match l' with [] => false | _ => true end) with (match l with [] => false | _ => true end) by (destruct F; reflexivity). exact (z_handle_node _ _ Hxy _ _ _ _ _ H C). }
  assert (K : zout zbfc (construct_bfc st l) (construct_bfc st' l')).
  { unfold construct_bfc, construct_container. eapply (zout_bind zcf).
    - eapply zout_bind; [apply T, z_builder_new, H|]. exact z_finish_container.
    - intros [c fl] [c' fl'] [C E]. cbn in *. subst. constructor. exact C. }
  assert (G : zout zbfc
    (obind (construct_bfc st l) (fun c => if is_absolutely_positioned (sv st Lposition) then TreeModel.Done (BFC false (BlockLevelBoxes [BAbspos st c]))
      else if is_floating (sv st Lfloat) then TreeModel.Done (BFC true (BlockLevelBoxes [BFloat st c])) else TreeModel.Done (BFC false (BlockLevelBoxes [Indep st c]))))
    (obind (construct_bfc st' l') (fun c => if is_absolutely_positioned (sv st Lposition) then TreeModel.Done (BFC false (BlockLevelBoxes [BAbspos st' c]))
      else if is_floating (sv st Lfloat) then TreeModel.Done (BFC true (BlockLevelBoxes [BFloat st' c])) else TreeModel.Done (BFC false (BlockLevelBoxes [Indep st' c]))))).
  { eapply zout_bind; [exact K|]. intros c c' C.
    destruct (is_absolutely_positioned _); [|destruct (is_floating _)]; cbn; do 2 constructor; (constructor; [constructor; assumption|constructor]). }
  destruct (sv st Ldisplay); [do 3 constructor|exact G|exact G].
Qed.

Section Document.
Variables style_of style_of' : DomModel.node_id -> option style -> style.
Hypothesis Hstyle : zoomed_styles k style_of style_of'.
Lemma z_styled d : forall t p p', zst p p' -> zsnode (styled style_of d p t) (styled style_of' d p' t).
Proof.
  fix IH 1. intros [i ts] p p' Hp. cbn [styled]. destruct (DomSpec.data_of d i) as [[]|]; try constructor.
  - apply Hstyle, Hp.
  - pose proof (proj2 (Hstyle i) p p' Hp) as Hs. clear Hp. induction ts as [|t ts IHt]; cbn [map]; constructor; [apply IH, Hs|exact IHt].
Qed.
Lemma z_construct_document d root : zout zbfc (construct_document style_of d root) (construct_document style_of' d root).
Proof.
  destruct root as [i ts]. cbn [construct_document]. pose proof (proj1 (Hstyle i)) as Hs. apply z_construct_root; [exact Hs|].
  induction ts as [|t ts IHt]; cbn [map]; constructor; [apply z_styled, Hs|exact IHt].
Qed.
Variables font_of font_of' : style -> font.
Hypothesis Hfont : zoomed_fonts k font_of font_of'.
Variables width_of width_of' : style -> text -> Len.
Hypothesis Hwidth : zoomed_widths k width_of width_of'.
Lemma z_drawing d root page :
  zcalls (fst (drawing_calls font_of width_of style_of d root page)) (fst (drawing_calls font_of' width_of' style_of' d root (zv page))) /\
  snd (drawing_calls font_of' width_of' style_of' d root (zv page)) = snd (drawing_calls font_of width_of style_of d root page).
Proof.
  unfold drawing_calls. pose proof (z_construct_document d root) as C.
  destruct (construct_document style_of d root) as [bx| |], (construct_document style_of' d root) as [bx'| |]; try (exfalso; exact C); try (split; [constructor|reflexivity]).
  assert (Pa : forall s s', zst s s' -> f_ascent (font_of' s') = k * f_ascent (font_of s)) by (intros s s' H; apply (Hfont s s' H)).
  assert (Pd : forall s s', zst s s' -> f_descent (font_of' s') = k * f_descent (font_of s)) by (intros s s' H; apply (Hfont s s' H)).
  pose proof (z_layout_root (fun s => f_ascent (font_of s)) (fun s => f_ascent (font_of' s)) (fun s => f_descent (font_of s)) (fun s => f_descent (font_of' s)) width_of width_of' Pa Pd Hwidth _ _ page C) as L.
  destruct (layout_root _ _ width_of bx page) as [fs| |], (layout_root _ _ width_of' bx' (zv page)) as [fs'| |]; try (exfalso; exact L); try (split; [constructor|reflexivity]).
  pose proof (z_paint_page font_of font_of' Hfont fs fs' page L) as P.
  destruct (paint_page font_of fs page), (paint_page font_of' fs' (zv page)); try (exfalso; exact P); (split; [|reflexivity]); [exact P|constructor|constructor].
Qed.
End Document.

End Zoom.
