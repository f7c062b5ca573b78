(** Construction, layout and painting treat all letters alike (proofs for C101).  As in RecolorProofs, with texts that are
    not equal but written in other letters. *)
From Verif Require Import Base CStrModel Len GeomModel StyleModel GfxModel InlineModel BlockModel TreeModel PaintModel UnsetModel InlineWrap LetterSpec.
Local Open Scope len_scope.
Local Open Scope list_scope.
Local Open Scope result_scope.

Section Any.
Context {ar : Arith}.
Variable re : char -> char.
Hypothesis Hf0 : keeps_special re.
(** the styles are the same *)
Notation zst := (@eq style).
Lemma z_sv_ (s s' : style) l : zst s s' -> true = true -> sv s' l = sv s l. Proof. intros -> _. reflexivity. Qed.
Lemma z_disp (s s' : style) : zst s s' -> s_specified_display s' = s_specified_display s. Proof. intros ->. reflexivity. Qed.
Lemma z_anonymous (s s' : style) : zst s s' -> zst (anonymous_inheriting_from (Some s)) (anonymous_inheriting_from (Some s')). Proof. intros ->. reflexivity. Qed.

(* ------------------------------------------------------------------ *)
(** * Characters *)
Lemma special_eqb k c : special k -> N.eqb (re c) k = N.eqb c k.
Proof.
  intros K. destruct (Hf0 c) as [A B]. destruct (in_dec N.eq_dec c [9; 10; 12; 13; 32; 45]%N) as [I|I]; [rewrite (A I); reflexivity|].
  specialize (B I). destruct (N.eqb_spec c k) as [->|_]; [contradiction|]. destruct (N.eqb_spec (re c) k) as [E|_]; [|reflexivity]. rewrite E in B. contradiction.
Qed.
Ltac spec := first [apply special_eqb; unfold special; cbn; tauto].
Lemma f_sp c : N.eqb (re c) sp = N.eqb c sp. Proof. spec. Qed.
Lemma f_nl c : N.eqb (re c) nl = N.eqb c nl. Proof. spec. Qed.
Lemma f_hy c : N.eqb (re c) hyphen = N.eqb c hyphen. Proof. spec. Qed.
Lemma f_break c : is_break_char (re c) = is_break_char c.
Proof. unfold is_break_char. rewrite f_sp, f_nl, f_hy. reflexivity. Qed.
Lemma f_ws c : ascii_ws (re c) = ascii_ws c.
Proof. unfold ascii_ws. rewrite !special_eqb by (unfold special; cbn; tauto). reflexivity. Qed.
Lemma f_32 : re 32%N = 32%N. Proof. apply Hf0. unfold special; cbn; tauto. Qed.
Lemma f_nl_ : re nl = nl. Proof. apply Hf0. unfold special; cbn; tauto. Qed.
Lemma f_trim p t : (forall c, p (re c) = p c) -> trim_start p (map re t) = map re (trim_start p t).
Proof. intros P. induction t as [|c t IH]; [reflexivity|]. cbn [map trim_start]. rewrite P. destruct (p c); [exact IH|reflexivity]. Qed.
Lemma f_split p t : (forall c, p (re c) = p c) -> split_first p (map re t) = option_map (fun x => (map re (fst x), map re (snd x))) (split_first p t).
Proof.
  intros P. induction t as [|c t IH]; [reflexivity|]. cbn [map split_first]. rewrite P. destruct (p c); [reflexivity|]. rewrite IH. destruct (split_first p t) as [[a b]|]; reflexivity.
Qed.
Lemma f_collapse n : forall t, collapse_loop n (map re t) = option_map (map re) (collapse_loop n t).
Proof.
  induction n as [|n IH]; intros t; [reflexivity|]. cbn [collapse_loop]. rewrite (f_split ascii_ws t f_ws). destruct (split_first ascii_ws t) as [[a r]|]; cbn [option_map fst snd]; [|reflexivity].
  rewrite (f_split (fun c => negb (ascii_ws c)) r) by (intros c; rewrite f_ws; reflexivity). destruct (split_first (fun c => negb (ascii_ws c)) r) as [[b q]|]; cbn [option_map fst snd].
  - rewrite IH. destruct (collapse_loop n q); cbn [option_map]; [|reflexivity]. rewrite map_app. cbn [map]. rewrite f_32. reflexivity.
  - rewrite map_app. cbn [map]. rewrite f_32. reflexivity.
Qed.
Lemma f_ends t : ends_with_space_or_nl (map re t) = ends_with_space_or_nl t.
Proof. unfold ends_with_space_or_nl. rewrite <- map_rev. destruct (rev t) as [|c r]; cbn [map]; [reflexivity|]. rewrite !special_eqb by (unfold special; cbn; tauto). reflexivity. Qed.
(** segments *)
Definition zseg (s s' : segment) : Prop := s' = Seg (map re (seg_glyphs s)) (seg_width s).
Lemma zseg_new : zseg seg_new seg_new. Proof. reflexivity. Qed.
Lemma zseg_append s s' c : zseg s s' -> zseg (seg_append_char s c) (seg_append_char s' (re c)).
Proof. intros ->. unfold zseg, seg_append_char. cbn [seg_glyphs seg_width]. rewrite map_app. reflexivity. Qed.
Lemma zseg_strip s s' : zseg s s' -> zseg (seg_strip_space s) (seg_strip_space s').
Proof.
  intros ->. unfold zseg, seg_strip_space. cbn [seg_glyphs seg_width]. rewrite <- map_rev. destruct (rev (seg_glyphs s)) as [|c r] eqn:E; cbn [map]; [reflexivity|].
  rewrite f_sp. destruct (N.eqb c sp); [|reflexivity]. cbn [seg_glyphs seg_width]. rewrite map_rev. reflexivity.
Qed.
Lemma zseg_empty s s' : zseg s s' -> seg_empty s' = seg_empty s.
Proof.
  intros ->. pose proof (seg_empty_iff s) as A. pose proof (seg_empty_iff (Seg (map re (seg_glyphs s)) (seg_width s))) as B. cbn [seg_glyphs] in B.
  destruct (seg_empty s).
  - apply B. rewrite (proj1 A eq_refl). reflexivity.
  - destruct (seg_empty (Seg _ _)); [|reflexivity]. symmetry. apply A. pose proof (proj1 B eq_refl) as M. destruct (seg_glyphs s); [reflexivity|discriminate M].
Qed.

(* ------------------------------------------------------------------ *)
(** * Styles *)
Lemma z_padding s s' : zst s s' -> style_padding s' = style_padding s.
Proof. intros H. unfold style_padding; cbn. rewrite !(z_sv_ s s' _ H) by reflexivity. reflexivity. Qed.
Lemma z_border s s' : zst s s' -> style_border_width s' = style_border_width s.
Proof. intros H. unfold style_border_width; cbn. rewrite !(z_sv_ s s' _ H) by reflexivity. reflexivity. Qed.
Lemma z_margin s s' : zst s s' -> style_margin s' = style_margin s.
Proof. intros H. unfold style_margin; cbn. rewrite !(z_sv_ s s' _ H) by reflexivity. reflexivity. Qed.
Lemma z_offsets s s' : zst s s' -> box_offsets s' = box_offsets s.
Proof. intros H. unfold box_offsets; cbn. rewrite !(z_sv_ s s' _ H) by reflexivity. reflexivity. Qed.
Lemma z_size s s' : zst s s' -> box_size s' = box_size s.
Proof. intros H. unfold box_size; cbn. rewrite !(z_sv_ s s' _ H) by reflexivity. reflexivity. Qed.
Lemma z_relative s s' i b : zst s s' -> relative_adjustement s' i b = relative_adjustement s i b.
Proof. intros H. unfold relative_adjustement. rewrite (z_sv_ s s' Lposition H), (z_offsets s s' H) by reflexivity. reflexivity. Qed.

(* ------------------------------------------------------------------ *)
(** * Fragments and results *)
Inductive zfrag : fragment -> fragment -> Prop :=
| ZFBox st st' ch ch' r p b m c : zst st st' -> Forall2 zfrag ch ch' ->
    zfrag (FBox st ch r p b m c) (FBox st' ch' (r) (p) (b) (m) (c))
| ZFAnon r ch ch' : Forall2 zfrag ch ch' -> zfrag (FAnon r ch) (FAnon (r) ch')
| ZFText st st' r fo fo' sg sg' : zst st st' -> zst fo fo' -> zseg sg sg' -> zfrag (FText st r fo sg) (FText st' (r) fo' sg').
Notation zfrags := (Forall2 zfrag).

Definition zres {A B} (R : A -> B -> Prop) (r : result A) (r' : result B) : Prop :=
  match r, r' with Ok a, Ok b => R a b | Panic, Panic => True | OutOfFuel, OutOfFuel => True | _, _ => False end.
Lemma zres_bind {A B C D} (R : A -> B -> Prop) (Q : C -> D -> Prop) r r' f f' :
  zres R r r' -> (forall a b, R a b -> zres Q (f a) (f' b)) -> zres Q (bind r f) (bind r' f').
Proof. destruct r, r'; cbn; try tauto. auto. Qed.
Lemma zres_mapR {A B C D} (R : A -> B -> Prop) (Q : C -> D -> Prop) f f' l l' :
  Forall2 R l l' -> (forall a b, R a b -> zres Q (f a) (f' b)) -> zres (Forall2 Q) (mapR f l) (mapR f' l').
Proof.
  intros H Hf. induction H as [|a b l l' Hab _ IH]; cbn; [constructor|].
  eapply zres_bind; [apply Hf, Hab|]. intros x y Hxy. eapply zres_bind; [apply IH|]. intros xs ys Hs. cbn. constructor; assumption.
Qed.

Definition zlay (lay lay' : offsets -> offsets -> vec2 Len -> result fragment) : Prop :=
  forall i b size, zres zfrag (lay i b size) (lay' (i) (b) (size)).
Definition zabs (a a' : abs_frag) : Prop :=
  zst (af_style a) (af_style a') /\ af_rank a' = af_rank a /\ af_inline a' = (af_inline a) /\
  af_block a' = (af_block a) /\ zlay (af_layout a) (af_layout a').
Notation zabss := (Forall2 zabs).
Definition zflow (f f' : flow) : Prop :=
  zfrags (fl_fragments f) (fl_fragments f') /\ fl_block_size f' = fl_block_size f /\ fl_margins f' = (fl_margins f).
Definition zfa (x y : flow * list abs_frag) : Prop := zflow (fst x) (fst y) /\ zabss (snd x) (snd y).


Lemma z_abs_box st st' lay lay' c rank : zst st st' -> zlay lay lay' ->
  zabs (abs_box_layout st lay c rank) (abs_box_layout st' lay' c rank).
Proof.
  intros H L. unfold abs_box_layout, zabs; cbn [af_style af_rank af_inline af_block af_layout].
  rewrite (z_offsets st st' H). auto.
Qed.
Lemma z_translate d f f' : zfrag f f' -> zfrag (translate_block d f) (translate_block d f').
Proof. intros H. destruct H; cbn; constructor; assumption. Qed.
Lemma z_no_op : zfrag anon_no_op anon_no_op.
Proof. unfold anon_no_op. constructor. constructor. Qed.

(* ------------------------------------------------------------------ *)
(** * Inline layout *)
Section Metrics.
Variables m_a m_d : style -> Len.
Variables m_w : style -> text -> Len.
Hypothesis Ha : forall s s', zst s s' -> m_a s' = m_a s.
Hypothesis Hd : forall s s', zst s s' -> m_d s' = m_d s.
Hypothesis Hw : forall s t, m_w s (map re t) = m_w s t.
Lemma zseg_advance fo s s' : zseg s s' -> fst (seg_advance (m_w fo) s') = fst (seg_advance (m_w fo) s) /\ zseg (snd (seg_advance (m_w fo) s)) (snd (seg_advance (m_w fo) s')).
Proof. intros ->. unfold zseg, seg_advance. cbn [seg_width seg_glyphs]. destruct (seg_width s) eqn:E; cbn; [rewrite E; split; reflexivity|]. rewrite Hw. split; reflexivity. Qed.

Definition zlevel (l l' : level) : Prop :=
  exists fs', zfrags (lv_fragments l) fs' /\
    l' = Level fs' (lv_inline_start l) (lv_ascent l) (lv_descent l) (lv_ex l) (lv_baseline l)
           (lv_max_ascent l) (lv_max_descent l).
Definition zpartial (p p' : partial) : Prop :=
  exists st' par', zst (pt_style p) st' /\ zlevel (pt_parent p) par' /\
    p' = Partial st' ((pt_start p)) ((pt_padding p)) ((pt_border p)) ((pt_margin p))
           (pt_ascent p) (pt_descent p) (pt_last p) par'.
Definition zlines (l l' : lines) : Prop := exists bs', zfrags (ln_boxes l) bs' /\ l' = Lines bs' (ln_next l).
Definition zifc (s s' : ifc) : Prop :=
  exists ls' stk' cur' abs', zlines (is_lines s) ls' /\ Forall2 zpartial (is_stack s) stk' /\ zlevel (is_cur s) cur' /\
    zabss (is_abs s) abs' /\ s' = Ifc ls' (is_pos s) stk' cur' abs'.

Lemma z_ex s s' : zst s s' -> font_ex s' = font_ex s.
Proof. intros H. unfold font_ex. rewrite (z_sv_ s s' Lfont_size H) by reflexivity. reflexivity. Qed.
Lemma z_line_height s s' : zst s s' -> line_height s' = line_height s.
Proof. intros H. unfold line_height. rewrite (z_sv_ s s' Lfont_size H), (z_sv_ s s' Lline_height H) by reflexivity. reflexivity. Qed.
Lemma z_lad s s' f f' : zst s s' -> zst f f' -> line_ascent_descent m_a m_d s' f' = line_ascent_descent m_a m_d s f.
Proof. intros H Hf. unfold line_ascent_descent. rewrite (z_line_height s s' H), (Ha f f' Hf), (Hd f f' Hf). reflexivity. Qed.
Lemma z_shift_ s s' a d l l' : zst s s' -> zlevel l l' -> baseline_shift s' a d l' = baseline_shift s a d l.
Proof.
  intros H (fs' & _ & ->). unfold baseline_shift. rewrite (z_sv_ s s' Lvertical_align H), (z_line_height s s' H) by reflexivity. reflexivity.
Qed.
Lemma z_push l l' f f' : zlevel l l' -> zfrag f f' -> zlevel (push_fragment l f) (push_fragment l' f').
Proof. intros (fs & F & ->) Hf. exists (fs ++ [f']). split; [apply Forall2_app; [exact F|repeat constructor; exact Hf]|reflexivity]. Qed.
Lemma z_max_assign l l' a d : zlevel l l' -> zlevel (max_assign l a d) (max_assign l' a d).
Proof. intros (fs & F & ->). exists fs. split; [exact F|reflexivity]. Qed.
Lemma z_level_next l l' : zlevel l l' -> zlevel (level_next_line l) (level_next_line l').
Proof. intros (fs & F & ->). exists []. split; [constructor|reflexivity]. Qed.
Lemma z_finish_layout p p' l l' pos b : zpartial p p' -> zlevel l l' ->
  zpartial (fst (finish_layout p l pos b)) (fst (finish_layout p' l' pos b)) /\
  snd (finish_layout p' l' pos b) = snd (finish_layout p l pos b).
Proof.
  intros (st' & par' & Hs & (pf & PF & ->) & ->) (fs & F & ->). unfold finish_layout; cbn [fst snd pt_style pt_start pt_padding pt_border pt_margin pt_ascent pt_descent pt_last pt_parent].
  split; [|reflexivity]. eexists _, _. split; [exact Hs|]. split; [|reflexivity]. cbn [pt_parent].
  apply z_push.
  - cbn [lv_max_ascent lv_max_descent]. apply z_max_assign. exists pf. split; [exact PF|reflexivity].
  - cbn [lv_fragments lv_ascent lv_inline_start]. constructor; assumption.
Qed.
Lemma z_lines ls ls' top top' w pos ta : zlines ls ls' -> zlevel top top' ->
  zlines (lines_finish ls top w pos ta) (lines_finish ls' top' w pos ta).
Proof.
  intros (bs & B & ->) (fs & F & ->). unfold lines_finish; cbn [ln_boxes ln_next lv_max_ascent lv_max_descent lv_ascent lv_fragments v_block].
  eexists. split; [|reflexivity]. cbn [ln_boxes]. apply Forall2_app; [exact B|]. constructor; [|constructor].
  constructor. induction F; cbn; constructor; [apply z_translate; assumption|assumption].
Qed.
Lemma z_next_line p p' : zpartial p p' -> zpartial (partial_next_line p) (partial_next_line p').
Proof. intros (st' & par' & Hs & Hp & ->). exists st', par'. split; [exact Hs|]. split; [exact Hp|reflexivity]. Qed.
Lemma z_partial_parent p p' l l' : zpartial p p' -> zlevel l l' ->
  zpartial (Partial (pt_style p) (pt_start p) (pt_padding p) (pt_border p) (pt_margin p) (pt_ascent p) (pt_descent p) (pt_last p) l)
    (Partial (pt_style p') (pt_start p') (pt_padding p') (pt_border p') (pt_margin p') (pt_ascent p') (pt_descent p') (pt_last p') l').
Proof. intros (st' & par' & Hs & Hp & ->) L. exists st', l'. split; [exact Hs|]. split; [exact L|reflexivity]. Qed.
Lemma z_parent p p' : zpartial p p' -> zlevel (pt_parent p) (pt_parent p').
Proof. intros (st' & par' & Hs & Hp & ->). exact Hp. Qed.
Lemma z_finish_partials stk stk' : Forall2 zpartial stk stk' -> forall l l' pos, zlevel l l' ->
  let x := finish_partials stk l pos in let y := finish_partials stk' l' (pos) in
  Forall2 zpartial (fst (fst x)) (fst (fst y)) /\ zlevel (snd (fst x)) (snd (fst y)) /\ snd y = snd x.
Proof.
  induction 1 as [|p p' stk stk' Hp _ IH]; intros l l' pos L; cbn [finish_partials]; cbv zeta.
  - split; [constructor|]. split; [exact L|reflexivity].
  - destruct (z_finish_layout p p' l l' pos true Hp L) as [P1 P2].
    destruct (finish_layout p l pos true) as [p1 pos1], (finish_layout p' l' (pos) true) as [p1' pos1']. cbn [fst snd] in *. subst pos1'.
    specialize (IH _ _ pos1 (z_parent _ _ P1)). cbv zeta in IH.
    destruct (finish_partials stk (pt_parent p1) pos1) as [[r t] q], (finish_partials stk' (pt_parent p1') (pos1)) as [[r' t'] q'].
    cbn [fst snd] in *. destruct IH as (I1 & I2 & I3). split; [|split; assumption]. constructor; [|exact I1].
    exact (z_partial_parent _ _ _ _ (z_next_line _ _ P1) (z_level_next _ _ (z_parent _ _ P1))).
Qed.
Lemma z_finish_line cb ta s s' : zifc s s' -> zifc (finish_line cb ta s) (finish_line cb ta s').
Proof.
  intros (ls & stk & cur & abs & L & K & C & A & ->). unfold finish_line. cbn [is_lines is_pos is_stack is_cur is_abs].
  pose proof (z_finish_partials _ _ K _ _ (is_pos s) C) as P. cbv zeta in P.
  destruct (finish_partials (is_stack s) (is_cur s) (is_pos s)) as [[r t] q], (finish_partials stk cur (is_pos s)) as [[r' t'] q'].
  cbn [fst snd] in P. destruct P as (P1 & P2 & ->).
  eexists _, _, _, _. cbn [is_lines is_pos is_stack is_cur is_abs]. split; [apply z_lines; eassumption|]. split; [exact P1|].
  split; [apply z_level_next; exact C|]. split; [exact A|]. reflexivity.
Qed.
Lemma z_start_layout cb st st' fi la_ s s' : zst st st' -> zifc s s' ->
  zifc (start_layout m_a m_d cb st fi la_ s) (start_layout m_a m_d cb st' fi la_ s').
Proof.
  intros H (ls & stk & cur & abs & L & K & C & A & ->). unfold start_layout. cbn [is_lines is_pos is_stack is_cur is_abs cb_inline cb_block].
  rewrite (Ha st st' H), (Hd st st' H), (z_padding st st' H), (z_border st st' H), (z_margin st st' H).
  rewrite (z_shift_ st st' (m_a st) (m_d st) (is_cur s) cur H C), (z_relative st st' (cb_inline cb) (cb_block cb) H), (z_ex st st' H).
  destruct C as (cf & CF & ->). cbn [lv_inline_start lv_baseline].
  eexists _, _, _, _. cbn [is_lines is_pos is_stack is_cur is_abs]. split; [exact L|]. split; [|split; [|split; [exact A|reflexivity]]].
  - constructor; [|exact K]. eexists _, _. cbn [pt_style pt_start pt_padding pt_border pt_margin pt_ascent pt_descent pt_last pt_parent].
    split; [exact H|]. split; [exists cf; split; [exact CF|reflexivity]|]. reflexivity.
  - exists []. split; [constructor|]. reflexivity.
Qed.
Lemma z_add_text st st' fo fo' sg sg' n s s' : zst st st' -> zst fo fo' -> zseg sg sg' -> zifc s s' ->
  zifc (add_text m_a m_d m_w st fo sg n s) (add_text m_a m_d m_w st' fo' sg' n s').
Proof.
  intros H Hf Hg (ls & stk & cur & abs & L & K & C & A & ->). unfold add_text. subst st' fo'.
  destruct (zseg_advance fo sg sg' Hg) as [W G].
  destruct (seg_advance (m_w fo) sg) as [w sg1], (seg_advance (m_w fo) sg') as [w' sg1'], (line_ascent_descent m_a m_d st fo) as [a d]. cbn [fst snd] in *. subst w'.
  cbn [is_lines is_pos is_stack is_cur is_abs]. rewrite (zseg_empty _ _ G).
  assert (M : zlevel (max_assign (is_cur s) (a - lv_baseline (is_cur s)) (d + lv_baseline (is_cur s)))
                     (max_assign cur (a - lv_baseline cur) (d + lv_baseline cur))).
  { replace (lv_baseline cur) with (lv_baseline (is_cur s)) by (destruct C as (cf & CF & ->); reflexivity).
    apply z_max_assign, C. }
  assert (M2 : zlevel (if negb (seg_empty sg1) || n then max_assign (is_cur s) (a - lv_baseline (is_cur s)) (d + lv_baseline (is_cur s)) else is_cur s)
     (if negb (seg_empty sg1) || n then max_assign cur (a - lv_baseline cur) (d + lv_baseline cur) else cur)).
  { destruct (negb (seg_empty sg1) || n); assumption. }
  destruct (negb (seg_empty sg1)).
  - eexists _, _, _, _. cbn [is_lines is_pos is_stack is_cur is_abs]. split; [exact L|]. split; [exact K|]. split; [|split; [exact A|reflexivity]].
    apply z_push; [exact M2|].
    match goal with |- zfrag (FText _ ?r _ _) (FText _ ?r' _ _) => assert (E : r' = r) end.
    { destruct C as (cf & CF & ->). reflexivity. }
    rewrite E. constructor; auto.
  - eexists _, _, _, _. unfold set_cur. cbn [is_lines is_pos is_stack is_cur is_abs]. split; [exact L|]. split; [exact K|]. split; [exact M2|]. split; [exact A|reflexivity].
Qed.
(** a break opportunity: the text before it is the beginning of the text so far *)
Definition zlb (sg : segment) (lb lb' : option (seg_state * text)) : Prop :=
  match lb, lb' with
  | None, None => True
  | Some (x, it), Some (x', it') => it' = map re it /\ exists p q, seg_glyphs sg = p ++ q /\ ss_glyphs x = str_len p /\ ss_glyphs x' = str_len (map re p) /\ ss_width x' = ss_width x
  | _, _ => False
  end.
Lemma zlb_save sg sg' it : zseg sg sg' -> zlb sg (Some (seg_save sg, it)) (Some (seg_save sg', map re it)).
Proof. intros ->. split; [reflexivity|]. exists (seg_glyphs sg), []. rewrite app_nil_r. repeat split. Qed.
Lemma zlb_more sg c lb lb' : zlb sg lb lb' -> zlb (seg_append_char sg c) lb lb'.
Proof.
  destruct lb as [[x it]|], lb' as [[x' it']|]; cbn; try tauto. intros (E & p & q & G & A). split; [exact E|]. exists p, (q ++ [c]). rewrite G, <- app_assoc. split; [reflexivity|exact A].
Qed.
Definition zline (x y : segment * text * bool) : Prop := zseg (fst (fst x)) (fst (fst y)) /\ snd (fst y) = map re (snd (fst x)) /\ snd y = snd x.
Lemma z_break_here sg sg' rest lb lb' : zseg sg sg' -> zlb sg lb lb' -> zres zline (break_here sg rest lb) (break_here sg' (map re rest) lb').
Proof.
  intros Hg L. unfold break_here. destruct lb as [[x it]|], lb' as [[x' it']|]; cbn in L; try contradiction; [|cbn; repeat split; assumption].
  destruct L as (-> & p & q & G & A & B & W). rewrite Hg. unfold seg_restore. cbn [seg_glyphs]. rewrite A, B, G, map_app, !str_truncate_app. cbn. split; [|split; reflexivity].
  cbn. rewrite W. reflexivity.
Qed.
Lemma glyphs_advance fo sg : seg_glyphs (snd (seg_advance (m_w fo) sg)) = seg_glyphs sg.
Proof. unfold seg_advance. destruct (seg_width sg); reflexivity. Qed.
Lemma zlb_glyphs sg sg1 lb lb' : seg_glyphs sg1 = seg_glyphs sg -> zlb sg lb lb' -> zlb sg1 lb lb'.
Proof. intros E. unfold zlb. rewrite E. auto. Qed.
Lemma z_wrap_line fo av : forall chars sg sg' lb lb', zseg sg sg' -> zlb sg lb lb' ->
  zres zline (wrap_line m_w fo av chars sg lb) (wrap_line m_w fo av (map re chars) sg' lb').
Proof.
  induction chars as [|ch rest IH]; intros sg sg' lb lb' Hg L; cbn [wrap_line map];
    destruct (zseg_advance fo sg sg' Hg) as [W G]; pose proof (zlb_glyphs _ _ _ _ (glyphs_advance fo sg) L) as L1.
  - destruct (seg_advance (m_w fo) sg) as [w sg1], (seg_advance (m_w fo) sg') as [w' sg1']. cbn [fst snd] in *. subst w'.
    destruct (lltb av w); [exact (z_break_here sg1 sg1' [] lb lb' G L1)|cbn; repeat split; exact G].
  - rewrite f_break, f_nl, f_sp, f_hy.
    assert (X : exists over sg1 sg1', zseg sg1 sg1' /\ zlb sg1 lb lb' /\
      (if is_break_char ch then let '(w, sh) := seg_advance (m_w fo) sg in (lltb av w, sh) else (false, sg)) = (over, sg1) /\
      (if is_break_char ch then let '(w, sh) := seg_advance (m_w fo) sg' in (lltb av w, sh) else (false, sg')) = (over, sg1')).
    { destruct (seg_advance (m_w fo) sg) as [w sg1], (seg_advance (m_w fo) sg') as [w' sg1']. cbn [fst snd] in *. subst w'. destruct (is_break_char ch); do 3 eexists; (split; [|split; [|split; reflexivity]]); assumption. }
    destruct X as (over & sg1 & sg1' & G1 & L2 & -> & ->). destruct over; [apply z_break_here; assumption|].
    destruct (N.eqb ch nl); [cbn; repeat split; apply zseg_strip; exact G1|].
    apply IH; [apply zseg_append, G1|].
    destruct (N.eqb ch hyphen); [apply zlb_save, zseg_append, G1|]. apply zlb_more. destruct (N.eqb ch sp); [apply zlb_save, G1|exact L2].
Qed.
Lemma z_pos s s' : zifc s s' -> is_pos s' = is_pos s.
Proof. intros (? & ? & ? & ? & _ & _ & _ & _ & ->). reflexivity. Qed.
Lemma empty_map (t : text) : match map re t with [] => true | _ => false end = match t with [] => true | _ => false end.
Proof. destruct t; reflexivity. Qed.
Lemma z_wrap_loop cb ta st fo : forall fuel chars sg sg' lb lb' s s', zseg sg sg' -> zlb sg lb lb' -> zifc s s' ->
  zres zifc (wrap_loop m_a m_d m_w fuel cb ta st fo chars sg lb s) (wrap_loop m_a m_d m_w fuel cb ta st fo (map re chars) sg' lb' s').
Proof.
  induction fuel as [|fuel IH]; intros chars sg sg' lb lb' s s' Hg L Hs; cbn [wrap_loop]; [exact I|].
  rewrite (z_pos _ _ Hs). eapply (zres_bind zline); [apply z_wrap_line; assumption|].
  intros [[sg1 ch1] n1] [[sg1' ch1'] n1'] (G & E & N). cbn [fst snd] in G, E, N. subst ch1' n1'.
  pose proof (z_add_text st st fo fo sg1 sg1' n1 s s' eq_refl eq_refl G Hs) as T. rewrite empty_map.
  destruct (negb _ || n1); [|exact T]. rewrite (zseg_empty _ _ G).
  apply IH; [destruct (seg_empty sg1); [apply zseg_advance, G|reflexivity]|exact I|]. exact (z_finish_line cb ta _ _ T).
Qed.
Lemma z_nowrap_line : forall chars sg sg', zseg sg sg' -> zline (nowrap_line chars sg) (nowrap_line (map re chars) sg').
Proof.
  induction chars as [|ch rest IH]; intros sg sg' G; cbn [nowrap_line map]; [repeat split; exact G|]. rewrite f_nl.
  destruct (N.eqb ch nl); [repeat split; exact G|]. apply IH, zseg_append, G.
Qed.
Lemma z_nowrap_loop cb ta st fo : forall fuel chars s s', zifc s s' ->
  zres zifc (nowrap_loop m_a m_d m_w fuel cb ta st fo chars s) (nowrap_loop m_a m_d m_w fuel cb ta st fo (map re chars) s').
Proof.
  induction fuel as [|fuel IH]; intros chars s s' Hs; cbn [nowrap_loop]; [exact I|].
  pose proof (z_nowrap_line chars seg_new seg_new zseg_new) as G.
  destruct (nowrap_line chars seg_new) as [[sg1 ch1] n1], (nowrap_line (map re chars) seg_new) as [[sg1' ch1'] n1']. destruct G as (G & E & N). cbn [fst snd] in G, E, N. subst ch1' n1'.
  pose proof (z_add_text st st fo fo sg1 sg1' n1 s s' eq_refl eq_refl G Hs) as T. rewrite empty_map.
  destruct (negb _ || n1); [|exact T]. apply IH. exact (z_finish_line cb ta _ _ T).
Qed.
Lemma z_text_run cb ta st st' fo fo' t s s' : zst st st' -> zst fo fo' -> zifc s s' ->
  zres zifc (text_run_layout m_a m_d m_w cb ta st fo t s) (text_run_layout m_a m_d m_w cb ta st' fo' (map re t) s').
Proof.
  intros <- <- Hs. unfold text_run_layout, layout_wrap. rewrite map_length.
  destruct (sv st Lwhite_space); first [apply z_nowrap_loop; assumption | apply z_wrap_loop; [reflexivity|apply zlb_save; reflexivity|exact Hs]].
Qed.

Inductive zilb {C D} (R : style -> style -> C -> D -> Prop) : ilb C -> ilb D -> Prop :=
| ZInline st st' fi la_ ch ch' : zst st st' -> Forall2 (zilb R) ch ch' -> zilb R (InlineBox st fi la_ ch) (InlineBox st' fi la_ ch')
| ZRun st st' t fo fo' : zst st st' -> zst fo fo' -> zilb R (TextRun st t fo) (TextRun st' (map re t) fo')
| ZIAbs st st' c c' : zst st st' -> R st st' c c' -> zilb R (IAbspos st c) (IAbspos st' c')
| ZIFloat st st' c c' : zst st st' -> R st st' c c' -> zilb R (IFloat st c) (IFloat st' c').
Lemma z_steps {C D} (R : style -> style -> C -> D -> Prop) : forall b b', zilb R b b' -> ilb_steps b' = ilb_steps b.
Proof.
  fix IH 3. intros b b' H. destruct H as [st st' fi la_ ch ch' Hs F| | |]; try reflexivity. cbn. do 3 f_equal.
  induction F as [|x y l l' Hxy F IHF]; [reflexivity|]. cbn. f_equal; [exact (IH _ _ Hxy)|exact IHF].
Qed.
Definition zlays (st st' : style) (l l' : abs_lay) : Prop := zlay l l'.

Lemma z_ifc_loop cb ta rank : forall fuel rems rems' s s', Forall2 (Forall2 (zilb zlays)) rems rems' -> zifc s s' ->
  zres zifc (ifc_loop m_a m_d m_w fuel cb ta rank rems s) (ifc_loop m_a m_d m_w fuel (cb) ta rank rems' s').
Proof.
  induction fuel as [|fuel IH]; intros rems rems' s s' HR Hs; cbn [ifc_loop]; [exact I|].
  assert (T : Forall2 (Forall2 (zilb zlays)) (tl rems) (tl rems')) by (destruct HR; [constructor|assumption]).
  assert (Hh : Forall2 (zilb zlays) (hd [] rems) (hd [] rems')) by (destruct HR; [constructor|assumption]).
  destruct Hh as [|child child' rest rest' Hc Hr].
  - pose proof Hs as (ls & stk & cur & abs & L & K & C & A & E). rewrite E. cbn [is_stack is_cur is_pos is_lines is_abs].
    destruct K as [|p p' stk0 stk0' Hp Hk']; [rewrite <- E; exact (z_finish_line cb ta _ _ Hs)|].
    destruct (z_finish_layout p p' _ _ (is_pos s) false Hp C) as [P1 P2].
    destruct (finish_layout p (is_cur s) (is_pos s) false) as [p1 pos1], (finish_layout p' cur (is_pos s) false) as [p1' pos1']. cbn [fst snd] in *. subst pos1'.
    apply IH; [exact T|]. eexists _, _, _, _. cbn [is_lines is_pos is_stack is_cur is_abs].
    split; [exact L|]. split; [exact Hk'|]. split; [exact (z_parent _ _ P1)|]. split; [exact A|reflexivity].
  - destruct Hc as [st st' fi la_ ch ch' H F|st st' t fo fo' H Hf|st st' lay lay' H HL|st st' lay lay' H HL].
    + apply IH; [constructor; [exact F|constructor; assumption]|]. apply z_start_layout; assumption.
    + eapply zres_bind; [apply z_text_run; eassumption|]. intros a b Hab. apply IH; [constructor; assumption|exact Hab].
    + eapply (zres_bind (fun c c' => c' = c)).
      * unfold inline_static_corner. rewrite (z_disp _ _ H). destruct Hs as (ls & stk & cur & abs & (bs & B & ->) & K & C & A & ->).
        destruct (s_specified_display st) as [| |[] ?]; cbn; try exact I; reflexivity.
      * intros c c' ->. apply IH; [constructor; assumption|].
        destruct Hs as (ls & stk & cur & abs & L & K & C & A & ->). unfold push_abs. eexists _, _, _, _. cbn [is_lines is_pos is_stack is_cur is_abs].
        split; [exact L|]. split; [exact K|]. split; [exact C|]. split; [|reflexivity]. apply Forall2_app; [exact A|]. constructor; [|constructor]. apply z_abs_box; assumption.
    + apply IH; [constructor; assumption|exact Hs].
Qed.
Lemma z_ifc_layout par par' boxes boxes' cb rank abs abs' : zst par par' -> Forall2 (zilb zlays) boxes boxes' -> zabss abs abs' ->
  zres zfa (ifc_layout m_a m_d m_w par boxes cb rank abs) (ifc_layout m_a m_d m_w par' boxes' (cb) rank abs').
Proof.
  intros H F A. unfold ifc_layout. rewrite (z_sv_ par par' Ltext_align H) by reflexivity.
  assert (E : boxes_steps boxes' = boxes_steps boxes).
  { unfold boxes_steps. f_equal. induction F; cbn; f_equal; [eapply z_steps; eassumption|assumption]. }
  rewrite E. eapply zres_bind; [apply z_ifc_loop; [constructor; [exact F|constructor]|]|].
  - unfold ifc_start. eexists _, _, _, _. cbn [is_lines is_pos is_stack is_cur is_abs].
    split; [exists []; split; [constructor|]; reflexivity|]. split; [constructor|].
    split; [exists []; split; [constructor|]; reflexivity|]. split; [exact A|].
    rewrite (Ha _ _ H), (Hd _ _ H), (z_ex _ _ H). reflexivity.
  - intros s s' (ls & stk & cur & abs1 & (bs & B & ->) & K & C & A1 & ->). cbn. split; [|exact A1].
    split; [exact B|]. split; [reflexivity|]. reflexivity.
Qed.

(* ------------------------------------------------------------------ *)
(** * Block layout *)
Definition zplaced (x y : fragment * placement) : Prop := zfrag (fst x) (fst y) /\ snd y = snd x.
Lemma z_place f f' s : zfrag f f' -> zres zplaced (place f s) (place f' s).
Proof.
  intros H. destruct H as [st st' ch ch' r p b m c Hs F|r ch ch' F|]; [| |exact I].
  - unfold place. destruct (pl_collapses s).
    + destruct (leqb (cm_solve (pl_margin s)) l0); [|exact I]. destruct (cb_through c); cbn [zres];
      (split; [constructor; assumption|reflexivity]).
    + destruct (cb_through c); cbn [zres]; (split; [constructor; assumption|reflexivity]).
  - cbn. destruct F; [|exact I]. destruct (leqb _ l0); [|exact I]. cbn. split; cbn; [constructor; constructor|reflexivity].
Qed.
Lemma z_nth {A} (R : A -> A -> Prop) l l' : Forall2 R l l' -> forall n,
  match nth_error l n, nth_error l' n with Some x, Some y => R x y | None, None => True | _, _ => False end.
Proof. induction 1 as [|x y l l' Hxy _ IH]; intros [|n]; cbn; [exact I|exact I|exact Hxy|exact (IH n)]. Qed.
Lemma z_adjust_one fs fs' rank a a' : zfrags fs fs' -> zabs a a' -> zres zabs (adjust_one fs rank a) (adjust_one fs' rank a').
Proof.
  intros F (A1 & A2 & A3 & A4 & A5). unfold adjust_one. rewrite A2. pose proof (z_nth _ _ _ F (af_rank a)) as N.
  destruct (nth_error fs (af_rank a)) as [f|], (nth_error fs' (af_rank a)) as [f'|]; cbn; try tauto.
  eapply (zres_bind (fun r r' => r' = r)); [destruct N; cbn; auto|].
  intros r r' ->. cbn. unfold zabs; cbn. rewrite A3, A4. auto.
Qed.
Lemma z_firstn {A B} (R : A -> B -> Prop) l l' : Forall2 R l l' -> forall n, Forall2 R (firstn n l) (firstn n l').
Proof. induction 1; intros [|n]; cbn; constructor; auto. Qed.
Lemma z_skipn {A B} (R : A -> B -> Prop) l l' : Forall2 R l l' -> forall n, Forall2 R (skipn n l) (skipn n l').
Proof. induction 1; intros [|n]; cbn; auto; constructor; auto. Qed.
Lemma z_adjust n abs abs' fs fs' rank : zabss abs abs' -> zfrags fs fs' ->
  zres zabss (adjust_static_positions n abs fs rank) (adjust_static_positions n abs' fs' rank).
Proof.
  intros A F. unfold adjust_static_positions. eapply zres_bind.
  - apply (zres_mapR zabs zabs); [apply z_skipn, A|]. intros a a' Ha'. apply z_adjust_one; assumption.
  - intros l l' L. cbn. apply Forall2_app; [apply z_firstn, A|exact L].
Qed.
Lemma z_in_positioned abs abs' fs fs' size p : zabss abs abs' -> zfrags fs fs' ->
  zres zfrags (in_positioned_containing_block abs fs size p) (in_positioned_containing_block abs' fs' size p).
Proof.
  intros A F. unfold in_positioned_containing_block. destruct A as [|a a' l l' Haa A]; [exact F|].
  eapply zres_bind.
  - eapply (zres_mapR zabs zfrag); [constructor; eassumption|]. intros x y (_ & _ & X3 & X4 & X5). rewrite X3, X4. apply X5.
  - intros u u' U. cbn. apply Forall2_app; [exact F|]. constructor; [|constructor]. constructor. exact U.
Qed.
Section InFlow.
Variable cb : cblock.
Variables st st' : style.
Hypothesis H : zst st st'.
Variable same : bool.
Lemma z_if_padding : if_padding cb st' = if_padding cb st.
Proof. unfold if_padding. rewrite (z_padding st st' H). reflexivity. Qed.
Lemma z_if_border : if_border cb st' = if_border cb st.
Proof. unfold if_border. rewrite (z_border st st' H). reflexivity. Qed.
Lemma z_if_pb : if_pb cb st' = if_pb cb st.
Proof. unfold if_pb. rewrite z_if_padding, z_if_border. reflexivity. Qed.
Lemma z_if_cis : if_computed_inline_size cb st' = if_computed_inline_size cb st.
Proof. unfold if_computed_inline_size. rewrite (z_size st st' H). reflexivity. Qed.
Lemma z_if_margin : if_margin cb st' = if_margin cb st.
Proof. unfold if_margin. rewrite z_if_pb, z_if_cis, (z_margin st st' H). reflexivity. Qed.
Lemma z_if_inline : if_inline_size cb st' = if_inline_size cb st.
Proof. unfold if_inline_size. rewrite z_if_cis, z_if_pb, z_if_margin. reflexivity. Qed.
Lemma z_if_block : if_block_size cb st' = if_block_size cb st.
Proof. unfold if_block_size. rewrite (z_size st st' H). reflexivity. Qed.
Lemma z_if_children : if_children_cb cb st' = if_children_cb cb st.
Proof. unfold if_children_cb. rewrite z_if_inline, z_if_block. reflexivity. Qed.
Lemma z_if_sc : if_start_collapse cb st' same = if_start_collapse cb st same.
Proof. unfold if_start_collapse. rewrite z_if_pb. reflexivity. Qed.
Lemma z_if_ec : if_end_collapse cb st' same = if_end_collapse cb st same.
Proof. unfold if_end_collapse. rewrite z_if_pb, z_if_block. reflexivity. Qed.
Lemma z_if_child_end c : if_child_end cb st' same c = if_child_end cb st same c.
Proof. unfold if_child_end. rewrite z_if_sc. reflexivity. Qed.
Lemma z_if_margins c : if_margins cb st' same c = if_margins cb st same c.
Proof. unfold if_margins. rewrite z_if_sc, z_if_ec, z_if_margin, z_if_child_end. reflexivity. Qed.
Lemma z_if_height fl fl' : zflow fl fl' -> if_height cb st' same fl' = if_height cb st same fl.
Proof. intros (_ & E & M). unfold if_height. rewrite z_if_block, z_if_ec, E, M, z_if_child_end. reflexivity. Qed.
Lemma z_if_content fl fl' : zflow fl fl' -> if_content cb st' same fl' = if_content cb st same fl.
Proof. intros F. unfold if_content. rewrite z_if_inline, z_if_block, z_if_pb, z_if_margin, (z_if_height fl fl' F), (z_relative st st' _ _ H). reflexivity. Qed.
Definition zfragabs (x y : fragment * list abs_frag) : Prop := zfrag (fst x) (fst y) /\ zabss (snd x) (snd y).
Lemma z_in_flow abs abs' lay lay' : zabss abs abs' ->
  (forall c a a' b, zabss a a' -> zres zfa (lay c a b) (lay' (c) a' b)) ->
  zres zfragabs (layout_in_flow cb st same abs lay) (layout_in_flow (cb) st' same abs' lay').
Proof.
  intros A L. unfold layout_in_flow. rewrite (z_sv_ st st' Lposition H), z_if_children, z_if_sc by reflexivity.
  set (rel := is_relatively_positioned (sv st Lposition)).
  eapply zres_bind; [apply L; destruct rel; [constructor|exact A]|]. intros [fl a1] [fl' a1'] [F A1]. cbn [fst snd] in *.
  rewrite (z_if_content fl fl' F), z_if_padding, z_if_border, z_if_margin. rewrite (proj2 (proj2 F)), z_if_margins.
  eapply (zres_bind zfrags).
  - destruct rel; [|exact (proj1 F)]. cbn [r_size]. apply z_in_positioned; [exact A1|exact (proj1 F)].
  - intros ch ch' C. cbn. split; cbn; [constructor; assumption|destruct rel; assumption].
Qed.
End InFlow.
Lemma z_abs_layout st st' lay lay' : zst st st' -> (forall c, zres zfa (lay c) (lay' c)) -> zlay (abs_layout st lay) (abs_layout st' lay').
Proof.
  intros H L oi ob size. unfold abs_layout.
  rewrite (z_padding st st' H), (z_border st st' H), (z_margin st st' H), (z_size st st' H).
  cbv zeta. match goal with |- context [solve_axis (v_inline size) ?a ?b ?c ?d oi ?e] => destruct (solve_axis (v_inline size) a b c d oi e) as [[[ia is] mis] mie] end.
  match goal with |- context [solve_axis (v_inline size) ?a ?b ?c ?d ob ?e] => destruct (solve_axis (v_inline size) a b c d ob e) as [[[ba bs] mbs] mbe] end.
  eapply zres_bind; [apply L|]. intros [fl a1] [fl' a1'] [F A1]. cbn [fst snd] in *. rewrite (proj1 (proj2 F)).
  eapply zres_bind; [apply z_in_positioned; [exact A1|exact (proj1 F)]|]. intros ch ch' C. cbn. constructor; assumption.
Qed.

Definition zblay (b b' : blb_lay) : Prop :=
  forall cb rank abs abs' fl, zabss abs abs' -> zres zfragabs (b cb rank abs fl) (b' (cb) rank abs' fl).
Definition zfloats (x y : list fragment * list abs_frag * placement) : Prop :=
  zfrags (fst (fst x)) (fst (fst y)) /\ zabss (snd (fst x)) (snd (fst y)) /\ snd y = (snd x).
Lemma z_children_floats bs bs' : Forall2 zblay bs bs' -> forall cb rank abs abs' s, zabss abs abs' ->
  zres zfloats (children_floats bs cb rank abs s) (children_floats bs' (cb) rank abs' (s)).
Proof.
  induction 1 as [|b b' bs bs' Hb _ IH]; intros cb rank abs abs' s A; cbn [children_floats].
  - split; [constructor|]. split; [exact A|reflexivity].
  - eapply zres_bind; [apply Hb, A|]. intros [f a1] [f' a1'] [F A1]. cbn [fst snd] in *.
    eapply zres_bind; [apply z_place, F|]. intros [f1 s1] [f1' s1'] [F1 E1]. cbn [fst snd] in *. subst s1'.
    eapply zres_bind; [apply IH, A1|]. intros [[fs a2] s2] [[fs' a2'] s2'] (G1 & G2 & G3). cbn [fst snd] in *. cbn.
    split; [constructor; assumption|]. split; assumption.
Qed.
Definition zfsabs (x y : list fragment * list abs_frag) : Prop := zfrags (fst x) (fst y) /\ zabss (snd x) (snd y).
Lemma z_children_layout bs bs' : Forall2 zblay bs bs' -> forall cb rank abs abs', zabss abs abs' ->
  zres zfsabs (children_layout bs cb rank abs) (children_layout bs' (cb) rank abs').
Proof.
  induction 1 as [|b b' bs bs' Hb _ IH]; intros cb rank abs abs' A; cbn [children_layout].
  - split; [constructor|exact A].
  - eapply zres_bind; [apply Hb, A|]. intros [f a1] [f' a1'] [F A1]. cbn [fst snd] in *.
    eapply zres_bind; [apply IH, A1|]. intros [fs a2] [fs' a2'] (G1 & G2). cbn. split; [constructor; assumption|assumption].
Qed.
Definition zplaceds (x y : list fragment * placement) : Prop := zfrags (fst x) (fst y) /\ snd y = (snd x).
Lemma z_place_all fs fs' : zfrags fs fs' -> forall s, zres zplaceds (place_all fs s) (place_all fs' (s)).
Proof.
  induction 1 as [|f f' fs fs' Hf _ IH]; intros s; cbn [place_all]; [split; [constructor|reflexivity]|].
  eapply zres_bind; [apply z_place, Hf|]. intros [f1 s1] [f1' s1'] [F1 E1]. cbn [fst snd] in *. subst s1'.
  eapply zres_bind; [apply IH|]. intros [g s2] [g' s2'] [G1 G2]. cbn in *. split; [constructor; assumption|assumption].
Qed.
Lemma z_length {A B} (R : A -> B -> Prop) l l' : Forall2 R l l' -> List.length l' = List.length l.
Proof. induction 1; cbn; congruence. Qed.
Lemma z_children bs bs' cb rank abs abs' floats coll : Forall2 zblay bs bs' -> zabss abs abs' ->
  zres zfa (layout_block_level_children bs cb rank abs floats coll) (layout_block_level_children bs' (cb) rank abs' floats coll).
Proof.
  intros F A. unfold layout_block_level_children. eapply (zres_bind zfloats).
  - destruct floats.
    + apply z_children_floats; assumption.
    + eapply zres_bind; [apply z_children_layout; eassumption|]. intros [fs a1] [fs' a1'] [G1 G2]. cbn [fst snd] in *.
      eapply zres_bind; [apply z_place_all, G1|]. intros [g s] [g' s'] [H1 H2]. cbn in *. split; [exact H1|]. split; assumption.
  - intros [[fs a1] s] [[fs' a1'] s'] (G1 & G2 & E1). cbn [fst snd] in *. subst s'. rewrite (z_length _ _ _ A).
    eapply zres_bind; [apply z_adjust; eassumption|]. intros a2 a2' A2. cbn. split; [|exact A2]. split; [exact G1|]. split; reflexivity.
Qed.
Lemma z_bfc_finish r r' : zres zfa r r' -> zres zfa (bfc_finish r) (bfc_finish r').
Proof.
  intros R. unfold bfc_finish. eapply zres_bind; [exact R|]. intros [fl a] [fl' a'] [(F1 & F2 & F3) A]. cbn in *. split; [|exact A].
  split; [exact F1|]. cbn. rewrite F2, F3. split; reflexivity.
Qed.

(** Box trees, enlarged *)
Inductive zblb : blb -> blb -> Prop :=
| ZSame st st' c c' : zst st st' -> zcont c c' -> zblb (SameFC st c) (SameFC st' c')
| ZAbs st st' c c' : zst st st' -> zbfc c c' -> zblb (BAbspos st c) (BAbspos st' c')
| ZFloat st st' c c' : zst st st' -> zbfc c c' -> zblb (BFloat st c) (BFloat st' c')
| ZIndep st st' c c' : zst st st' -> zbfc c c' -> zblb (Indep st c) (Indep st' c')
with zcont : bcontainer -> bcontainer -> Prop :=
| ZBlocks l l' : Forall2 zblb l l' -> zcont (BlockLevelBoxes l) (BlockLevelBoxes l')
| ZInlines p p' l l' : zst p p' -> Forall2 (zilb (fun _ _ => zbfc)) l l' -> zcont (InlineFC p l) (InlineFC p' l')
with zbfc : bfc -> bfc -> Prop :=
| ZBfc fl c c' : zcont c c' -> zbfc (BFC fl c) (BFC fl c').

Lemma z_blb (b b' : blb) (H : zblb b b') : zblay (layout_blb m_a m_d m_w b) (layout_blb m_a m_d m_w b')
with z_cont (c c' : bcontainer) (HC : zcont c c') : forall cb rank abs abs' fl co, zabss abs abs' ->
  zres zfa (layout_container m_a m_d m_w c cb rank abs fl co) (layout_container m_a m_d m_w c' (cb) rank abs' fl co)
with z_bfc (c c' : bfc) (HB : zbfc c c') : forall cb rank abs abs', zabss abs abs' ->
  zres zfa (layout_bfc m_a m_d m_w c cb rank abs) (layout_bfc m_a m_d m_w c' (cb) rank abs').
Proof.
  - intros cb rank abs abs' fl A. destruct H as [st st' c c' Hs Hc|st st' c c' Hs Hc|st st' c c' Hs Hc|st st' c c' Hs Hc]; cbn [layout_blb].
    + apply z_in_flow; [exact Hs|exact A|]. intros cb' a a' co Haa. apply z_cont; assumption.
    + split; cbn; [apply z_no_op|]. apply Forall2_app; [exact A|]. constructor; [|constructor]. apply z_abs_box; [exact Hs|].
      apply z_abs_layout; [exact Hs|]. intros cb'. apply z_bfc; [exact Hc|constructor].
    + split; cbn; [apply z_no_op|exact A].
    + apply z_in_flow; [exact Hs|exact A|]. intros cb' a a' co Haa. apply z_bfc; assumption.
  - intros cb rank abs abs' fl co A. destruct HC as [l l' F|p p' l l' Hp F]; cbn [layout_container].
    + apply z_children; [|exact A]. induction F as [|x y l l' Hxy F IHF]; cbn; constructor; [apply z_blb; exact Hxy|exact IHF].
    + apply z_ifc_layout; [exact Hp| |exact A].
      induction F as [|x y l l' Hxy F IHF]; cbn [map]; constructor; [|exact IHF]. clear IHF F.
      revert x y Hxy. fix IHi 3. intros x y Hxy. destruct Hxy as [st st' fi la_ ch ch' Hs G|st st' t fo fo' Hs Hf|st st' c c' Hs Hc|st st' c c' Hs Hc]; cbn [ilb_map].
      * constructor; [exact Hs|]. induction G as [|u v ch ch' Huv G IHG]; cbn [map]; constructor; [apply IHi; exact Huv|exact IHG].
      * constructor; assumption.
      * constructor; [exact Hs|]. apply z_abs_layout; [exact Hs|]. intros cb'. apply z_bfc; [exact Hc|constructor].
      * constructor; [exact Hs|]. apply z_abs_layout; [exact Hs|]. intros cb'. apply z_bfc; [exact Hc|constructor].
  - intros cb rank abs abs' A. destruct HB as [fl c c' Hc]. cbn [layout_bfc]. apply z_bfc_finish. apply z_cont; assumption.
Qed.

Lemma z_layout_root c c' vp : zbfc c c' ->
  zres zfrags (layout_root m_a m_d m_w c vp) (layout_root m_a m_d m_w c' (vp)).
Proof.
  intros H. unfold layout_root. 
  eapply zres_bind; [apply z_bfc; [exact H|constructor]|]. intros [fl a] [fl' a'] [(F & _) A]. cbn [fst snd] in *.
  eapply (zres_bind zfrags).
  - eapply (zres_mapR zabs zfrag); [exact A|]. intros x y (_ & _ & X3 & X4 & X5). rewrite X3, X4. apply X5.
  - intros u u' U. cbn. apply Forall2_app; assumption.
Qed.

End Metrics.

(* ------------------------------------------------------------------ *)
(** * Painting *)
Section Paint.
(** how two lists of calls are compared *)
Variable Q : list dcall -> list dcall -> Prop.
Hypothesis Q_nil : Q [] [].
Hypothesis Q_app : forall a a' b b', Q a a' -> Q b b' -> Q (a ++ b) (a' ++ b').
Hypothesis Q_box : forall x y w h, Q [DBBox x y w h] [DBBox x y w h].
Hypothesis Q_text : forall (st st' : style) t x y f, zst st st' -> Q [DText (label_of t) x y f (sv st Lcolor)] [DText (label_of (map re t)) x y f (sv st' Lcolor)].
Hypothesis Q_line : forall st st' ps w k, zst st st' ->
  Q [DLine ps (to_rgba st (sv st Lborder_top_color)) w k] [DLine ps (to_rgba st' (sv st' Lborder_top_color)) w k] /\
  Q [DLine ps (to_rgba st (sv st Lborder_right_color)) w k] [DLine ps (to_rgba st' (sv st' Lborder_right_color)) w k] /\
  Q [DLine ps (to_rgba st (sv st Lborder_bottom_color)) w k] [DLine ps (to_rgba st' (sv st' Lborder_bottom_color)) w k] /\
  Q [DLine ps (to_rgba st (sv st Lborder_left_color)) w k] [DLine ps (to_rgba st' (sv st' Lborder_left_color)) w k].
Hypothesis Q_background : forall st st' b, zst st st' -> Q (paint_background st b) (paint_background st' b).
Variables font_of : style -> font.
Hypothesis Hfont : forall s s', zst s s' -> font_of s' = font_of s.
Lemma z_cons c c' l l' : Q [c] [c'] -> Q l l' -> Q (c :: l) (c' :: l').
Proof. intros H H1. change (Q ([c] ++ l) ([c'] ++ l')). apply Q_app; assumption. Qed.
Ltac zside H := match goal with |- Q (if ?x then _ else _) _ => destruct x; [|exact Q_nil]; apply Q_line, H end.
Lemma z_top st st' b p : zst st st' -> Q (paint_top st b p) (paint_top st' b p).
Proof. intros H. unfold paint_top; cbv zeta. rewrite (z_sv_ st st' Lborder_top_style H) by reflexivity. zside H. Qed.
Lemma z_right st st' b p : zst st st' -> Q (paint_right st b p) (paint_right st' b p).
Proof. intros H. unfold paint_right; cbv zeta. rewrite (z_sv_ st st' Lborder_right_style H) by reflexivity. zside H. Qed.
Lemma z_bottom st st' b p : zst st st' -> Q (paint_bottom st b p) (paint_bottom st' b p).
Proof. intros H. unfold paint_bottom; cbv zeta. rewrite (z_sv_ st st' Lborder_bottom_style H) by reflexivity. zside H. Qed.
Lemma z_left st st' b p : zst st st' -> Q (paint_left st b p) (paint_left st' b p).
Proof. intros H. unfold paint_left; cbv zeta. rewrite (z_sv_ st st' Lborder_left_style H) by reflexivity. zside H. Qed.
Lemma z_each {A} (R : A -> A -> Prop) f f' l l' : Forall2 R l l' -> (forall a a', R a a' -> zres Q (f a) (f' a')) ->
  zres Q (each f l) (each f' l').
Proof.
  intros F Hf. induction F as [|x y l l' Hxy _ IH]; cbn; [exact Q_nil|].
  eapply zres_bind; [apply Hf, Hxy|]. intros c c' Hc. eapply zres_bind; [exact IH|]. intros d d' Hd'. cbn. apply Q_app; assumption.
Qed.
Lemma z_paint f f' (H : zfrag f f') : forall c, zres Q (paint font_of c f) (paint font_of c f').
Proof.
  revert f f' H. fix IH 3. intros f f' H c.
  destruct H as [st st' ch ch' r p b m cm Hs F|r ch ch' F|st st' r fo fo' sg sg' Hs Hf Hg]; cbn [paint].
  - unfold margin_rect_of, border_rect_of, padding_rect_of, physical. cbn [bind].
    eapply (zres_bind Q).
    + set (cr := prect_translate _ _). clearbody cr. induction F as [|x y l l' Hxy F IHF]; cbn [each]; [exact Q_nil|].
      eapply zres_bind; [exact (IH _ _ Hxy cr)|]. intros d d' Hd. eapply zres_bind; [exact IHF|]. intros e e' He. cbn. apply Q_app; assumption.
    + intros cs cs' Hcs. cbn [zres]. apply z_cons; [apply Q_box|].
      repeat apply Q_app; auto using z_top, z_right, z_bottom, z_left.
  - unfold physical. cbn [bind]. eapply (zres_bind Q).
    + set (cr := prect_translate _ _). clearbody cr. induction F as [|x y l l' Hxy F IHF]; cbn [each]; [exact Q_nil|].
      eapply zres_bind; [exact (IH _ _ Hxy cr)|]. intros d d' Hd. eapply zres_bind; [exact IHF|]. intros e e' He. cbn. apply Q_app; assumption.
    + intros cs cs' Hcs. cbn [zres]. apply z_cons; [apply Q_box|exact Hcs].
  - unfold physical. cbn [bind zres]. apply z_cons; [apply Q_box|]. rewrite (Hfont fo fo' Hf), Hg. apply Q_text, Hs.
Qed.
Lemma z_paint_page fs fs' page : zfrags fs fs' -> zres Q (paint_page font_of fs page) (paint_page font_of fs' page).
Proof. intros F. unfold paint_page. cbv zeta. eapply z_each; [exact F|]. intros a a' H. apply z_paint, H. Qed.
End Paint.

(* ------------------------------------------------------------------ *)
(** * Box construction *)
Notation zi := (zilb (fun _ _ => zbfc)).
Notation zis := (Forall2 zi).
Definition zout {A B} (R : A -> B -> Prop) (r : TreeModel.outcome A) (r' : TreeModel.outcome B) : Prop :=
  match r, r' with TreeModel.Done a, TreeModel.Done b => R a b | Panics, Panics => True | Fatal, Fatal => True | _, _ => False end.
Lemma zout_bind {A B C D} (R : A -> B -> Prop) (Q : C -> D -> Prop) r r' f f' :
  zout R r r' -> (forall a b, R a b -> zout Q (f a) (f' b)) -> zout Q (obind r f) (obind r' f').
Proof. destruct r, r'; cbn; try tauto. auto. Qed.
Lemma zout_slot {A B} (R : A -> B -> Prop) r r' : zout R r r' -> zout R (with_slot r) (with_slot r').
Proof. destruct r, r'; cbn; tauto. Qed.
Inductive zong : ongoing -> ongoing -> Prop :=
| ZOng st st' f c c' : zst st st' -> zis c c' -> zong (Ongoing st f c) (Ongoing st' f c').
Definition zcf (x y : bcontainer * bool) : Prop := zcont (fst x) (fst y) /\ snd y = snd x.
Inductive zinter : inter -> inter -> Prop :=
| ZMAnon st st' ps ps' l l' : zst st st' -> zst ps ps' -> zis l l' -> zinter (MAnon st ps l) (MAnon st' ps' l')
| ZMDef st st' r r' : zst st st' -> zout zcf r r' -> zinter (MDeferred st r) (MDeferred st' r')
| ZMInd st st' r r' : zst st st' -> zout zbfc r r' -> zinter (MIndep st r) (MIndep st' r')
| ZMAbs st st' r r' : zst st st' -> zout zbfc r r' -> zinter (MAbspos st r) (MAbspos st' r')
| ZMFlo st st' r r' : zst st st' -> zout zbfc r r' -> zinter (MFloat st r) (MFloat st' r').
Inductive zbuilder : builder -> builder -> Prop :=
| ZBuilder st st' b b' i i' s s' f : zst st st' -> Forall2 zinter b b' -> zis i i' -> Forall2 zong s s' ->
    zbuilder (Builder st b i s f) (Builder st' b' i' s' f).
Lemma z_current b b' : zbuilder b b' -> zis (current b) (current b').
Proof. intros [st st' bx bx' i i' s s' f H1 H2 H3 H4]. unfold current; cbn. destruct H4 as [|o o' ? ? Ho]; [exact H3|]. destruct Ho; assumption. Qed.
Lemma z_set_current b b' l l' : zbuilder b b' -> zis l l' -> zbuilder (set_current b l) (set_current b' l').
Proof.
  intros [st st' bx bx' i i' s s' f H1 H2 H3 H4] L. unfold set_current; cbn. destruct H4 as [|o o' ? ? Ho]; constructor; auto.
  constructor; [|assumption]. destruct Ho; constructor; assumption.
Qed.
Lemma z_push_box b b' m m' : zbuilder b b' -> zinter m m' -> zbuilder (push_box b m) (push_box b' m').
Proof. intros [st st' bx bx' i i' s s' f H1 H2 H3 H4] M. unfold push_box; cbn. constructor; auto. apply Forall2_app; [assumption|constructor; [assumption|constructor]]. Qed.
Lemma z_search b b' : zi b b' -> search_box b' = search_box b.
Proof.
  revert b b'. fix IH 3. intros b b' H. destruct H as [st st' fi la_ ch ch' Hs F|st st' t fo fo' Hs Hf| |]; try reflexivity; [|cbn; rewrite f_ends; reflexivity]. cbn.
  induction F as [|x y l l' Hxy F IHF]; [reflexivity|]. cbn. rewrite IHF, (IH _ _ Hxy). reflexivity.
Qed.
Lemma z_search_back l l' : zis l l' -> search_back l' = search_back l.
Proof. induction 1 as [|x y l l' Hxy _ IH]; cbn; [reflexivity|]. rewrite IH, (z_search _ _ Hxy). reflexivity. Qed.
Lemma z_append_text l l' t st st' : zst st st' -> zis l l' -> zis (append_text l t st) (append_text l' (map re t) st').
Proof.
  intros H F. induction F as [|x y l l' Hxy F IH]; cbn [append_text].
  - constructor; [constructor; assumption|constructor].
  - assert (D : zis (x :: append_text l t st) (y :: append_text l' (map re t) st')) by (constructor; assumption).
    destruct Hxy; destruct F; try exact D. constructor; [rewrite <- map_app; constructor; assumption|constructor].
Qed.
Lemma z_leading b b' t : zbuilder b b' -> handle_leading_whitespace b' (map re t) = (fst (handle_leading_whitespace b t), map re (snd (handle_leading_whitespace b t))).
Proof.
  intros H. unfold handle_leading_whitespace. rewrite (z_search_back _ _ (z_current b b' H)). destruct t as [|c t]; [reflexivity|]. cbn [map]. rewrite f_ws.
  destruct (ascii_ws c); [|reflexivity]. cbn [fst snd]. rewrite <- f_trim by exact f_ws. reflexivity.
Qed.
Lemma z_slots bx bx' : Forall2 zinter bx bx' -> existsb has_real_slot bx' = existsb has_real_slot bx.
Proof. induction 1 as [|x y l l' Hxy _ IH]; cbn; [reflexivity|]. rewrite IH. destruct Hxy; reflexivity. Qed.
Lemma z_handle_text t st st' b b' : zst st st' -> zbuilder b b' -> zout zbuilder (handle_text t st b) (handle_text (map re t) st' b').
Proof.
  intros H B. unfold handle_text. rewrite (z_sv_ st st' Lwhite_space H) by reflexivity.
  assert (T : forall t, zbuilder (set_current b (append_text (current b) t st)) (set_current b' (append_text (current b') (map re t) st'))).
  { intros u. apply z_set_current; [exact B|]. apply z_append_text; [exact H|apply z_current, B]. }
  assert (C : zout zbuilder (handle_text_collapse t st b) (handle_text_collapse (map re t) st' b')).
  { unfold handle_text_collapse. rewrite (z_leading b b' t B). destruct (handle_leading_whitespace b t) as [le u]. cbn [fst snd].
    replace (match map re u with [] => false | _ => true end) with (match u with [] => false | _ => true end) by (destruct u; reflexivity).
    destruct (_ || _); [|exact B]. rewrite map_length, f_collapse. destruct (collapse_loop _ u) as [o|]; [|exact I]. cbn [option_map].
    destruct le; [|exact (T o)]. specialize (T (32%N :: o)). cbn [map] in T. rewrite f_32 in T. exact T. }
  assert (P : zout zbuilder (handle_text_preserve t st b) (handle_text_preserve (map re t) st' b')).
  { unfold handle_text_preserve. specialize (T t). destruct t; [exact B|exact T]. }
  assert (X : zout zbuilder (if existsb has_real_slot (b_boxes b) then Fatal else Panics) (if existsb has_real_slot (b_boxes b') then Fatal else Panics)).
  { destruct B as [? ? bx bx' ? ? ? ? ? ? H2]; cbn. rewrite (z_slots _ _ H2). destruct (existsb _ _); exact I. }
  destruct (sv st Lwhite_space); assumption.
Qed.
Lemma z_push_inline st st' b b' : zst st st' -> zbuilder b b' -> zbuilder (push_inline st b) (push_inline st' b').
Proof. intros H [? ? ? ? ? ? ? ? ? H1 H2 H3 H4]. unfold push_inline; cbn. constructor; auto. constructor; [constructor; [assumption|constructor]|assumption]. Qed.
Lemma z_pop_inline b b' : zbuilder b b' -> zout zbuilder (pop_inline b) (pop_inline b').
Proof.
  intros [st st' bx bx' i i' s s' f H1 H2 H3 H4]. unfold pop_inline; cbn [b_stack]. destruct H4 as [|o o' ? ? Ho H4]; [exact I|]. cbn [b_style b_boxes b_inlines b_floats zout].
  destruct Ho as [so so' fo c c' Hso Hc]. cbn [og_style og_first og_children].
  assert (B : zbuilder (Builder st bx i l f) (Builder st' bx' i' l' f)) by (constructor; assumption).
  apply z_set_current; [exact B|]. apply Forall2_app; [apply z_current, B|]. constructor; [constructor; assumption|constructor].
Qed.
Lemma z_end_ifc b b' : zbuilder b b' -> zout zbuilder (end_ifc b) (end_ifc b').
Proof.
  intros [st st' bx bx' i i' s s' f H1 H2 H3 H4]. unfold end_ifc; cbn [b_stack b_inlines]. destruct H4; [|exact I].
  destruct H3; cbn.
  - constructor; auto.
  - constructor; auto. apply Forall2_app; [assumption|]. constructor; [|constructor]. constructor; [apply z_anonymous; assumption|assumption|constructor; assumption].
Qed.
Lemma z_fragmented s s' : Forall2 zong s s' -> forall i i', match i, i' with Some x, Some y => zi x y | None, None => True | _, _ => False end ->
  match fragmented s i, fragmented s' i' with Some x, Some y => zi x y | None, None => True | _, _ => False end.
Proof.
  induction 1 as [|o o' s s' Ho _ IH]; intros i i' Hi; cbn; [exact Hi|]. apply IH. destruct Ho. cbn. constructor; [assumption|].
  apply Forall2_app; [assumption|]. destruct i, i'; try tauto; [|constructor]. constructor; [exact Hi|constructor].
Qed.
Lemma z_fragment_inlines b b' : zbuilder b b' -> zbuilder (fragment_inlines b) (fragment_inlines b').
Proof.
  intros [st st' bx bx' i i' s s' f H1 H2 H3 H4]. unfold fragment_inlines; cbn. constructor; auto.
  - apply Forall2_app; [assumption|]. pose proof (z_fragmented _ _ H4 None None I) as F. destruct (fragmented s None), (fragmented s' None); try tauto; [|constructor].
    constructor; [exact F|constructor].
  - induction H4 as [|o o' ? ? Ho]; cbn; constructor; [|assumption]. destruct Ho. constructor; [assumption|constructor].
Qed.
Lemma z_handle_block st st' ins r r' b b' : zst st st' -> zout zcf r r' -> zbuilder b b' ->
  zout zbuilder (handle_block st ins r b) (handle_block st' ins r' b').
Proof.
  intros H R B. unfold handle_block. eapply zout_bind; [apply z_end_ifc, z_fragment_inlines, B|]. intros c c' C. cbn. apply z_push_box; [exact C|].
  destruct ins; constructor; auto. eapply zout_bind; [exact R|]. intros [x fl] [y fl'] [X E]. cbn in *. subst. constructor. exact X.
Qed.
Lemma z_finish_one m m' : zinter m m' -> zout (fun x y => zblb (fst x) (fst y) /\ snd y = snd x) (finish_one m) (finish_one m').
Proof.
  intros H. destruct H as [| st st' r r' H R|st st' r r' H R|st st' r r' H R|st st' r r' H R]; cbn [finish_one].
  - split; [|reflexivity]. constructor; [assumption|]. constructor; assumption.
  - apply zout_slot. eapply zout_bind; [exact R|]. intros [c fl] [c' fl'] [C E]. cbn in *. split; [constructor; assumption|assumption].
  - apply zout_slot. eapply zout_bind; [exact R|]. intros c c' C. cbn. split; [constructor; assumption|reflexivity].
  - apply zout_slot. eapply zout_bind; [exact R|]. intros c c' C. cbn. split; [constructor; assumption|reflexivity].
  - apply zout_slot. eapply zout_bind; [exact R|]. intros c c' C. cbn. split; [constructor; assumption|reflexivity].
Qed.
Lemma z_finish_all l l' : Forall2 zinter l l' -> forall fl,
  zout (fun x y => Forall2 zblb (fst x) (fst y) /\ snd y = snd x) (finish_all l fl) (finish_all l' fl).
Proof.
  induction 1 as [|m m' l l' Hm _ IH]; intros fl; cbn [finish_all]; [split; [constructor|reflexivity]|].
  eapply zout_bind; [apply z_finish_one, Hm|]. intros [x f] [x' f'] [X E]. cbn [fst snd] in *. subst f'.
  eapply zout_bind; [apply IH|]. intros [xs f2] [xs' f2'] [Xs E2]. cbn in *. split; [constructor; assumption|assumption].
Qed.
Lemma z_finish_container b b' : zbuilder b b' -> zout zcf (finish_container b) (finish_container b').
Proof.
  intros B. unfold finish_container.
  assert (G : forall c c', zbuilder c c' -> zout zcf (obind (finish_all (b_boxes c) (b_floats c)) (fun '(l, floats) => TreeModel.Done (BlockLevelBoxes l, floats)))
     (obind (finish_all (b_boxes c') (b_floats c')) (fun '(l, floats) => TreeModel.Done (BlockLevelBoxes l, floats)))).
  { intros c c' [? ? ? ? ? ? ? ? f H1 H2 H3 H4]. cbn [b_boxes b_floats]. eapply zout_bind; [apply z_finish_all, H2|].
    intros [l fl] [l' fl'] [L E]. cbn in *. split; [constructor; assumption|assumption]. }
  pose proof (z_end_ifc b b' B) as E.
  assert (K : zout zcf (obind (end_ifc b) (fun b0 => obind (finish_all (b_boxes b0) (b_floats b0)) (fun '(l, floats) => TreeModel.Done (BlockLevelBoxes l, floats))))
     (obind (end_ifc b') (fun b0 => obind (finish_all (b_boxes b0) (b_floats b0)) (fun '(l, floats) => TreeModel.Done (BlockLevelBoxes l, floats))))).
  { eapply zout_bind; [exact E|]. exact G. }
  specialize (G b b' B). destruct B as [st st' bx bx' i i' s s' f H1 H2 H3 H4]. cbn [b_inlines b_boxes b_style b_floats] in *.
  destruct H3; destruct H2; first [exact K | exact G | idtac].
  split; cbn; [|reflexivity]. constructor; [assumption|constructor; assumption].
Qed.
Inductive zsnode : snode -> snode -> Prop :=
| ZSText t : zsnode (SText t) (SText (map re t))
| ZSOther : zsnode SOther SOther
| ZSElem br st st' l l' : zst st st' -> Forall2 zsnode l l' -> zsnode (SElem br st l) (SElem br st' l').
Lemma z_has_ongoing b b' : zbuilder b b' -> has_ongoing_ifc b' = has_ongoing_ifc b.
Proof. intros [? ? ? ? ? ? ? ? ? H1 H2 H3 H4]. unfold has_ongoing_ifc; cbn. destruct H3; [destruct H4; reflexivity|reflexivity]. Qed.
Lemma z_handle_abspos st st' r r' b b' : zst st st' -> zout zbfc r r' -> zbuilder b b' -> zout zbuilder (handle_abspos st r b) (handle_abspos st' r' b').
Proof.
  intros H R B. unfold handle_abspos. rewrite (z_has_ongoing b b' B). destruct (has_ongoing_ifc b).
  - apply zout_slot. eapply zout_bind; [exact R|]. intros c c' C. cbn. apply z_set_current; [exact B|]. apply Forall2_app; [apply z_current, B|].
    constructor; [constructor; assumption|constructor].
  - cbn. apply z_push_box; [exact B|constructor; assumption].
Qed.
Lemma z_handle_float st st' r r' b b' : zst st st' -> zout zbfc r r' -> zbuilder b b' -> zout zbuilder (handle_float st r b) (handle_float st' r' b').
Proof.
  intros H R B. unfold handle_float. cbv zeta.
  assert (B1 : zbuilder (Builder (b_style b) (b_boxes b) (b_inlines b) (b_stack b) true) (Builder (b_style b') (b_boxes b') (b_inlines b') (b_stack b') true)).
  { destruct B; constructor; assumption. }
  rewrite (z_has_ongoing _ _ B1). destruct (has_ongoing_ifc (Builder (b_style b) _ _ _ _)).
  - apply zout_slot. eapply zout_bind; [exact R|]. intros c c' C. cbn [zout]. apply z_set_current; [exact B1|]. apply Forall2_app; [apply z_current, B1|].
    constructor; [constructor; assumption|constructor].
  - cbn [zout]. apply z_push_box; [exact B1|constructor; assumption].
Qed.
Lemma z_builder_new st st' : zst st st' -> zbuilder (builder_new st) (builder_new st').
Proof. intros H. constructor; [exact H|constructor..]. Qed.
Lemma map_nl : map re [10%N] = [10%N]. Proof. cbn [map]. rewrite (proj1 (Hf0 10%N)) by (unfold special; cbn; tauto). reflexivity. Qed.
Lemma z_handle_node n n' (H : zsnode n n') : forall p p' nx b b', zst p p' -> zbuilder b b' ->
  zout zbuilder (handle_node p n nx b) (handle_node p' n' nx b').
Proof.
  revert n n' H. fix IH 3. intros n n' H p p' nx b b' Hp B. destruct H as [t| |br st st' l l' Hs F]; cbn [handle_node].
  - apply z_handle_text; assumption.
  - exact B.
  - assert (T : forall c c', zbuilder c c' -> zout zbuilder (traverse_with (handle_node st) l c) (traverse_with (handle_node st') l' c')).
    { clear B b b'. induction F as [|x y l l' Hxy F IHF]; intros c c' C; cbn [traverse_with]; [exact C|].
      eapply zout_bind.
      - replace (match l' with [] => false | _ => true end) with (match l with [] => false | _ => true end) by (destruct F; reflexivity). exact (IH _ _ Hxy _ _ _ _ _ Hs C).
      - exact IHF. }
    assert (K : zout zcf (obind (traverse_with (handle_node st) l (builder_new st)) finish_container) (obind (traverse_with (handle_node st') l' (builder_new st')) finish_container)).
    { eapply zout_bind; [apply T, z_builder_new, Hs|]. exact z_finish_container. }
    assert (X : zout zbfc (obind (obind (traverse_with (handle_node st) l (builder_new st)) finish_container) (fun '(c, fl) => TreeModel.Done (BFC fl c)))
       (obind (obind (traverse_with (handle_node st') l' (builder_new st')) finish_container) (fun '(c, fl) => TreeModel.Done (BFC fl c)))).
    { eapply zout_bind; [exact K|]. intros [c fl] [c' fl'] [C E]. cbn in *. subst. constructor. exact C. }
    destruct br; [pose proof (z_handle_text [10%N] st st' b b' Hs B) as X0; rewrite map_nl in X0; exact X0|].
    rewrite (z_sv_ st st' Ldisplay Hs), (z_sv_ st st' Lposition Hs), (z_sv_ st st' Lfloat Hs) by reflexivity.
    destruct (sv st Ldisplay) as [| |[] ins].
    + destruct nx; [exact B|exact I].
    + apply T, B.
    + destruct ins; [|exact I]. apply zout_slot. eapply zout_bind; [apply T, z_push_inline; assumption|]. exact z_pop_inline.
    + destruct (is_absolutely_positioned _); [apply z_handle_abspos; assumption|]. destruct (is_floating _); [apply z_handle_float; assumption|].
      apply zout_slot. apply z_handle_block; assumption.
Qed.
Lemma z_construct_root st st' l l' : zst st st' -> Forall2 zsnode l l' -> zout zbfc (construct_root st l) (construct_root st' l').
Proof.
  intros H F. unfold construct_root. rewrite (z_sv_ st st' Ldisplay H), (z_sv_ st st' Lposition H), (z_sv_ st st' Lfloat H) by reflexivity.
  assert (T : forall c c', zbuilder c c' -> zout zbuilder (traverse_with (handle_node st) l c) (traverse_with (handle_node st') l' c')).
  { induction F as [|x y l l' Hxy F IHF]; intros c c' C; cbn [traverse_with]; [exact C|]. eapply zout_bind; [|exact IHF].
    replace (match l' with [] => false | _ => true end) with (match l with [] => false | _ => true end) by (destruct F; reflexivity). exact (z_handle_node _ _ Hxy _ _ _ _ _ H C). }
  assert (K : zout zbfc (construct_bfc st l) (construct_bfc st' l')).
  { unfold construct_bfc, construct_container. eapply (zout_bind zcf).
    - eapply zout_bind; [apply T, z_builder_new, H|]. exact z_finish_container.
    - intros [c fl] [c' fl'] [C E]. cbn in *. subst. constructor. exact C. }
  assert (G : zout zbfc
    (obind (construct_bfc st l) (fun c => if is_absolutely_positioned (sv st Lposition) then TreeModel.Done (BFC false (BlockLevelBoxes [BAbspos st c]))
      else if is_floating (sv st Lfloat) then TreeModel.Done (BFC true (BlockLevelBoxes [BFloat st c])) else TreeModel.Done (BFC false (BlockLevelBoxes [Indep st c]))))
    (obind (construct_bfc st' l') (fun c => if is_absolutely_positioned (sv st Lposition) then TreeModel.Done (BFC false (BlockLevelBoxes [BAbspos st' c]))
      else if is_floating (sv st Lfloat) then TreeModel.Done (BFC true (BlockLevelBoxes [BFloat st' c])) else TreeModel.Done (BFC false (BlockLevelBoxes [Indep st' c]))))).
  { eapply zout_bind; [exact K|]. intros c c' C.
    destruct (is_absolutely_positioned _); [|destruct (is_floating _)]; cbn; do 2 constructor; (constructor; [constructor; assumption|constructor]). }
  destruct (sv st Ldisplay); [do 3 constructor|exact G|exact G].
Qed.

Section Document.
Variable style_of : DomModel.node_id -> option style -> style.
Lemma data_reletter d i : DomSpec.data_of (reletter re d) i = option_map (reletter_data re) (DomSpec.data_of d i).
Proof. unfold DomSpec.data_of, reletter. cbn [DomModel.nodes]. rewrite nth_error_map. destruct (nth_error _ _); reflexivity. Qed.
Lemma z_styled d : forall t p, zsnode (styled style_of d p t) (styled style_of (reletter re d) p t).
Proof.
  fix IH 1. intros [i ts] p. cbn [styled]. rewrite data_reletter. destruct (DomSpec.data_of d i) as [[]|]; cbn [option_map reletter_data]; try constructor; try reflexivity.
  induction ts as [|t ts IHt]; cbn [map]; constructor; [apply IH|exact IHt].
Qed.
Lemma z_construct_document d root : zout zbfc (construct_document style_of d root) (construct_document style_of (reletter re d) root).
Proof.
  destruct root as [i ts]. cbn [construct_document]. apply z_construct_root; [reflexivity|].
  induction ts as [|t ts IHt]; cbn [map]; constructor; [apply z_styled|exact IHt].
Qed.
Variable Q : list dcall -> list dcall -> Prop.
Hypothesis Q_nil : Q [] [].
Hypothesis Q_app : forall a a' b b', Q a a' -> Q b b' -> Q (a ++ b) (a' ++ b').
Hypothesis Q_box : forall x y w h, Q [DBBox x y w h] [DBBox x y w h].
Hypothesis Q_text : forall (st st' : style) t x y f, zst st st' -> Q [DText (label_of t) x y f (sv st Lcolor)] [DText (label_of (map re t)) x y f (sv st' Lcolor)].
Hypothesis Q_line : forall st st' ps w k, zst st st' ->
  Q [DLine ps (to_rgba st (sv st Lborder_top_color)) w k] [DLine ps (to_rgba st' (sv st' Lborder_top_color)) w k] /\
  Q [DLine ps (to_rgba st (sv st Lborder_right_color)) w k] [DLine ps (to_rgba st' (sv st' Lborder_right_color)) w k] /\
  Q [DLine ps (to_rgba st (sv st Lborder_bottom_color)) w k] [DLine ps (to_rgba st' (sv st' Lborder_bottom_color)) w k] /\
  Q [DLine ps (to_rgba st (sv st Lborder_left_color)) w k] [DLine ps (to_rgba st' (sv st' Lborder_left_color)) w k].
Hypothesis Q_background : forall st st' b, zst st st' -> Q (paint_background st b) (paint_background st' b).
Variable font_of : style -> font.
Hypothesis Hfont : forall s s', zst s s' -> font_of s' = font_of s.
Variable width_of : style -> text -> Len.
Hypothesis Hwidth : as_wide re width_of.
Lemma z_drawing d root page :
  Q (fst (drawing_calls font_of width_of style_of d root page)) (fst (drawing_calls font_of width_of style_of (reletter re d) root page)) /\
  snd (drawing_calls font_of width_of style_of (reletter re d) root page) = snd (drawing_calls font_of width_of style_of d root page).
Proof.
  unfold drawing_calls. pose proof (z_construct_document d root) as C.
  destruct (construct_document style_of d root) as [bx| |], (construct_document style_of (reletter re d) root) as [bx'| |]; try (exfalso; exact C); try (split; [exact Q_nil|reflexivity]).
  assert (Pa : forall s s', zst s s' -> f_ascent (font_of s') = f_ascent (font_of s)) by (intros s s' H; rewrite (Hfont s s' H); reflexivity).
  assert (Pd : forall s s', zst s s' -> f_descent (font_of s') = f_descent (font_of s)) by (intros s s' H; rewrite (Hfont s s' H); reflexivity).
  pose proof (z_layout_root (fun s => f_ascent (font_of s)) (fun s => f_descent (font_of s)) width_of Pa Pd Hwidth _ _ page C) as L.
  destruct (layout_root _ _ width_of bx page) as [fs| |], (layout_root _ _ width_of bx' page) as [fs'| |]; try (exfalso; exact L); try (split; [exact Q_nil|reflexivity]).
  pose proof (z_paint_page Q Q_nil Q_app Q_box Q_text Q_line Q_background font_of Hfont fs fs' page L) as P.
  destruct (paint_page font_of fs page), (paint_page font_of fs' page); try (exfalso; exact P); (split; [|reflexivity]); [exact P|exact Q_nil|exact Q_nil].
Qed.
End Document.
End Any.
