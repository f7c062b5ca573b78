(** Layout puts things at the same place across the page when only vertical properties change (proofs for C103).  As in
    RecolorProofs, but only the inline coordinates agree. *)
From Verif Require Import Base Len GeomModel StyleModel GfxModel InlineModel BlockModel TreeModel TreeSpec PaintModel UnsetModel ExceptSpec LevelSpec.
Local Open Scope len_scope.
Local Open Scope list_scope.
Local Open Scope result_scope.

Section Any.
Context {ar : Arith}.
(** related styles have the same values of all properties that are not vertical, and so do the anonymous styles below them *)
Variable zst : style -> style -> Prop.
Hypothesis z_sv_ : forall s s' l, zst s s' -> is_vertical l = false -> sv s' l = sv s l.
Hypothesis z_disp : forall s s', zst s s' -> s_specified_display s' = s_specified_display s.
Hypothesis z_anonymous : forall s s', zst s s' -> zst (anonymous_inheriting_from (Some s)) (anonymous_inheriting_from (Some s')).

(* ------------------------------------------------------------------ *)
(** * Coordinates across the page *)
Definition hs {A} (p p' : sides A) : Prop := s_inline_start p' = s_inline_start p /\ s_inline_end p' = s_inline_end p.
Definition hr (r r' : rect Len) : Prop := v_inline (r_start r') = v_inline (r_start r) /\ v_inline (r_size r') = v_inline (r_size r).
Definition hc (c c' : cblock) : Prop := cb_inline c' = cb_inline c.
Definition not_end (o : offsets) : Prop := match o with OEnd _ => False | _ => True end.
Lemma hs_map {A B} (f : A -> B) p p' : hs p p' -> hs (sides_map f p) (sides_map f p').
Proof. intros [H1 H2]. unfold hs, sides_map. cbn. rewrite H1, H2. auto. Qed.
Lemma hs_add p p' q q' : hs p p' -> hs q q' -> hs (sides_add p q) (sides_add p' q').
Proof. intros [H1 H2] [G1 G2]. unfold hs, sides_add. cbn. rewrite H1, H2, G1, G2. auto. Qed.
Lemma hs_sum p p' : hs p p' -> inline_sum p' = inline_sum p.
Proof. intros [H1 H2]. unfold inline_sum. rewrite H1, H2. reflexivity. Qed.
Lemma hs_zero_start p p' : hs p p' -> hs (zero_inline_start p) (zero_inline_start p').
Proof. intros [H1 H2]. split; cbn; auto. Qed.
Lemma hs_zero_end p p' : hs p p' -> hs (zero_inline_end p) (zero_inline_end p').
Proof. intros [H1 H2]. split; cbn; auto. Qed.
Lemma hs_lp p p' b : hs p p' -> hs (sides_lp_rel p b) (sides_lp_rel p' b).
Proof. apply hs_map. Qed.
Lemma hs_lpa p p' b : hs p p' -> hs (sides_lpa_rel p b) (sides_lpa_rel p' b).
Proof. apply hs_map. Qed.
Lemma hs_auto p p' d : hs p p' -> hs (sides_auto_is p d) (sides_auto_is p' d).
Proof. apply hs_map. Qed.
Lemma hr_inflate r r' p p' : hr r r' -> hs p p' -> hr (inflate r p) (inflate r' p').
Proof. intros [H1 H2] P. unfold hr, inflate. cbn. rewrite H1, H2, (hs_sum p p' P). destruct P as [-> _]. auto. Qed.
Lemma hr_shift r r' d d' : hr r r' -> hr (shift_block r d) (shift_block r' d').
Proof. intros [H1 H2]. split; cbn; auto. Qed.
Lemma hr_block r d : hr r (shift_block r d).
Proof. split; reflexivity. Qed.

(* ------------------------------------------------------------------ *)
(** * Styles *)
Ltac side := intros H; split; cbn; match goal with |- sv _ ?l = _ => exact (z_sv_ _ _ l H eq_refl) end.
Lemma z_padding s s' : zst s s' -> hs (style_padding s) (style_padding s'). Proof. side. Qed.
Lemma z_border s s' : zst s s' -> hs (style_border_width s) (style_border_width s'). Proof. side. Qed.
Lemma z_margin s s' : zst s s' -> hs (style_margin s) (style_margin s'). Proof. side. Qed.
Lemma z_offsets s s' : zst s s' -> hs (box_offsets s) (box_offsets s'). Proof. side. Qed.
Lemma z_size s s' : zst s s' -> v_inline (box_size s') = v_inline (box_size s).
Proof. intros H. cbn. exact (z_sv_ _ _ Lwidth H eq_refl). Qed.
Lemma z_relative s s' i b b' : zst s s' -> v_inline (relative_adjustement s' i b') = v_inline (relative_adjustement s i b).
Proof.
  intros H. unfold relative_adjustement. rewrite (z_sv_ s s' Lposition H) by reflexivity. destruct (is_relatively_positioned _); [|reflexivity].
  destruct (z_offsets s s' H) as [H1 H2]. cbn in *. rewrite H1, H2. reflexivity.
Qed.
Lemma z_not_end st c : not_from_right st -> is_absolutely_positioned (sv st Lposition) = true ->
  not_end (absolute_box_offsets c (s_inline_start (box_offsets st)) (s_inline_end (box_offsets st))).
Proof.
  intros N A. specialize (N A). cbn. unfold absolute_box_offsets. destruct (sv st Lleft); cbn; [destruct (sv st Lright); exact I..|]. rewrite (N eq_refl). exact I.
Qed.

(* ------------------------------------------------------------------ *)
(** * Fragments and results *)
Inductive zfrag : fragment -> fragment -> Prop :=
| ZFBox st st' ch ch' r r' p p' b b' m m' c c' : zst st st' -> Forall2 zfrag ch ch' -> hr r r' -> hs p p' -> hs b b' -> hs m m' ->
    zfrag (FBox st ch r p b m c) (FBox st' ch' r' p' b' m' c')
| ZFAnon r r' ch ch' : hr r r' -> Forall2 zfrag ch ch' -> zfrag (FAnon r ch) (FAnon r' ch')
| ZFText st st' r r' fo fo' sg : zst st st' -> hr r r' -> zst fo fo' -> zfrag (FText st r fo sg) (FText st' r' fo' sg).
Notation zfrags := (Forall2 zfrag).

(** nothing is said of results that are not both there *)
Definition zres {A B} (R : A -> B -> Prop) (r : result A) (r' : result B) : Prop :=
  match r, r' with Ok a, Ok b => R a b | _, _ => True end.
Lemma zres_bind {A B C D} (R : A -> B -> Prop) (Q : C -> D -> Prop) r r' f f' :
  zres R r r' -> (forall a b, R a b -> zres Q (f a) (f' b)) -> zres Q (bind r f) (bind r' f').
Proof. destruct r, r'; cbn; auto; intros _ _; destruct (f a); exact I. Qed.
Lemma zres_mapR {A B C D} (R : A -> B -> Prop) (Q : C -> D -> Prop) f f' l l' :
  Forall2 R l l' -> (forall a b, R a b -> zres Q (f a) (f' b)) -> zres (Forall2 Q) (mapR f l) (mapR f' l').
Proof.
  intros H Hf. induction H as [|a b l l' Hab _ IH]; cbn; [constructor|].
  eapply zres_bind; [apply Hf, Hab|]. intros u v Huv. eapply zres_bind; [apply IH|]. intros xs ys Hs. cbn. constructor; assumption.
Qed.
Definition zlay (lay lay' : offsets -> offsets -> vec2 Len -> result fragment) : Prop :=
  forall i b b' size size', not_end i -> v_inline size' = v_inline size -> zres zfrag (lay i b size) (lay' i b' size').
Definition zabs (a a' : abs_frag) : Prop :=
  af_rank a' = af_rank a /\ af_inline a' = af_inline a /\ not_end (af_inline a) /\ zlay (af_layout a) (af_layout a').
Notation zabss := (Forall2 zabs).
Definition zfa (x y : flow * list abs_frag) : Prop := zfrags (fl_fragments (fst x)) (fl_fragments (fst y)) /\ zabss (snd x) (snd y).

(** a box that is absolutely positioned, not by its right edge only *)
Definition free (st : style) : Prop := forall c, not_end (absolute_box_offsets c (s_inline_start (box_offsets st)) (s_inline_end (box_offsets st))).
Lemma z_abs_box st st' lay lay' c c' rank : zst st st' -> free st -> v_inline c' = v_inline c -> zlay lay lay' ->
  zabs (abs_box_layout st lay c rank) (abs_box_layout st' lay' c' rank).
Proof.
  intros H N E L. unfold abs_box_layout, zabs; cbn [af_rank af_inline af_layout]. destruct (z_offsets st st' H) as [-> ->]. rewrite E.
  split; [reflexivity|]. split; [reflexivity|]. split; [apply N|exact L].
Qed.
Lemma z_translate d d' f f' : zfrag f f' -> zfrag (translate_block d f) (translate_block d' f').
Proof. intros H. destruct H; cbn; constructor; try assumption; apply hr_shift; assumption. Qed.
Lemma z_no_op : zfrag anon_no_op anon_no_op.
Proof. unfold anon_no_op. constructor; [split; reflexivity|constructor]. Qed.

(* ------------------------------------------------------------------ *)
(** * Inline layout *)
Section Metrics.
Variables m_a m_d m_a' m_d' : style -> Len.
Variables m_w m_w' : style -> text -> Len.
Hypothesis Hw : forall s s', zst s s' -> m_w' s' = m_w s.

Definition zlevel (l l' : level) : Prop := zfrags (lv_fragments l) (lv_fragments l') /\ lv_inline_start l' = lv_inline_start l.
Record zpartial (p p' : partial) : Prop := {
  zp_style : zst (pt_style p) (pt_style p');
  zp_start : v_inline (pt_start p') = v_inline (pt_start p);
  zp_padding : hs (pt_padding p) (pt_padding p');
  zp_border : hs (pt_border p) (pt_border p');
  zp_margin : hs (pt_margin p) (pt_margin p');
  zp_last : pt_last p' = pt_last p;
  zp_parent : zlevel (pt_parent p) (pt_parent p')
}.
Definition zlines (l l' : lines) : Prop := zfrags (ln_boxes l) (ln_boxes l').
Record zifc (s s' : ifc) : Prop := {
  zi_lines : zlines (is_lines s) (is_lines s');
  zi_pos : is_pos s' = is_pos s;
  zi_stack : Forall2 zpartial (is_stack s) (is_stack s');
  zi_cur : zlevel (is_cur s) (is_cur s');
  zi_abs : zabss (is_abs s) (is_abs s')
}.
Lemma z_push l l' f f' : zlevel l l' -> zfrag f f' -> zlevel (push_fragment l f) (push_fragment l' f').
Proof. intros [F E] Hf. split; [apply Forall2_app; [exact F|repeat constructor; exact Hf]|exact E]. Qed.
Lemma z_max_assign l l' a d a' d' : zlevel l l' -> zlevel (max_assign l a d) (max_assign l' a' d').
Proof. intros [F E]. split; assumption. Qed.
Lemma z_level_next l l' : zlevel l l' -> zlevel (level_next_line l) (level_next_line l').
Proof. intros [F E]. split; [constructor|reflexivity]. Qed.
Lemma z_finish_layout p p' l l' pos b : zpartial p p' -> zlevel l l' ->
  zpartial (fst (finish_layout p l pos b)) (fst (finish_layout p' l' pos b)) /\
  snd (finish_layout p' l' pos b) = snd (finish_layout p l pos b).
Proof.
  intros [H1 H2 H3 H4 H5 H6 H7] [F E]. unfold finish_layout; cbn [fst snd].
  split; [|rewrite H6, (proj2 H3), (proj2 H4), (proj2 H5); reflexivity].
  constructor; cbn [pt_style pt_start pt_padding pt_border pt_margin pt_last pt_parent]; try assumption.
  apply z_push; [apply z_max_assign; assumption|]. rewrite H6. constructor; try assumption.
  - split; cbn; [exact H2|]. rewrite E. reflexivity.
  - destruct (pt_last p && negb b); [assumption|apply hs_zero_end; assumption].
  - destruct (pt_last p && negb b); [assumption|apply hs_zero_end; assumption].
  - destruct (pt_last p && negb b); [assumption|apply hs_zero_end; assumption].
Qed.
Lemma z_lines ls ls' top top' w pos ta : zlines ls ls' -> zlevel top top' ->
  zlines (lines_finish ls top w pos ta) (lines_finish ls' top' w pos ta).
Proof.
  intros B [F E]. unfold lines_finish, zlines; cbn [ln_boxes]. apply Forall2_app; [exact B|]. constructor; [|constructor].
  constructor; [split; reflexivity|]. induction F; cbn; constructor; [apply z_translate; assumption|assumption].
Qed.
Lemma z_next_line p p' : zpartial p p' -> zpartial (partial_next_line p) (partial_next_line p').
Proof. intros [H1 H2 H3 H4 H5 H6 H7]. constructor; cbn; try assumption; try reflexivity; apply hs_zero_start; assumption. Qed.
Lemma z_partial_parent p p' l l' : zpartial p p' -> zlevel l l' ->
  zpartial (Partial (pt_style p) (pt_start p) (pt_padding p) (pt_border p) (pt_margin p) (pt_ascent p) (pt_descent p) (pt_last p) l)
    (Partial (pt_style p') (pt_start p') (pt_padding p') (pt_border p') (pt_margin p') (pt_ascent p') (pt_descent p') (pt_last p') l').
Proof. intros [H1 H2 H3 H4 H5 H6 H7] L. constructor; cbn; assumption. Qed.
Lemma z_finish_partials stk stk' : Forall2 zpartial stk stk' -> forall l l' pos, zlevel l l' ->
  let x := finish_partials stk l pos in let y := finish_partials stk' l' pos in
  Forall2 zpartial (fst (fst x)) (fst (fst y)) /\ zlevel (snd (fst x)) (snd (fst y)) /\ snd y = snd x.
Proof.
  induction 1 as [|p p' stk stk' Hp _ IH]; intros l l' pos L; cbn [finish_partials]; cbv zeta.
  - split; [constructor|]. split; [exact L|reflexivity].
  - destruct (z_finish_layout p p' l l' pos true Hp L) as [P1 P2].
    destruct (finish_layout p l pos true) as [p1 pos1], (finish_layout p' l' pos true) as [p1' pos1']. cbn [fst snd] in *. subst pos1'.
    specialize (IH _ _ pos1 (zp_parent _ _ P1)). cbv zeta in IH.
    destruct (finish_partials stk (pt_parent p1) pos1) as [[r t] q], (finish_partials stk' (pt_parent p1') pos1) as [[r' t'] q'].
    cbn [fst snd] in *. destruct IH as (I1 & I2 & I3). split; [|split; assumption]. constructor; [|exact I1].
    exact (z_partial_parent _ _ _ _ (z_next_line _ _ P1) (z_level_next _ _ (zp_parent _ _ P1))).
Qed.
Lemma z_finish_line cb cb' ta s s' : hc cb cb' -> zifc s s' -> zifc (finish_line cb ta s) (finish_line cb' ta s').
Proof.
  intros Hc [L E K C A]. unfold finish_line. rewrite E.
  pose proof (z_finish_partials _ _ K _ _ (is_pos s) C) as P. cbv zeta in P.
  destruct (finish_partials (is_stack s) (is_cur s) (is_pos s)) as [[r t] q], (finish_partials (is_stack s') (is_cur s') (is_pos s)) as [[r' t'] q'].
  cbn [fst snd] in P. destruct P as (P1 & P2 & ->). rewrite Hc.
  constructor; cbn [is_lines is_pos is_stack is_cur is_abs]; [apply z_lines; assumption|reflexivity|exact P1|apply z_level_next; exact C|exact A].
Qed.
Lemma z_start_layout cb cb' st st' fi la_ s s' : hc cb cb' -> zst st st' -> zifc s s' ->
  zifc (start_layout m_a m_d cb st fi la_ s) (start_layout m_a' m_d' cb' st' fi la_ s').
Proof.
  intros Hc H [L E K C A]. unfold start_layout. rewrite Hc, E.
  pose proof (hs_lp _ _ (cb_inline cb) (z_padding st st' H)) as P. pose proof (hs_lp _ _ (cb_inline cb) (z_border st st' H)) as B.
  pose proof (hs_auto _ _ l0 (hs_lpa _ _ (cb_inline cb) (z_margin st st' H))) as M.
  assert (Z : forall x x' : sides Len, hs x x' -> hs (if fi then x else zero_inline_start x) (if fi then x' else zero_inline_start x')) by (intros x x' X; destruct fi; [exact X|apply hs_zero_start, X]).
  apply Z in P. apply Z in B. apply Z in M. rewrite (proj1 P), (proj1 B), (proj1 M).
  constructor; cbn [is_lines is_pos is_stack is_cur is_abs]; [exact L|reflexivity| |split; [constructor|reflexivity]|exact A].
  constructor; [|exact K]. constructor; cbn [pt_style pt_start pt_padding pt_border pt_margin pt_last pt_parent]; try assumption; [|reflexivity].
  cbn. rewrite (z_relative st st' _ (cb_block cb) _ H), (proj2 C). reflexivity.
Qed.
Lemma z_add_text st st' fo fo' sg n s s' : zst st st' -> zst fo fo' -> zifc s s' ->
  zifc (add_text m_a m_d m_w st fo sg n s) (add_text m_a' m_d' m_w' st' fo' sg n s').
Proof.
  intros H Hf [L E K C A]. unfold add_text. rewrite (Hw fo fo' Hf), E.
  destruct (seg_advance (m_w fo) sg) as [w sg1], (line_ascent_descent m_a m_d st fo) as [a d], (line_ascent_descent m_a' m_d' st' fo') as [a' d'].
  assert (M2 : zlevel (if negb (seg_empty sg1) || n then max_assign (is_cur s) (a - lv_baseline (is_cur s)) (d + lv_baseline (is_cur s)) else is_cur s)
     (if negb (seg_empty sg1) || n then max_assign (is_cur s') (a' - lv_baseline (is_cur s')) (d' + lv_baseline (is_cur s')) else is_cur s')).
  { destruct (negb (seg_empty sg1) || n); [apply z_max_assign|]; exact C. }
  destruct (negb (seg_empty sg1)).
  - constructor; cbn [is_lines is_pos is_stack is_cur is_abs]; [exact L|reflexivity|exact K| |exact A].
    apply z_push; [exact M2|]. constructor; [exact H| |exact Hf]. split; cbn; [rewrite (proj2 C)|]; reflexivity.
  - unfold set_cur. constructor; cbn [is_lines is_pos is_stack is_cur is_abs]; [exact L|exact E|exact K|exact M2|exact A].
Qed.
Lemma z_wrap_line fo fo' av : zst fo fo' -> forall chars sg lb, wrap_line m_w' fo' av chars sg lb = wrap_line m_w fo av chars sg lb.
Proof.
  intros H. induction chars as [|ch rest IH]; intros sg lb; cbn; rewrite (Hw fo fo' H); [reflexivity|].
  destruct (seg_advance (m_w fo) sg) as [w sg1]. destruct (if is_break_char ch then _ else _) as [over sg2].
  destruct over; [reflexivity|]. destruct (N.eqb ch nl); [reflexivity|]. apply IH.
Qed.
Lemma z_wrap_loop cb cb' ta st st' fo fo' : hc cb cb' -> zst st st' -> zst fo fo' -> forall fuel chars sg lb s s', zifc s s' ->
  zres zifc (wrap_loop m_a m_d m_w fuel cb ta st fo chars sg lb s) (wrap_loop m_a' m_d' m_w' fuel cb' ta st' fo' chars sg lb s').
Proof.
  intros Hc H Hf. induction fuel as [|fuel IH]; intros chars sg lb s s' Hs; cbn [wrap_loop]; [exact I|].
  rewrite (zi_pos _ _ Hs), (z_wrap_line fo fo' _ Hf), Hc. destruct (wrap_line m_w fo _ chars sg lb) as [[[sg1 ch1] n1]| |]; cbn [bind]; try exact I.
  pose proof (z_add_text st st' fo fo' sg1 n1 s s' H Hf Hs) as T.
  destruct (negb _ || n1); [|exact T]. rewrite (Hw fo fo' Hf). apply IH. exact (z_finish_line cb cb' ta _ _ Hc T).
Qed.
Lemma z_nowrap_loop cb cb' ta st st' fo fo' : hc cb cb' -> zst st st' -> zst fo fo' -> forall fuel chars s s', zifc s s' ->
  zres zifc (nowrap_loop m_a m_d m_w fuel cb ta st fo chars s) (nowrap_loop m_a' m_d' m_w' fuel cb' ta st' fo' chars s').
Proof.
  intros Hc H Hf. induction fuel as [|fuel IH]; intros chars s s' Hs; cbn [nowrap_loop]; [exact I|].
  destruct (nowrap_line chars seg_new) as [[sg1 ch1] n1].
  pose proof (z_add_text st st' fo fo' sg1 n1 s s' H Hf Hs) as T.
  destruct (negb _ || n1); [|exact T]. apply IH. exact (z_finish_line cb cb' ta _ _ Hc T).
Qed.
Lemma z_text_run cb cb' ta st st' fo fo' t s s' : hc cb cb' -> zst st st' -> zst fo fo' -> zifc s s' ->
  zres zifc (text_run_layout m_a m_d m_w cb ta st fo t s) (text_run_layout m_a' m_d' m_w' cb' ta st' fo' t s').
Proof.
  intros Hc H Hf Hs. unfold text_run_layout. rewrite (z_sv_ st st' Lwhite_space H) by reflexivity.
  destruct (sv st Lwhite_space); first [apply z_nowrap_loop; assumption | exact (z_wrap_loop cb cb' ta st st' fo fo' Hc H Hf _ t seg_new (Some (seg_save seg_new, t)) s s' Hs)].
Qed.

Inductive zilb {C D} (R : style -> style -> C -> D -> Prop) : ilb C -> ilb D -> Prop :=
| ZInline st st' fi la_ ch ch' : zst st st' -> Forall2 (zilb R) ch ch' -> zilb R (InlineBox st fi la_ ch) (InlineBox st' fi la_ ch')
| ZRun st st' t fo fo' : zst st st' -> zst fo fo' -> zilb R (TextRun st t fo) (TextRun st' t fo')
| ZIAbs st st' c c' : zst st st' -> free st -> R st st' c c' -> zilb R (IAbspos st c) (IAbspos st' c')
| ZIFloat st st' c c' : zst st st' -> zilb R (IFloat st c) (IFloat st' c').
Lemma z_steps {C D} (R : style -> style -> C -> D -> Prop) : forall b b', zilb R b b' -> ilb_steps b' = ilb_steps b.
Proof.
  fix IH 3. intros b b' H. destruct H as [st st' fi la_ ch ch' Hs F| | |]; try reflexivity. cbn. do 3 f_equal.
  induction F as [|x y l l' Hxy F IHF]; [reflexivity|]. cbn. f_equal; [exact (IH _ _ Hxy)|exact IHF].
Qed.
Definition zlays (st st' : style) (l l' : abs_lay) : Prop := zlay l l'.

Lemma z_ifc_loop cb cb' ta rank : hc cb cb' -> forall fuel rems rems' s s', Forall2 (Forall2 (zilb zlays)) rems rems' -> zifc s s' ->
  zres zifc (ifc_loop m_a m_d m_w fuel cb ta rank rems s) (ifc_loop m_a' m_d' m_w' fuel cb' ta rank rems' s').
Proof.
  intros Hc. induction fuel as [|fuel IH]; intros rems rems' s s' HR Hs; cbn [ifc_loop]; [exact I|].
  assert (T : Forall2 (Forall2 (zilb zlays)) (tl rems) (tl rems')) by (destruct HR; [constructor|assumption]).
  assert (Hh : Forall2 (zilb zlays) (hd [] rems) (hd [] rems')) by (destruct HR; [constructor|assumption]).
  destruct Hh as [|child child' rest rest' Hch Hr].
  - pose proof Hs as [L E K C A]. rewrite E.
    destruct K as [|p p' stk0 stk0' Hp Hk']; [exact (z_finish_line cb cb' ta _ _ Hc Hs)|].
    destruct (z_finish_layout p p' _ _ (is_pos s) false Hp C) as [P1 P2].
    destruct (finish_layout p (is_cur s) (is_pos s) false) as [p1 pos1], (finish_layout p' (is_cur s') (is_pos s) false) as [p1' pos1']. cbn [fst snd] in *. subst pos1'.
    apply IH; [exact T|]. constructor; cbn [is_lines is_pos is_stack is_cur is_abs]; [exact L|reflexivity|exact Hk'|exact (zp_parent _ _ P1)|exact A].
  - destruct Hch as [st st' fi la_ ch ch' H F|st st' t fo fo' H Hf|st st' lay lay' H HN HL|st st' lay lay' H].
    + apply IH; [constructor; [exact F|constructor; assumption]|]. apply z_start_layout; assumption.
    + eapply zres_bind; [apply z_text_run; eassumption|]. intros a b Hab. apply IH; [constructor; assumption|exact Hab].
    + eapply (zres_bind (fun c c' => v_inline c' = v_inline c)).
      * unfold inline_static_corner. rewrite (z_disp _ _ H), (zi_pos _ _ Hs). destruct (s_specified_display st) as [| |[] ?]; cbn; try exact I; reflexivity.
      * intros c c' Ec. apply IH; [constructor; assumption|]. destruct Hs as [L E K C A]. unfold push_abs.
        constructor; cbn [is_lines is_pos is_stack is_cur is_abs]; try assumption. apply Forall2_app; [exact A|]. constructor; [|constructor]. apply z_abs_box; assumption.
    + apply IH; [constructor; assumption|exact Hs].
Qed.
Lemma z_ifc_layout par par' boxes boxes' cb cb' rank abs abs' : hc cb cb' -> zst par par' -> Forall2 (zilb zlays) boxes boxes' -> zabss abs abs' ->
  zres zfa (ifc_layout m_a m_d m_w par boxes cb rank abs) (ifc_layout m_a' m_d' m_w' par' boxes' cb' rank abs').
Proof.
  intros Hc H F A. unfold ifc_layout. rewrite (z_sv_ par par' Ltext_align H) by reflexivity.
  assert (E : boxes_steps boxes' = boxes_steps boxes).
  { unfold boxes_steps. f_equal. induction F; cbn; f_equal; [eapply z_steps; eassumption|assumption]. }
  rewrite E. eapply zres_bind; [apply z_ifc_loop; [exact Hc|constructor; [exact F|constructor]|]|].
  - unfold ifc_start. constructor; cbn [is_lines is_pos is_stack is_cur is_abs]; [constructor|reflexivity|constructor|split; [constructor|reflexivity]|exact A].
  - intros s s' [L E1 K C A1]. cbn. split; [exact L|exact A1].
Qed.

(* ------------------------------------------------------------------ *)
(** * Block layout *)
Definition zplaced {P} (x y : fragment * P) : Prop := zfrag (fst x) (fst y).
Lemma z_place f f' s s' : zfrag f f' -> zres zplaced (place f s) (place f' s').
Proof.
  intros H.
  assert (G : forall f s, match place f s with Ok (g, _) => exists d, g = translate_block d f \/ g = f | _ => True end).
  { clear. intros [st ch r p b m c|r ch|] s; cbn; [| |exact I].
    - destruct (pl_collapses s); [destruct (leqb (cm_solve (pl_margin s)) l0); [|exact I]|]; destruct (cb_through c); first [exists l0; right; reflexivity | eexists; left; reflexivity].
    - destruct ch; [|exact I]. destruct (leqb _ l0); [|exact I]. eexists. left. reflexivity. }
  pose proof (G f s) as G1. pose proof (G f' s') as G2. destruct (place f s) as [[g ?]| |], (place f' s') as [[g' ?]| |]; cbn; try exact I.
  unfold zplaced; cbn.
  assert (T0 : forall d f f', zfrag f f' -> zfrag (translate_block d f) f') by (intros d h h' Z; destruct Z as [? ? ? ? r r' ? ? ? ? ? ? ? ? ? ? R|r r' ? ? R|? ? r r' ? ? ? ? R]; cbn; constructor; try assumption; destruct R; split; assumption).
  assert (T1 : forall d f f', zfrag f f' -> zfrag f (translate_block d f')) by (intros d h h' Z; destruct Z as [? ? ? ? r r' ? ? ? ? ? ? ? ? ? ? R|r r' ? ? R|? ? r r' ? ? ? ? R]; cbn; constructor; try assumption; destruct R; split; assumption).
  destruct G1 as (d1 & [->| ->]), G2 as (d2 & [->| ->]); auto.
Qed.
Lemma z_nth {A} (R : A -> A -> Prop) l l' : Forall2 R l l' -> forall n,
  match nth_error l n, nth_error l' n with Some x, Some y => R x y | None, None => True | _, _ => False end.
Proof. induction 1 as [|x y l l' Hxy _ IH]; intros [|n]; cbn; [exact I|exact I|exact Hxy|exact (IH n)]. Qed.
Lemma z_adjust_one fs fs' rank a a' : zfrags fs fs' -> zabs a a' -> zres zabs (adjust_one fs rank a) (adjust_one fs' rank a').
Proof.
  intros F (A2 & A3 & A4 & A5). unfold adjust_one. rewrite A2. pose proof (z_nth _ _ _ F (af_rank a)) as N.
  destruct (nth_error fs (af_rank a)) as [f|], (nth_error fs' (af_rank a)) as [f'|]; cbn; try tauto.
  eapply (zres_bind hr); [destruct N; cbn; auto|].
  intros r r' [R _]. cbn. unfold zabs; cbn. rewrite A3, R. repeat split; auto. destruct (af_inline a); exact A4 || exact I.
Qed.
Lemma z_firstn {A B} (R : A -> B -> Prop) l l' : Forall2 R l l' -> forall n, Forall2 R (firstn n l) (firstn n l').
Proof. induction 1; intros [|n]; cbn; constructor; auto. Qed.
Lemma z_skipn {A B} (R : A -> B -> Prop) l l' : Forall2 R l l' -> forall n, Forall2 R (skipn n l) (skipn n l').
Proof. induction 1; intros [|n]; cbn; auto; constructor; auto. Qed.
Lemma z_adjust n abs abs' fs fs' rank : zabss abs abs' -> zfrags fs fs' ->
  zres zabss (adjust_static_positions n abs fs rank) (adjust_static_positions n abs' fs' rank).
Proof.
  intros A F. unfold adjust_static_positions. eapply zres_bind.
  - apply (zres_mapR zabs zabs); [apply z_skipn, A|]. intros a a' Ha'. apply z_adjust_one; assumption.
  - intros l l' L. cbn. apply Forall2_app; [apply z_firstn, A|exact L].
Qed.
Lemma z_in_positioned abs abs' fs fs' size size' p p' : zabss abs abs' -> zfrags fs fs' -> v_inline size' = v_inline size -> hs p p' ->
  zres zfrags (in_positioned_containing_block abs fs size p) (in_positioned_containing_block abs' fs' size' p').
Proof.
  intros A F E P. unfold in_positioned_containing_block. destruct A as [|a a' l l' Haa A]; [exact F|].
  assert (R : hr (inflate (Rect vec2_zero size) p) (inflate (Rect vec2_zero size') p')) by (apply hr_inflate; [split; [reflexivity|exact E]|exact P]).
  eapply zres_bind.
  - eapply (zres_mapR zabs zfrag); [constructor; eassumption|]. intros u v (_ & X3 & X4 & X5). rewrite X3. apply X5; [exact X4|exact (proj2 R)].
  - intros u u' U. cbn. apply Forall2_app; [exact F|]. constructor; [|constructor]. constructor; [exact R|exact U].
Qed.
Section InFlow.
Variable cb cb' : cblock.
Hypothesis Hc : hc cb cb'.
Variables st st' : style.
Hypothesis H : zst st st'.
Variable same : bool.
Lemma z_if_padding : hs (if_padding cb st) (if_padding cb' st').
Proof. unfold if_padding. rewrite Hc. apply hs_lp, z_padding, H. Qed.
Lemma z_if_border : hs (if_border cb st) (if_border cb' st').
Proof. unfold if_border. rewrite Hc. apply hs_lp, z_border, H. Qed.
Lemma z_if_pb : hs (if_pb cb st) (if_pb cb' st').
Proof. apply hs_add; [apply z_if_padding|apply z_if_border]. Qed.
Lemma z_if_cis : if_computed_inline_size cb' st' = if_computed_inline_size cb st.
Proof. unfold if_computed_inline_size. rewrite (z_size st st' H), Hc. reflexivity. Qed.
Lemma z_if_margin : hs (if_margin cb st) (if_margin cb' st').
Proof.
  unfold if_margin. rewrite z_if_cis, Hc. apply hs_auto. pose proof (hs_lpa _ _ (cb_inline cb) (z_margin st st' H)) as M.
  unfold solve_inline_margins. destruct (if_computed_inline_size cb st); [|exact M]. rewrite (hs_sum _ _ z_if_pb). destruct M as [-> ->].
  destruct (s_inline_start _), (s_inline_end _); split; reflexivity.
Qed.
Lemma z_if_inline : if_inline_size cb' st' = if_inline_size cb st.
Proof. unfold if_inline_size. rewrite z_if_cis, (hs_sum _ _ z_if_pb), (hs_sum _ _ z_if_margin), Hc. reflexivity. Qed.
Lemma z_if_children : hc (if_children_cb cb st) (if_children_cb cb' st').
Proof. unfold hc, if_children_cb. cbn. apply z_if_inline. Qed.
Lemma z_if_content fl fl' : hr (if_content cb st same fl) (if_content cb' st' same fl').
Proof.
  unfold if_content. split; cbn [r_start r_size v_inline]; [|apply z_if_inline]. rewrite z_if_inline, (z_relative st st' _ (if_block_size cb st) _ H).
  rewrite (proj1 z_if_pb), (proj1 z_if_margin). reflexivity.
Qed.
Definition zfragabs (x y : fragment * list abs_frag) : Prop := zfrag (fst x) (fst y) /\ zabss (snd x) (snd y).
Lemma z_in_flow abs abs' lay lay' : zabss abs abs' ->
  (forall c c' a a' b b', hc c c' -> zabss a a' -> zres zfa (lay c a b) (lay' c' a' b')) ->
  zres zfragabs (layout_in_flow cb st same abs lay) (layout_in_flow cb' st' same abs' lay').
Proof.
  intros A L. unfold layout_in_flow. rewrite (z_sv_ st st' Lposition H) by reflexivity.
  set (rel := is_relatively_positioned (sv st Lposition)).
  eapply zres_bind; [apply L; [apply z_if_children|destruct rel; [constructor|exact A]]|]. intros [fl a1] [fl' a1'] [F A1]. cbn [fst snd] in *.
  eapply (zres_bind zfrags).
  - destruct rel; [|exact F]. apply z_in_positioned; [exact A1|exact F|exact (proj2 (z_if_content fl fl'))|apply z_if_padding].
  - intros ch ch' C. cbn. split; cbn; [|destruct rel; assumption]. constructor; [assumption..|apply z_if_content|apply z_if_padding|apply z_if_border|apply z_if_margin].
Qed.
End InFlow.
Lemma solve_start w pb s e f o sz : not_end o -> match solve_axis w pb s e f o sz with (AStart _, _, _, _) => True | _ => False end.
Proof.
  intros N. unfold solve_axis. destruct o; try exact I; [contradiction|]. destruct (lpa_rel sz w); [|exact I].
  destruct s, e; try exact I. destruct (f _). exact I.
Qed.
Lemma z_abs_layout st st' lay lay' : zst st st' -> (forall c c', hc c c' -> zres zfa (lay c) (lay' c')) -> zlay (abs_layout st lay) (abs_layout st' lay').
Proof.
  intros H L oi ob ob' size size' N E. unfold abs_layout. cbv zeta. rewrite E, (z_size st st' H).
  pose proof (hs_lp _ _ (v_inline size) (z_padding st st' H)) as P. pose proof (hs_lp _ _ (v_inline size) (z_border st st' H)) as B.
  pose proof (hs_lpa _ _ (v_inline size) (z_margin st st' H)) as M. pose proof (hs_add _ _ _ _ P B) as PB.
  rewrite (hs_sum _ _ PB). destruct M as [-> ->].
  match goal with |- context [solve_axis (v_inline size) ?a ?b ?c ?d oi ?e] => pose proof (solve_start (v_inline size) a b c d oi e N) as S; destruct (solve_axis (v_inline size) a b c d oi e) as [[[ia is] mis] mie] end.
  match goal with |- context [solve_axis (v_inline size) ?a ?b ?c ?d ob ?e] => destruct (solve_axis (v_inline size) a b c d ob e) as [[[ba bs] mbs] mbe] end.
  match goal with |- context [solve_axis (v_inline size) ?a ?b ?c ?d ob' ?e] => destruct (solve_axis (v_inline size) a b c d ob' e) as [[[ba' bs'] mbs'] mbe'] end.
  destruct ia as [i0|]; [|contradiction].
  eapply zres_bind; [apply L; reflexivity|]. intros [fl a1] [fl' a1'] [F A1]. cbn [fst snd] in *.
  eapply zres_bind; [apply z_in_positioned; [exact A1|exact F|reflexivity|exact P]|]. intros ch ch' C. cbn [zres].
  constructor; [exact H|exact C| |exact P|exact B|split; reflexivity]. split; cbn [r_start r_size v_inline]; [|reflexivity]. rewrite (proj1 PB). reflexivity.
Qed.

Definition zblay (b b' : blb_lay) : Prop :=
  forall cb cb' rank abs abs' fl, hc cb cb' -> zabss abs abs' -> zres zfragabs (b cb rank abs fl) (b' cb' rank abs' fl).
Definition zfloats (x y : list fragment * list abs_frag * placement) : Prop :=
  zfrags (fst (fst x)) (fst (fst y)) /\ zabss (snd (fst x)) (snd (fst y)).
Lemma z_children_floats bs bs' : Forall2 zblay bs bs' -> forall cb cb' rank abs abs' s s', hc cb cb' -> zabss abs abs' ->
  zres zfloats (children_floats bs cb rank abs s) (children_floats bs' cb' rank abs' s').
Proof.
  induction 1 as [|b b' bs bs' Hb _ IH]; intros cb cb' rank abs abs' s s' Hc A; cbn [children_floats].
  - split; [constructor|exact A].
  - eapply zres_bind; [apply Hb; [exact Hc|exact A]|]. intros [f a1] [f' a1'] [F A1]. cbn [fst snd] in *.
    eapply zres_bind; [apply (z_place _ _ s s'), F|]. intros [f1 s1] [f1' s1'] F1. unfold zplaced in F1. cbn [fst snd] in *.
    eapply zres_bind; [apply IH; [exact Hc|exact A1]|]. intros [[fs a2] s2] [[fs' a2'] s2'] (G1 & G2). cbn [fst snd] in *. cbn.
    split; [constructor; assumption|assumption].
Qed.
Definition zfsabs (x y : list fragment * list abs_frag) : Prop := zfrags (fst x) (fst y) /\ zabss (snd x) (snd y).
Lemma z_children_layout bs bs' : Forall2 zblay bs bs' -> forall cb cb' rank abs abs', hc cb cb' -> zabss abs abs' ->
  zres zfsabs (children_layout bs cb rank abs) (children_layout bs' cb' rank abs').
Proof.
  induction 1 as [|b b' bs bs' Hb _ IH]; intros cb cb' rank abs abs' Hc A; cbn [children_layout].
  - split; [constructor|exact A].
  - eapply zres_bind; [apply Hb; [exact Hc|exact A]|]. intros [f a1] [f' a1'] [F A1]. cbn [fst snd] in *.
    eapply zres_bind; [apply IH; [exact Hc|exact A1]|]. intros [fs a2] [fs' a2'] (G1 & G2). cbn. split; [constructor; assumption|assumption].
Qed.
Definition zplaceds (x y : list fragment * placement) : Prop := zfrags (fst x) (fst y).
Lemma z_place_all fs fs' : zfrags fs fs' -> forall s s', zres zplaceds (place_all fs s) (place_all fs' s').
Proof.
  induction 1 as [|f f' fs fs' Hf _ IH]; intros s s'; cbn [place_all]; [constructor|].
  eapply zres_bind; [apply z_place, Hf|]. intros [f1 s1] [f1' s1'] F1. unfold zplaced in F1. cbn [fst snd] in *.
  eapply zres_bind; [apply IH|]. intros [g s2] [g' s2'] G1. unfold zplaceds in *. cbn in *. constructor; assumption.
Qed.
Lemma z_length {A B} (R : A -> B -> Prop) l l' : Forall2 R l l' -> List.length l' = List.length l.
Proof. induction 1; cbn; congruence. Qed.
Lemma z_children bs bs' cb cb' rank abs abs' floats coll coll' : Forall2 zblay bs bs' -> hc cb cb' -> zabss abs abs' ->
  zres zfa (layout_block_level_children bs cb rank abs floats coll) (layout_block_level_children bs' cb' rank abs' floats coll').
Proof.
  intros F Hc A. unfold layout_block_level_children. eapply (zres_bind zfloats).
  - destruct floats.
    + apply z_children_floats; assumption.
    + eapply zres_bind; [apply z_children_layout; eassumption|]. intros [fs a1] [fs' a1'] [G1 G2]. cbn [fst snd] in *.
      eapply zres_bind; [apply z_place_all, G1|]. intros [g s] [g' s'] H1. unfold zplaceds in H1. cbn in *. split; [exact H1|exact G2].
  - intros [[fs a1] s] [[fs' a1'] s'] (G1 & G2). cbn [fst snd] in *. rewrite (z_length _ _ _ A).
    eapply zres_bind; [apply z_adjust; eassumption|]. intros a2 a2' A2. cbn. split; [exact G1|exact A2].
Qed.
Lemma z_bfc_finish r r' : zres zfa r r' -> zres zfa (bfc_finish r) (bfc_finish r').
Proof. intros R. unfold bfc_finish. eapply zres_bind; [exact R|]. intros [fl a] [fl' a'] [F A]. cbn in *. split; [exact F|exact A]. Qed.

(** Box trees *)
Inductive zblb : blb -> blb -> Prop :=
| ZSame st st' c c' : zst st st' -> zcont c c' -> zblb (SameFC st c) (SameFC st' c')
| ZAbs st st' c c' : zst st st' -> free st -> zbfc c c' -> zblb (BAbspos st c) (BAbspos st' c')
| ZFloat st st' c c' : zst st st' -> zbfc c c' -> zblb (BFloat st c) (BFloat st' c')
| ZIndep st st' c c' : zst st st' -> zbfc c c' -> zblb (Indep st c) (Indep st' c')
with zcont : bcontainer -> bcontainer -> Prop :=
| ZBlocks l l' : Forall2 zblb l l' -> zcont (BlockLevelBoxes l) (BlockLevelBoxes l')
| ZInlines p p' l l' : zst p p' -> Forall2 (zilb (fun _ _ => zbfc)) l l' -> zcont (InlineFC p l) (InlineFC p' l')
with zbfc : bfc -> bfc -> Prop :=
| ZBfc fl c c' : zcont c c' -> zbfc (BFC fl c) (BFC fl c').

Lemma z_blb (b b' : blb) (H : zblb b b') : zblay (layout_blb m_a m_d m_w b) (layout_blb m_a' m_d' m_w' b')
with z_cont (c c' : bcontainer) (HC : zcont c c') : forall cb cb' rank abs abs' fl co co', hc cb cb' -> zabss abs abs' ->
  zres zfa (layout_container m_a m_d m_w c cb rank abs fl co) (layout_container m_a' m_d' m_w' c' cb' rank abs' fl co')
with z_bfc (c c' : bfc) (HB : zbfc c c') : forall cb cb' rank abs abs', hc cb cb' -> zabss abs abs' ->
  zres zfa (layout_bfc m_a m_d m_w c cb rank abs) (layout_bfc m_a' m_d' m_w' c' cb' rank abs').
Proof.
  - intros cb cb' rank abs abs' fl Hcb A. destruct H as [st st' c c' Hs Hc|st st' c c' Hs Hn Hc|st st' c c' Hs Hc|st st' c c' Hs Hc]; cbn [layout_blb].
    + apply z_in_flow; [exact Hcb|exact Hs|exact A|]. intros cb1 cb2 a a' co co' Hh Haa. apply z_cont; assumption.
    + split; cbn; [apply z_no_op|]. apply Forall2_app; [exact A|]. constructor; [|constructor]. apply z_abs_box; [exact Hs|exact Hn|reflexivity|].
      apply z_abs_layout; [exact Hs|]. intros cb1 cb2 Hh. apply z_bfc; [exact Hc|exact Hh|constructor].
    + split; cbn; [apply z_no_op|exact A].
    + apply z_in_flow; [exact Hcb|exact Hs|exact A|]. intros cb1 cb2 a a' co co' Hh Haa. apply z_bfc; assumption.
  - intros cb cb' rank abs abs' fl co co' Hcb A. destruct HC as [l l' F|p p' l l' Hp F]; cbn [layout_container].
    + apply z_children; [|exact Hcb|exact A]. induction F as [|x y l l' Hxy F IHF]; cbn; constructor; [apply z_blb; exact Hxy|exact IHF].
    + apply z_ifc_layout; [exact Hcb|exact Hp| |exact A].
      induction F as [|x y l l' Hxy F IHF]; cbn [map]; constructor; [|exact IHF]. clear IHF F.
      revert x y Hxy. fix IHi 3. intros x y Hxy. destruct Hxy as [st st' fi la_ ch ch' Hs G|st st' t fo fo' Hs Hf|st st' c c' Hs Hn Hc|st st' c c' Hs]; cbn [ilb_map].
      * constructor; [exact Hs|]. induction G as [|u v ch ch' Huv G IHG]; cbn [map]; constructor; [apply IHi; exact Huv|exact IHG].
      * constructor; assumption.
      * constructor; [exact Hs|exact Hn|]. apply z_abs_layout; [exact Hs|]. intros cb1 cb2 Hh. apply z_bfc; [exact Hc|exact Hh|constructor].
      * constructor; exact Hs.
  - intros cb cb' rank abs abs' Hcb A. destruct HB as [fl c c' Hc]. cbn [layout_bfc]. apply z_bfc_finish. apply z_cont; assumption.
Qed.

Lemma z_layout_root c c' vp vp' : zbfc c c' -> v_inline vp' = v_inline vp ->
  zres zfrags (layout_root m_a m_d m_w c vp) (layout_root m_a' m_d' m_w' c' vp').
Proof.
  intros H E. unfold layout_root.
  eapply zres_bind; [apply z_bfc; [exact H|exact E|constructor]|]. intros [fl a] [fl' a'] [F A]. cbn [fst snd] in *.
  eapply (zres_bind zfrags).
  - eapply (zres_mapR zabs zfrag); [exact A|]. intros u v (_ & X3 & X4 & X5). rewrite X3. apply X5; assumption.
  - intros u u' U. cbn. apply Forall2_app; assumption.
Qed.

End Metrics.

(* ------------------------------------------------------------------ *)
(** * Box construction *)
Notation zi := (zilb (fun _ _ => zbfc)).
Notation zis := (Forall2 zi).
Definition zout {A B} (R : A -> B -> Prop) (r : TreeModel.outcome A) (r' : TreeModel.outcome B) : Prop :=
  match r, r' with TreeModel.Done a, TreeModel.Done b => R a b | Panics, Panics => True | Fatal, Fatal => True | _, _ => False end.
Lemma zout_bind {A B C D} (R : A -> B -> Prop) (Q : C -> D -> Prop) r r' f f' :
  zout R r r' -> (forall a b, R a b -> zout Q (f a) (f' b)) -> zout Q (obind r f) (obind r' f').
Proof. destruct r, r'; cbn; try tauto. auto. Qed.
Lemma zout_slot {A B} (R : A -> B -> Prop) r r' : zout R r r' -> zout R (with_slot r) (with_slot r').
Proof. destruct r, r'; cbn; tauto. Qed.
Inductive zong : ongoing -> ongoing -> Prop :=
| ZOng st st' f c c' : zst st st' -> zis c c' -> zong (Ongoing st f c) (Ongoing st' f c').
Definition zcf (x y : bcontainer * bool) : Prop := zcont (fst x) (fst y) /\ snd y = snd x.
Inductive zinter : inter -> inter -> Prop :=
| ZMAnon st st' ps ps' l l' : zst st st' -> zst ps ps' -> zis l l' -> zinter (MAnon st ps l) (MAnon st' ps' l')
| ZMDef st st' r r' : zst st st' -> zout zcf r r' -> zinter (MDeferred st r) (MDeferred st' r')
| ZMInd st st' r r' : zst st st' -> zout zbfc r r' -> zinter (MIndep st r) (MIndep st' r')
| ZMAbs st st' r r' : zst st st' -> free st -> zout zbfc r r' -> zinter (MAbspos st r) (MAbspos st' r')
| ZMFlo st st' r r' : zst st st' -> zout zbfc r r' -> zinter (MFloat st r) (MFloat st' r').
Inductive zbuilder : builder -> builder -> Prop :=
| ZBuilder st st' b b' i i' s s' f : zst st st' -> Forall2 zinter b b' -> zis i i' -> Forall2 zong s s' ->
    zbuilder (Builder st b i s f) (Builder st' b' i' s' f).
Lemma z_current b b' : zbuilder b b' -> zis (current b) (current b').
Proof. intros [st st' bx bx' i i' s s' f H1 H2 H3 H4]. unfold current; cbn. destruct H4 as [|o o' ? ? Ho]; [exact H3|]. destruct Ho; assumption. Qed.
Lemma z_set_current b b' l l' : zbuilder b b' -> zis l l' -> zbuilder (set_current b l) (set_current b' l').
Proof.
  intros [st st' bx bx' i i' s s' f H1 H2 H3 H4] L. unfold set_current; cbn. destruct H4 as [|o o' ? ? Ho]; constructor; auto.
  constructor; [|assumption]. destruct Ho; constructor; assumption.
Qed.
Lemma z_push_box b b' m m' : zbuilder b b' -> zinter m m' -> zbuilder (push_box b m) (push_box b' m').
Proof. intros [st st' bx bx' i i' s s' f H1 H2 H3 H4] M. unfold push_box; cbn. constructor; auto. apply Forall2_app; [assumption|constructor; [assumption|constructor]]. Qed.
Lemma z_search b b' : zi b b' -> search_box b' = search_box b.
Proof.
  revert b b'. fix IH 3. intros b b' H. destruct H as [st st' fi la_ ch ch' Hs F| | |]; try reflexivity. cbn.
  induction F as [|x y l l' Hxy F IHF]; [reflexivity|]. cbn. rewrite IHF, (IH _ _ Hxy). reflexivity.
Qed.
Lemma z_search_back l l' : zis l l' -> search_back l' = search_back l.
Proof. induction 1 as [|x y l l' Hxy _ IH]; cbn; [reflexivity|]. rewrite IH, (z_search _ _ Hxy). reflexivity. Qed.
Lemma z_append_text l l' t st st' : zst st st' -> zis l l' -> zis (append_text l t st) (append_text l' t st').
Proof.
  intros H F. induction F as [|x y l l' Hxy F IH]; cbn [append_text].
  - constructor; [constructor; assumption|constructor].
  - assert (D : zis (x :: append_text l t st) (y :: append_text l' t st')) by (constructor; assumption).
    destruct Hxy; destruct F; try exact D. constructor; [constructor; assumption|constructor].
Qed.
Lemma z_leading b b' t : zbuilder b b' -> handle_leading_whitespace b' t = handle_leading_whitespace b t.
Proof. intros H. unfold handle_leading_whitespace. rewrite (z_search_back _ _ (z_current b b' H)). reflexivity. Qed.
Lemma z_slots bx bx' : Forall2 zinter bx bx' -> existsb has_real_slot bx' = existsb has_real_slot bx.
Proof. induction 1 as [|x y l l' Hxy _ IH]; cbn; [reflexivity|]. rewrite IH. destruct Hxy; reflexivity. Qed.
Lemma z_handle_text t st st' b b' : zst st st' -> zbuilder b b' -> zout zbuilder (handle_text t st b) (handle_text t st' b').
Proof.
  intros H B. unfold handle_text. rewrite (z_sv_ st st' Lwhite_space H) by reflexivity.
  assert (T : forall t, zbuilder (set_current b (append_text (current b) t st)) (set_current b' (append_text (current b') t st'))).
  { intros u. apply z_set_current; [exact B|]. apply z_append_text; [exact H|apply z_current, B]. }
  assert (C : zout zbuilder (handle_text_collapse t st b) (handle_text_collapse t st' b')).
  { unfold handle_text_collapse. rewrite (z_leading b b' t B). destruct (handle_leading_whitespace b t) as [le u].
    destruct (_ || _); [|exact B]. destruct (collapse_loop _ u); [|exact I]. apply T. }
  assert (P : zout zbuilder (handle_text_preserve t st b) (handle_text_preserve t st' b')).
  { unfold handle_text_preserve. destruct t; [exact B|apply T]. }
  assert (X : zout zbuilder (if existsb has_real_slot (b_boxes b) then Fatal else Panics) (if existsb has_real_slot (b_boxes b') then Fatal else Panics)).
  { destruct B as [? ? bx bx' ? ? ? ? ? ? H2]; cbn. rewrite (z_slots _ _ H2). destruct (existsb _ _); exact I. }
  destruct (sv st Lwhite_space); assumption.
Qed.
Lemma z_push_inline st st' b b' : zst st st' -> zbuilder b b' -> zbuilder (push_inline st b) (push_inline st' b').
Proof. intros H [? ? ? ? ? ? ? ? ? H1 H2 H3 H4]. unfold push_inline; cbn. constructor; auto. constructor; [constructor; [assumption|constructor]|assumption]. Qed.
Lemma z_pop_inline b b' : zbuilder b b' -> zout zbuilder (pop_inline b) (pop_inline b').
Proof.
  intros [st st' bx bx' i i' s s' f H1 H2 H3 H4]. unfold pop_inline; cbn [b_stack]. destruct H4 as [|o o' ? ? Ho H4]; [exact I|]. cbn [b_style b_boxes b_inlines b_floats zout].
  destruct Ho as [so so' fo c c' Hso Hc]. cbn [og_style og_first og_children].
  assert (B : zbuilder (Builder st bx i l f) (Builder st' bx' i' l' f)) by (constructor; assumption).
  apply z_set_current; [exact B|]. apply Forall2_app; [apply z_current, B|]. constructor; [constructor; assumption|constructor].
Qed.
Lemma z_end_ifc b b' : zbuilder b b' -> zout zbuilder (end_ifc b) (end_ifc b').
Proof.
  intros [st st' bx bx' i i' s s' f H1 H2 H3 H4]. unfold end_ifc; cbn [b_stack b_inlines]. destruct H4; [|exact I].
  destruct H3; cbn.
  - constructor; auto.
  - constructor; auto. apply Forall2_app; [assumption|]. constructor; [|constructor]. constructor; [apply z_anonymous; assumption|assumption|constructor; assumption].
Qed.
Lemma z_fragmented s s' : Forall2 zong s s' -> forall i i', match i, i' with Some x, Some y => zi x y | None, None => True | _, _ => False end ->
  match fragmented s i, fragmented s' i' with Some x, Some y => zi x y | None, None => True | _, _ => False end.
Proof.
  induction 1 as [|o o' s s' Ho _ IH]; intros i i' Hi; cbn; [exact Hi|]. apply IH. destruct Ho. cbn. constructor; [assumption|].
  apply Forall2_app; [assumption|]. destruct i, i'; try tauto; [|constructor]. constructor; [exact Hi|constructor].
Qed.
Lemma z_fragment_inlines b b' : zbuilder b b' -> zbuilder (fragment_inlines b) (fragment_inlines b').
Proof.
  intros [st st' bx bx' i i' s s' f H1 H2 H3 H4]. unfold fragment_inlines; cbn. constructor; auto.
  - apply Forall2_app; [assumption|]. pose proof (z_fragmented _ _ H4 None None I) as F. destruct (fragmented s None), (fragmented s' None); try tauto; [|constructor].
    constructor; [exact F|constructor].
  - induction H4 as [|o o' ? ? Ho]; cbn; constructor; [|assumption]. destruct Ho. constructor; [assumption|constructor].
Qed.
Lemma z_handle_block st st' ins r r' b b' : zst st st' -> zout zcf r r' -> zbuilder b b' ->
  zout zbuilder (handle_block st ins r b) (handle_block st' ins r' b').
Proof.
  intros H R B. unfold handle_block. eapply zout_bind; [apply z_end_ifc, z_fragment_inlines, B|]. intros c c' C. cbn. apply z_push_box; [exact C|].
  destruct ins; constructor; auto. eapply zout_bind; [exact R|]. intros [x fl] [y fl'] [X E]. cbn in *. subst. constructor. exact X.
Qed.
Lemma z_finish_one m m' : zinter m m' -> zout (fun x y => zblb (fst x) (fst y) /\ snd y = snd x) (finish_one m) (finish_one m').
Proof.
  intros H. destruct H as [| st st' r r' H R|st st' r r' H R|st st' r r' H HN R|st st' r r' H R]; cbn [finish_one].
  - split; [|reflexivity]. constructor; [assumption|]. constructor; assumption.
  - apply zout_slot. eapply zout_bind; [exact R|]. intros [c fl] [c' fl'] [C E]. cbn in *. split; [constructor; assumption|assumption].
  - apply zout_slot. eapply zout_bind; [exact R|]. intros c c' C. cbn. split; [constructor; assumption|reflexivity].
  - apply zout_slot. eapply zout_bind; [exact R|]. intros c c' C. cbn. split; [constructor; assumption|reflexivity].
  - apply zout_slot. eapply zout_bind; [exact R|]. intros c c' C. cbn. split; [constructor; assumption|reflexivity].
Qed.
Lemma z_finish_all l l' : Forall2 zinter l l' -> forall fl,
  zout (fun x y => Forall2 zblb (fst x) (fst y) /\ snd y = snd x) (finish_all l fl) (finish_all l' fl).
Proof.
  induction 1 as [|m m' l l' Hm _ IH]; intros fl; cbn [finish_all]; [split; [constructor|reflexivity]|].
  eapply zout_bind; [apply z_finish_one, Hm|]. intros [x f] [x' f'] [X E]. cbn [fst snd] in *. subst f'.
  eapply zout_bind; [apply IH|]. intros [xs f2] [xs' f2'] [Xs E2]. cbn in *. split; [constructor; assumption|assumption].
Qed.
Lemma z_finish_container b b' : zbuilder b b' -> zout zcf (finish_container b) (finish_container b').
Proof.
  intros B. unfold finish_container.
  assert (G : forall c c', zbuilder c c' -> zout zcf (obind (finish_all (b_boxes c) (b_floats c)) (fun '(l, floats) => TreeModel.Done (BlockLevelBoxes l, floats)))
     (obind (finish_all (b_boxes c') (b_floats c')) (fun '(l, floats) => TreeModel.Done (BlockLevelBoxes l, floats)))).
  { intros c c' [? ? ? ? ? ? ? ? f H1 H2 H3 H4]. cbn [b_boxes b_floats]. eapply zout_bind; [apply z_finish_all, H2|].
    intros [l fl] [l' fl'] [L E]. cbn in *. split; [constructor; assumption|assumption]. }
  pose proof (z_end_ifc b b' B) as E.
  assert (K : zout zcf (obind (end_ifc b) (fun b0 => obind (finish_all (b_boxes b0) (b_floats b0)) (fun '(l, floats) => TreeModel.Done (BlockLevelBoxes l, floats))))
     (obind (end_ifc b') (fun b0 => obind (finish_all (b_boxes b0) (b_floats b0)) (fun '(l, floats) => TreeModel.Done (BlockLevelBoxes l, floats))))).
  { eapply zout_bind; [exact E|]. exact G. }
  specialize (G b b' B). destruct B as [st st' bx bx' i i' s s' f H1 H2 H3 H4]. cbn [b_inlines b_boxes b_style b_floats] in *.
  destruct H3; destruct H2; first [exact K | exact G | idtac].
  split; cbn; [|reflexivity]. constructor; [assumption|constructor; assumption].
Qed.
Inductive zsnode : snode -> snode -> Prop :=
| ZSText t : zsnode (SText t) (SText t)
| ZSOther : zsnode SOther SOther
| ZSElem br st st' l l' : zst st st' -> Forall2 zsnode l l' -> zsnode (SElem br st l) (SElem br st' l').
Lemma z_has_ongoing b b' : zbuilder b b' -> has_ongoing_ifc b' = has_ongoing_ifc b.
Proof. intros [? ? ? ? ? ? ? ? ? H1 H2 H3 H4]. unfold has_ongoing_ifc; cbn. destruct H3; [destruct H4; reflexivity|reflexivity]. Qed.
Lemma z_handle_abspos st st' r r' b b' : zst st st' -> free st -> zout zbfc r r' -> zbuilder b b' -> zout zbuilder (handle_abspos st r b) (handle_abspos st' r' b').
Proof.
  intros H N R B. unfold handle_abspos. rewrite (z_has_ongoing b b' B). destruct (has_ongoing_ifc b).
  - apply zout_slot. eapply zout_bind; [exact R|]. intros c c' C. cbn. apply z_set_current; [exact B|]. apply Forall2_app; [apply z_current, B|].
    constructor; [constructor; assumption|constructor].
  - cbn. apply z_push_box; [exact B|constructor; assumption].
Qed.
Lemma z_handle_float st st' r r' b b' : zst st st' -> zout zbfc r r' -> zbuilder b b' -> zout zbuilder (handle_float st r b) (handle_float st' r' b').
Proof.
  intros H R B. unfold handle_float. cbv zeta.
  assert (B1 : zbuilder (Builder (b_style b) (b_boxes b) (b_inlines b) (b_stack b) true) (Builder (b_style b') (b_boxes b') (b_inlines b') (b_stack b') true)).
  { destruct B; constructor; assumption. }
  rewrite (z_has_ongoing _ _ B1). destruct (has_ongoing_ifc (Builder (b_style b) _ _ _ _)).
  - apply zout_slot. eapply zout_bind; [exact R|]. intros c c' C. cbn [zout]. apply z_set_current; [exact B1|]. apply Forall2_app; [apply z_current, B1|].
    constructor; [constructor; assumption|constructor].
  - cbn [zout]. apply z_push_box; [exact B1|constructor; assumption].
Qed.
Lemma z_builder_new st st' : zst st st' -> zbuilder (builder_new st) (builder_new st').
Proof. intros H. constructor; [exact H|constructor..]. Qed.
Lemma z_handle_node n n' (H : zsnode n n') : forall p p' nx b b', boxes_styled not_from_right n -> zst p p' -> zbuilder b b' ->
  zout zbuilder (handle_node p n nx b) (handle_node p' n' nx b').
Proof.
  revert n n' H. fix IH 3. intros n n' H p p' nx b b' Hn Hp B. destruct H as [t| |br st st' l l' Hs F]; cbn [handle_node].
  - apply z_handle_text; assumption.
  - exact B.
  - assert (T : fold_right (fun k R => boxes_styled not_from_right k /\ R) True l ->
      forall c c', zbuilder c c' -> zout zbuilder (traverse_with (handle_node st) l c) (traverse_with (handle_node st') l' c')).
    { clear B b b' Hn. induction F as [|x y l l' Hxy F IHF]; intros N c c' C; cbn [traverse_with]; [exact C|]. cbn in N. destruct N as [N1 N2].
      eapply zout_bind.
      - replace (match l' with [] => false | _ => true end) with (match l with [] => false | _ => true end) by (destruct F; reflexivity). exact (IH _ _ Hxy _ _ _ _ _ N1 Hs C).
      - exact (IHF N2). }
    assert (K : fold_right (fun k R => boxes_styled not_from_right k /\ R) True l ->
      zout zcf (obind (traverse_with (handle_node st) l (builder_new st)) finish_container) (obind (traverse_with (handle_node st') l' (builder_new st')) finish_container)).
    { intros N. eapply zout_bind; [apply T; [exact N|apply z_builder_new, Hs]|]. exact z_finish_container. }
    assert (X : fold_right (fun k R => boxes_styled not_from_right k /\ R) True l ->
      zout zbfc (obind (obind (traverse_with (handle_node st) l (builder_new st)) finish_container) (fun '(c, fl) => TreeModel.Done (BFC fl c)))
       (obind (obind (traverse_with (handle_node st') l' (builder_new st')) finish_container) (fun '(c, fl) => TreeModel.Done (BFC fl c)))).
    { intros N. eapply zout_bind; [exact (K N)|]. intros [c fl] [c' fl'] [C E]. cbn in *. subst. constructor. exact C. }
    destruct br; [apply z_handle_text; assumption|]. cbn [boxes_styled] in Hn.
    rewrite (z_sv_ st st' Ldisplay Hs), (z_sv_ st st' Lposition Hs), (z_sv_ st st' Lfloat Hs) by reflexivity.
    destruct (sv st Ldisplay) as [| |[] ins].
    + destruct nx; [exact B|exact I].
    + apply (T Hn), B.
    + destruct ins; [|exact I]. apply zout_slot. eapply zout_bind; [apply (T (proj2 Hn)), z_push_inline; assumption|]. exact z_pop_inline.
    + destruct Hn as [N1 N2]. destruct (is_absolutely_positioned _) eqn:Ab; [apply z_handle_abspos; auto; intros q; apply z_not_end; assumption|]. destruct (is_floating _); [apply z_handle_float; auto|].
      apply zout_slot. apply z_handle_block; auto.
Qed.
Lemma z_construct_root st st' l l' : zst st st' -> not_from_right st -> Forall2 zsnode l l' -> Forall (boxes_styled not_from_right) l -> zout zbfc (construct_root st l) (construct_root st' l').
Proof.
  intros H N F NF. unfold construct_root. rewrite (z_sv_ st st' Ldisplay H), (z_sv_ st st' Lposition H), (z_sv_ st st' Lfloat H) by reflexivity.
  assert (T : forall c c', zbuilder c c' -> zout zbuilder (traverse_with (handle_node st) l c) (traverse_with (handle_node st') l' c')).
  { induction F as [|x y l l' Hxy F IHF]; intros c c' C; cbn [traverse_with]; [exact C|]. inversion NF; subst. eapply zout_bind; [|apply IHF; assumption].
    replace (match l' with [] => false | _ => true end) with (match l with [] => false | _ => true end) by (destruct F; reflexivity). apply (z_handle_node _ _ Hxy); assumption. }
  assert (K : zout zbfc (construct_bfc st l) (construct_bfc st' l')).
  { unfold construct_bfc, construct_container. eapply (zout_bind zcf).
    - eapply zout_bind; [apply T, z_builder_new, H|]. exact z_finish_container.
    - intros [c fl] [c' fl'] [C E]. cbn in *. subst. constructor. exact C. }
  assert (G : zout zbfc
    (obind (construct_bfc st l) (fun c => if is_absolutely_positioned (sv st Lposition) then TreeModel.Done (BFC false (BlockLevelBoxes [BAbspos st c]))
      else if is_floating (sv st Lfloat) then TreeModel.Done (BFC true (BlockLevelBoxes [BFloat st c])) else TreeModel.Done (BFC false (BlockLevelBoxes [Indep st c]))))
    (obind (construct_bfc st' l') (fun c => if is_absolutely_positioned (sv st Lposition) then TreeModel.Done (BFC false (BlockLevelBoxes [BAbspos st' c]))
      else if is_floating (sv st Lfloat) then TreeModel.Done (BFC true (BlockLevelBoxes [BFloat st' c])) else TreeModel.Done (BFC false (BlockLevelBoxes [Indep st' c]))))).
  { eapply zout_bind; [exact K|]. intros c c' C.
    destruct (is_absolutely_positioned _) eqn:Ab; [|destruct (is_floating _)]; cbn; do 2 constructor; (constructor; [constructor; auto|constructor]).
    intros q. apply z_not_end; assumption. }
  destruct (sv st Ldisplay); [do 3 constructor|exact G|exact G].
Qed.

Section Document.
Variables style_of style_of' : DomModel.node_id -> option style -> style.
Hypothesis Hstyle : forall i, zst (style_of i None) (style_of' i None) /\ forall p p', zst p p' -> zst (style_of i (Some p)) (style_of' i (Some p')).
Lemma z_styled d : forall t p p', zst p p' -> zsnode (styled style_of d p t) (styled style_of' d p' t).
Proof.
  fix IH 1. intros [i ts] p p' Hp. cbn [styled]. destruct (DomSpec.data_of d i) as [[]|]; try constructor.
  - apply Hstyle, Hp.
  - pose proof (proj2 (Hstyle i) p p' Hp) as Hs. clear Hp. induction ts as [|t ts IHt]; cbn [map]; constructor; [apply IH, Hs|exact IHt].
Qed.
Lemma z_construct_document d root : not_from_right (style_of (match root with DomSpec.DT i _ => i end) None) ->
  Forall (boxes_styled not_from_right) (match root with DomSpec.DT i ts => map (styled style_of d (style_of i None)) ts end) ->
  zout zbfc (construct_document style_of d root) (construct_document style_of' d root).
Proof.
  destruct root as [i ts]. intros N F. cbn [construct_document]. pose proof (proj1 (Hstyle i)) as Hs. apply z_construct_root; [exact Hs|exact N| |exact F].
  clear F. induction ts as [|t ts IHt]; cbn [map]; constructor; [apply z_styled, Hs|exact IHt].
Qed.
End Document.
End Any.
