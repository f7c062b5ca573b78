(** Proofs about the cascade (StyleModel.v) against StyleSpec.v. *)
From Coq Require Import Sorting.Sorted.
From Verif Require Import StyleModel StyleSpec.
From Verif Require Import GfxModel.
Local Open Scope len_scope.
Section Any.
Context {ar : Arith}.

Lemma set_sv_same s l v : sv (set_sv s l v) l = v.
Proof.
  unfold set_sv. cbn. destruct (longhand_eq_dec l l) as [e|n]; [|congruence].
  rewrite (Eqdep_dec.UIP_dec longhand_eq_dec e eq_refl). reflexivity.
Qed.
Lemma set_sv_other s l v l' : l <> l' -> sv (set_sv s l v) l' = sv s l'.
Proof. intros H. unfold set_sv. cbn. destruct (longhand_eq_dec l l'); [congruence|reflexivity]. Qed.
Lemma set_sv_disp s l v : s_specified_display (set_sv s l v) = s_specified_display s.
Proof. reflexivity. Qed.

Lemma length_from_px fs v : length_from_specified fs v = px_of fs v.
Proof. destruct v; reflexivity. Qed.
Lemma lp_from_map fs v : lp_from fs v = lp_map (px_of fs) v.
Proof. destruct v; cbn; rewrite ?length_from_px; reflexivity. Qed.
Lemma lpa_from_map fs v : lpa_from fs v = lpa_map (px_of fs) v.
Proof. destruct v; cbn; rewrite ?length_from_px; reflexivity. Qed.
Lemma lpn_from_map fs v : lpn_from fs v = lpn_map (px_of fs) v.
Proof. destruct v; cbn; rewrite ?length_from_px; reflexivity. Qed.
Lemma va_from_map fs v : va_from fs v = va_map (px_of fs) v.
Proof. destruct v; cbn; rewrite ?length_from_px; reflexivity. Qed.

Lemma late_value_computed inh fs l v : is_early l = false -> late_value inh fs l v = Some (computed inh fs l v).
Proof.
  destruct l; cbn; intros H; try discriminate; try reflexivity;
    rewrite ?lp_from_map, ?lpa_from_map, ?lpn_from_map, ?va_from_map; reflexivity.
Qed.
Lemma late_value_early inh fs l v : is_early l = true -> late_value inh fs l v = None.
Proof. destruct l; cbn; intros H; try discriminate; reflexivity. Qed.
Lemma early_value_late inh l v : is_early l = false -> early_value inh l v = None.
Proof. destruct l; cbn; intros H; try discriminate; reflexivity. Qed.
Lemma early_value_computed inh fs l v : is_early l = true -> early_value inh l v = Some (computed inh fs l v).
Proof.
  destruct l; cbn; intros H; try discriminate. destruct v; cbn; [reflexivity|].
  reflexivity.
Qed.
Lemma default_inherited l parent : (if is_inherited l then sv parent l else initial_value l) = default_value parent l.
Proof. unfold default_value. destruct (in_dec longhand_eq_dec l css_inherited) as [i|i]; destruct l; cbn in *; try reflexivity; try (exfalso; tauto);
  exfalso; intuition congruence. Qed.
Lemma wide_value inh l k own this : cascade_wide l k this inh = set_sv this l (decl_value inh own (DWide l k)).
Proof.
  unfold cascade_wide. destruct k; cbn; try reflexivity.
  rewrite <- default_inherited. destruct (is_inherited l); reflexivity.
Qed.

(* one step *)
Lemma late_other inh this d l : decl_longhand d <> l -> sv (late_cascade_into inh this d) l = sv this l.
Proof.
  intros H. destruct d as [l1 v|l1 k]; cbn in *.
  - destruct (late_value _ _ _ _); [apply set_sv_other; exact H|reflexivity].
  - destruct (is_early l1); cbn; [reflexivity|apply set_sv_other; exact H].
Qed.
Lemma late_early inh this d : is_early (decl_longhand d) = true -> late_cascade_into inh this d = this.
Proof.
  intros H. destruct d as [l1 v|l1 k]; cbn in *; [rewrite late_value_early by exact H|rewrite H]; reflexivity.
Qed.
Lemma late_own inh this d : is_early (decl_longhand d) = false ->
  sv (late_cascade_into inh this d) (decl_longhand d) = decl_value inh (sv this Lfont_size) d.
Proof.
  intros H. destruct d as [l1 v|l1 k]; cbn in H.
  - cbn. rewrite late_value_computed by exact H. apply set_sv_same.
  - cbn [late_cascade_into decl_longhand]. rewrite H. cbn [negb].
    rewrite (wide_value inh l1 k (sv this Lfont_size) this). apply set_sv_same.
Qed.
Lemma early_late inh this d : is_early (decl_longhand d) = false -> early_cascade_into inh this d = this.
Proof.
  intros H. destruct d as [l1 v|l1 k]; cbn in *; [rewrite early_value_late by exact H|rewrite H]; reflexivity.
Qed.
Lemma early_other inh this d l : decl_longhand d <> l -> sv (early_cascade_into inh this d) l = sv this l.
Proof.
  intros H. destruct d as [l1 v|l1 k]; cbn in *.
  - destruct (early_value _ _ _); [apply set_sv_other; exact H|reflexivity].
  - destruct (is_early l1); cbn; [apply set_sv_other; exact H|reflexivity].
Qed.
Lemma early_own inh this d own : is_early (decl_longhand d) = true ->
  sv (early_cascade_into inh this d) (decl_longhand d) = decl_value inh own d.
Proof.
  intros H. destruct d as [l1 v|l1 k]; cbn in H.
  - cbn. rewrite (early_value_computed inh own) by exact H. apply set_sv_same.
  - cbn [early_cascade_into decl_longhand]. rewrite H.
    rewrite (wide_value inh l1 k own this). apply set_sv_same.
Qed.
Lemma ph_disp p inh this d : s_specified_display (ph_cascade p inh this d) = s_specified_display this.
Proof.
  destruct p, d as [l v|l k]; cbn; [destruct (early_value _ _ _)|destruct (is_early l)|destruct (late_value _ _ _ _)|destruct (is_early l)]; reflexivity.
Qed.

Definition no_decl (l : longhand) (ds : list decl) : Prop := forall d, In d ds -> decl_longhand d <> l.
Lemma no_decl_cons l d ds : no_decl l (d :: ds) <-> decl_longhand d <> l /\ no_decl l ds.
Proof. unfold no_decl. cbn. split; [intros H; split; auto | intros [H1 H2] x [->|Hx]; auto]. Qed.
Lemma no_decl_app l a b : no_decl l (a ++ b) <-> no_decl l a /\ no_decl l b.
Proof. unfold no_decl. split; [intros H; split; intros; apply H; apply in_or_app; auto | intros [H1 H2] x Hx; apply in_app_or in Hx; destruct Hx; auto]. Qed.

Lemma late_fold_other inh l ds : no_decl l ds -> forall this, sv (fold_left (late_cascade_into inh) ds this) l = sv this l.
Proof.
  induction ds as [|d ds IH]; intros H this; [reflexivity|]. apply no_decl_cons in H. destruct H as [H1 H2].
  cbn. rewrite IH by exact H2. apply late_other; exact H1.
Qed.
Lemma early_fold_other inh l ds : no_decl l ds -> forall this, sv (fold_left (early_cascade_into inh) ds this) l = sv this l.
Proof.
  induction ds as [|d ds IH]; intros H this; [reflexivity|]. apply no_decl_cons in H. destruct H as [H1 H2].
  cbn. rewrite IH by exact H2. apply early_other; exact H1.
Qed.
Lemma late_fold_early inh l ds : is_early l = true -> forall this, sv (fold_left (late_cascade_into inh) ds this) l = sv this l.
Proof.
  intros Hl. induction ds as [|d ds IH]; intros this; [reflexivity|].
  cbn. rewrite IH. destruct (longhand_eq_dec (decl_longhand d) l) as [e|n]; [|apply late_other; exact n].
  rewrite late_early; [reflexivity|rewrite e; exact Hl].
Qed.
Lemma early_fold_late inh l ds : is_early l = false -> forall this, sv (fold_left (early_cascade_into inh) ds this) l = sv this l.
Proof.
  intros Hl. induction ds as [|d ds IH]; intros this; [reflexivity|].
  cbn. rewrite IH. destruct (longhand_eq_dec (decl_longhand d) l) as [e|n]; [|apply early_other; exact n].
  rewrite early_late; [reflexivity|rewrite e; exact Hl].
Qed.

Definition two_phase (inh : style) (ds : list decl) (base : style) : style :=
  fold_left (late_cascade_into inh) ds (fold_left (early_cascade_into inh) ds base).

Lemma two_phase_none inh ds base l : no_decl l ds -> sv (two_phase inh ds base) l = sv base l.
Proof. intros H. unfold two_phase. rewrite late_fold_other by exact H. apply early_fold_other; exact H. Qed.

Lemma two_phase_last inh a d b base : no_decl (decl_longhand d) b ->
  sv (two_phase inh (a ++ d :: b) base) (decl_longhand d) =
  decl_value inh (sv (two_phase inh (a ++ d :: b) base) Lfont_size) d.
Proof.
  intros H. destruct (is_early (decl_longhand d)) eqn:E.
  - set (own := sv _ Lfont_size). clearbody own. unfold two_phase. rewrite late_fold_early by exact E.
    rewrite fold_left_app. cbn [fold_left]. rewrite early_fold_other by exact H. apply early_own; exact E.
  - assert (F : sv (two_phase inh (a ++ d :: b) base) Lfont_size =
                sv (fold_left (late_cascade_into inh) a (fold_left (early_cascade_into inh) (a ++ d :: b) base)) Lfont_size).
    { unfold two_phase. rewrite !late_fold_early by reflexivity. reflexivity. }
    rewrite F. unfold two_phase. rewrite (fold_left_app (late_cascade_into inh)). cbn [fold_left].
    rewrite late_fold_other by exact H. apply late_own; exact E.
Qed.

(* ---------------- flags ---------------- *)
(** The bookkeeping of a block: one importance bit per declaration, and each flag says whether
    some declaration of that importance belongs to that phase. *)
Definition has (imp : bool) (p : phase) (e : decl * bool) : bool :=
  Bool.eqb (snd e) imp && match p with Early => is_early (decl_longhand (fst e)) | Late => negb (is_early (decl_longhand (fst e))) end.
Record flags_ok (b : block) : Prop := {
  fo_len : length (b_decls b) = length (b_important b);
  fo_normal : forall p, ph_select p (b_any_normal b) = existsb (has false p) (entries b);
  fo_important : forall p, ph_select p (b_any_important b) = existsb (has true p) (entries b) }.

Definition pick (imp : bool) (b : block) : list decl :=
  map fst (filter (fun e => Bool.eqb (snd e) imp) (entries b)).

Lemma fold_pick p inh imp es : forall this,
  fold_left (fun s dx => if Bool.eqb (snd dx) imp then ph_cascade p inh s (fst dx) else s) es this =
  fold_left (ph_cascade p inh) (map fst (filter (fun e => Bool.eqb (snd e) imp) es)) this.
Proof.
  induction es as [|e es IH]; intros this; [reflexivity|]. cbn.
  destruct (Bool.eqb (snd e) imp); cbn; apply IH.
Qed.
Lemma fold_not_phase p inh imp es : existsb (has imp p) es = false -> forall this,
  fold_left (ph_cascade p inh) (map fst (filter (fun e => Bool.eqb (snd e) imp) es)) this = this.
Proof.
  induction es as [|e es IH]; intros H this; [reflexivity|]. cbn in H. apply orb_false_elim in H. destruct H as [H1 H2].
  cbn. destruct (Bool.eqb (snd e) imp) eqn:E; cbn; [|apply IH; exact H2].
  unfold has in H1. rewrite E in H1. cbn in H1.
  destruct p; cbn [ph_cascade].
  - rewrite early_late by exact H1. apply IH; exact H2.
  - rewrite late_early by (apply negb_false_iff; exact H1). apply IH; exact H2.
Qed.
Lemma cascade_flag p inh imp any b this : ph_select p any = existsb (has imp p) (entries b) ->
  block_cascade p inh imp any b this = fold_left (ph_cascade p inh) (pick imp b) this.
Proof.
  intros H. unfold block_cascade. destruct (ph_select p any) eqn:E.
  - apply fold_pick.
  - symmetry. apply fold_not_phase. symmetry. exact H.
Qed.
Lemma fold_blocks p inh imp f bs : (forall b this, In b bs -> f this b = fold_left (ph_cascade p inh) (pick imp b) this) ->
  forall this, fold_left f bs this = fold_left (ph_cascade p inh) (flat_map (pick imp) bs) this.
Proof.
  induction bs as [|b bs IH]; intros H this; [reflexivity|]. cbn.
  rewrite H by (left; reflexivity). rewrite fold_left_app. apply IH. intros b0 t Hb. apply H. right. exact Hb.
Qed.

(** The declarations in the order in which they are applied. *)
Definition cascade_order (m : matching) : list decl :=
  flat_map (pick false) (m_ua m) ++ flat_map (pick false) (m_author m) ++
  flat_map (pick true) (m_author m) ++ flat_map (pick true) (m_ua m).
Definition flags_ok_all (m : matching) : Prop := forall b, In b (m_ua m) \/ In b (m_author m) -> flags_ok b.

Lemma matching_order p inh m this : flags_ok_all m ->
  matching_cascade p inh m this = fold_left (ph_cascade p inh) (cascade_order m) this.
Proof.
  intros H. unfold matching_cascade, cascade_order. rewrite !fold_left_app.
  assert (N : forall bs, (forall b, In b bs -> flags_ok b) -> forall this,
    fold_left (cascade_normal p inh) bs this = fold_left (ph_cascade p inh) (flat_map (pick false) bs) this).
  { intros bs Hb. apply fold_blocks. intros b t Hi. apply cascade_flag. apply fo_normal. apply Hb; exact Hi. }
  assert (I : forall bs, (forall b, In b bs -> flags_ok b) -> forall this,
    fold_left (cascade_important p inh) bs this = fold_left (ph_cascade p inh) (flat_map (pick true) bs) this).
  { intros bs Hb. apply fold_blocks. intros b t Hi. apply cascade_flag. apply fo_important. apply Hb; exact Hi. }
  rewrite N by (intros; apply H; auto). rewrite N by (intros; apply H; auto).
  rewrite I by (intros; apply H; auto). rewrite I by (intros; apply H; auto). reflexivity.
Qed.

(* ---------------- fixups ---------------- *)
Lemma out_of_flow_bool s : (is_absolutely_positioned (sv s Lposition) || is_floating (sv s Lfloat))%bool =
  if out_of_flow_dec s then true else false.
Proof.
  destruct (out_of_flow_dec s) as [[H|H]|H].
  - rewrite H. reflexivity.
  - destruct (sv s Lfloat); cbn; [congruence| |]; apply orb_true_r.
  - destruct (sv s Lposition) eqn:E1; cbn; try (exfalso; apply H; left; exact E1);
    destruct (sv s Lfloat) eqn:E2; cbn; try reflexivity; exfalso; apply H; right; congruence.
Qed.
Lemma blockify_spec d : blockify d = block_level d.
Proof. destruct d; reflexivity. Qed.
Lemma line_width_spec w s : line_width_fixup w s = width_if s w.
Proof. destruct s; reflexivity. Qed.

Definition widths_fixed (s : style) : style :=
  let s := set_sv s Lborder_top_width (line_width_fixup (sv s Lborder_top_width) (sv s Lborder_top_style)) in
  let s := set_sv s Lborder_left_width (line_width_fixup (sv s Lborder_left_width) (sv s Lborder_left_style)) in
  let s := set_sv s Lborder_bottom_width (line_width_fixup (sv s Lborder_bottom_width) (sv s Lborder_bottom_style)) in
  set_sv s Lborder_right_width (line_width_fixup (sv s Lborder_right_width) (sv s Lborder_right_style)).

Definition special (l : longhand) : bool :=
  match l with
  | Lborder_top_width | Lborder_right_width | Lborder_bottom_width | Lborder_left_width | Ldisplay => true
  | _ => false
  end.

Lemma fixups_plain s l : special l = false -> sv (post_cascade_fixups s) l = sv s l.
Proof.
  intros H. unfold post_cascade_fixups, display_fixup.
  destruct (_ || _)%bool.
  - rewrite set_sv_other by (intros <-; discriminate). cbn [sv].
    rewrite !set_sv_other by (intros <-; discriminate). reflexivity.
  - cbn [sv]. rewrite !set_sv_other by (intros <-; discriminate). reflexivity.
Qed.
Ltac svs := repeat (rewrite set_sv_same || (rewrite set_sv_other by discriminate)).
Lemma fixups_adjusted s l : sv (post_cascade_fixups s) l = adjusted (post_cascade_fixups s) l (sv s l).
Proof.
  destruct (special l) eqn:E.
  - assert (P : sv (post_cascade_fixups s) Lposition = sv s Lposition) by (apply fixups_plain; reflexivity).
    assert (Fl : sv (post_cascade_fixups s) Lfloat = sv s Lfloat) by (apply fixups_plain; reflexivity).
    assert (W : forall lw ls, special lw = true -> lw <> Ldisplay -> special ls = false -> forall g,
       sv (widths_fixed s) lw = g (sv s ls) -> sv (post_cascade_fixups s) lw = g (sv (post_cascade_fixups s) ls)).
    { intros lw ls H1 H2 H3 g H. rewrite (fixups_plain s ls H3). rewrite <- H.
      unfold post_cascade_fixups, display_fixup, widths_fixed. destruct (_ || _)%bool; [|reflexivity].
      rewrite set_sv_other by congruence. reflexivity. }
    destruct l; cbn in E; try discriminate; cbn [adjusted].
    + unfold post_cascade_fixups at 1. unfold display_fixup. cbv zeta.
      fold (widths_fixed s).
      pose proof (out_of_flow_bool (post_cascade_fixups s)) as O. rewrite P, Fl in O.
      assert (P' : sv (widths_fixed s) Lposition = sv s Lposition) by (unfold widths_fixed; svs; reflexivity).
      assert (F' : sv (widths_fixed s) Lfloat = sv s Lfloat) by (unfold widths_fixed; svs; reflexivity).
      assert (D' : sv (widths_fixed s) Ldisplay = sv s Ldisplay) by (unfold widths_fixed; svs; reflexivity).
      rewrite P', F', D', O. destruct (out_of_flow_dec (post_cascade_fixups s)).
      * rewrite set_sv_same. apply blockify_spec.
      * cbn [sv]. exact D'.
    + apply (W Lborder_top_width Lborder_top_style eq_refl ltac:(discriminate) eq_refl (fun t => width_if t (sv s Lborder_top_width))).
      unfold widths_fixed. svs. apply line_width_spec.
    + apply (W Lborder_right_width Lborder_right_style eq_refl ltac:(discriminate) eq_refl (fun t => width_if t (sv s Lborder_right_width))).
      unfold widths_fixed. svs. apply line_width_spec.
    + apply (W Lborder_bottom_width Lborder_bottom_style eq_refl ltac:(discriminate) eq_refl (fun t => width_if t (sv s Lborder_bottom_width))).
      unfold widths_fixed. svs. apply line_width_spec.
    + apply (W Lborder_left_width Lborder_left_style eq_refl ltac:(discriminate) eq_refl (fun t => width_if t (sv s Lborder_left_width))).
      unfold widths_fixed. svs. apply line_width_spec.
  - rewrite fixups_plain by exact E. destruct l; cbn in E; try discriminate; reflexivity.
Qed.
Lemma fixups_specified s : s_specified_display (post_cascade_fixups s) = sv s Ldisplay.
Proof.
  unfold post_cascade_fixups, display_fixup. destruct (_ || _)%bool; cbn [s_specified_display set_sv]; svs; reflexivity.
Qed.

(* ---------------- style_new ---------------- *)
Definition base (inh : style) : style :=
  Style (fun l => if is_inherited l then sv inh l else initial_value l) display_initial.
Definition ds_of (m : option matching) : list decl := match m with Some m => cascade_order m | None => [] end.
Definition ok_opt (m : option matching) : Prop := match m with Some m => flags_ok_all m | None => True end.

Lemma style_new_two p m : ok_opt m ->
  style_new p m = post_cascade_fixups (two_phase (parent_or_initial p) (ds_of m) (base (parent_or_initial p))).
Proof.
  intros H. unfold style_new, two_phase, base. fold (parent_or_initial p). destruct m as [m|]; cbn [ds_of]; [|reflexivity].
  rewrite !matching_order by exact H. reflexivity.
Qed.

Lemma new_undeclared p m l : ok_opt m -> no_decl l (ds_of m) ->
  sv (style_new p m) l = adjusted (style_new p m) l (default_value (parent_or_initial p) l).
Proof.
  intros Hm H. rewrite style_new_two by exact Hm. rewrite fixups_adjusted. f_equal.
  rewrite two_phase_none by exact H. cbn. apply default_inherited.
Qed.
Lemma font_size_new p m : ok_opt m ->
  sv (style_new p m) Lfont_size = sv (two_phase (parent_or_initial p) (ds_of m) (base (parent_or_initial p))) Lfont_size.
Proof. intros Hm. rewrite style_new_two by exact Hm. apply fixups_plain. reflexivity. Qed.
Lemma new_last p m a d b : ok_opt m -> ds_of m = a ++ d :: b -> no_decl (decl_longhand d) b ->
  sv (style_new p m) (decl_longhand d) =
  adjusted (style_new p m) (decl_longhand d) (decl_value (parent_or_initial p) (sv (style_new p m) Lfont_size) d).
Proof.
  intros Hm E H. rewrite (font_size_new p m Hm), E, style_new_two by exact Hm. rewrite fixups_adjusted.
  rewrite E. f_equal. apply two_phase_last. exact H.
Qed.

(** the part of a list of declarations that matters *)
Lemma last_decl_dec l ds : no_decl l ds \/ exists a d b, ds = a ++ d :: b /\ decl_longhand d = l /\ no_decl l b.
Proof.
  induction ds as [|d ds [IH|(a & x & b & -> & H1 & H2)]].
  - left. intros x [].
  - destruct (longhand_eq_dec (decl_longhand d) l) as [e|n].
    + right. exists [], d, ds. auto.
    + left. apply no_decl_cons. auto.
  - right. exists (d :: a), x, b. auto.
Qed.
Definition for_l (l : longhand) (ds : list decl) : list decl :=
  filter (fun d => if longhand_eq_dec (decl_longhand d) l then true else false) ds.
Lemma for_l_no l ds : no_decl l ds <-> for_l l ds = [].
Proof.
  induction ds as [|d ds IH]; cbn; [split; [reflexivity|intros _ x []]|]. rewrite no_decl_cons, IH.
  destruct (longhand_eq_dec (decl_longhand d) l); split; try discriminate; tauto.
Qed.
Lemma for_l_app l a b : for_l l (a ++ b) = for_l l a ++ for_l l b.
Proof. apply filter_app. Qed.

Lemma for_l_cons d l b : decl_longhand d = l -> for_l l (d :: b) = d :: for_l l b.
Proof. intros H. unfold for_l. cbn. rewrite H. destruct (longhand_eq_dec l l); [reflexivity|congruence]. Qed.

Lemma for_l_last l a d b a' d' b' : decl_longhand d = l -> decl_longhand d' = l -> no_decl l b -> no_decl l b' ->
  for_l l (a ++ d :: b) = for_l l (a' ++ d' :: b') -> d = d'.
Proof.
  intros H1 H2 H3 H4. rewrite !for_l_app, !for_l_cons by assumption.
  apply for_l_no in H3. apply for_l_no in H4. rewrite H3, H4. intros E.
  apply app_inj_tail in E. apply E.
Qed.

Lemma same_value s1 s2 inh d : sv s1 Lfont_size = sv s2 Lfont_size ->
  decl_value inh (sv s1 Lfont_size) d = decl_value inh (sv s2 Lfont_size) d.
Proof. intros ->. reflexivity. Qed.
Lemma two_phase_same inh ds1 ds2 base : (forall l, for_l l ds1 = for_l l ds2) ->
  forall l, sv (two_phase inh ds1 base) l = sv (two_phase inh ds2 base) l.
Proof.
  intros H.
  assert (G : forall l, (sv (two_phase inh ds1 base) Lfont_size = sv (two_phase inh ds2 base) Lfont_size \/ l = Lfont_size) ->
     sv (two_phase inh ds1 base) l = sv (two_phase inh ds2 base) l).
  { intros l F. specialize (H l). destruct (last_decl_dec l ds1) as [N|(a & d & b & -> & E & N)].
    - rewrite two_phase_none by exact N. apply for_l_no in N. rewrite N in H. symmetry in H. apply for_l_no in H.
      rewrite two_phase_none by exact H. reflexivity.
    - destruct (last_decl_dec l ds2) as [N2|(a2 & d2 & b2 & -> & E2 & N2)].
      + apply for_l_no in N2. rewrite N2 in H. apply for_l_no in H. exfalso.
        apply (H d); [apply in_or_app; right; left; reflexivity|exact E].
      + assert (d = d2) by exact (for_l_last l a d b a2 d2 b2 E E2 N N2 H). subst d2.
        subst l. pose proof (two_phase_last inh a d b base N) as P1. pose proof (two_phase_last inh a2 d b2 base N2) as P2.
        destruct F as [F|F].
        * rewrite P1, P2, F. reflexivity.
        * assert (Q : forall x y, decl_value inh x d = decl_value inh y d).
          { clear - F. destruct d as [l v|l k]; cbn in *; subst; reflexivity. }
          rewrite P1, P2. apply Q. }
  intros l. apply G. left. apply G. right. reflexivity.
Qed.
Lemma adjusted_ext s1 s2 l v : (special l = true -> forall l', special l' = false -> sv s1 l' = sv s2 l') -> adjusted s1 l v = adjusted s2 l v.
Proof.
  intros H. destruct l; cbn; try reflexivity; try (rewrite (H eq_refl) by reflexivity; reflexivity).
  destruct (out_of_flow_dec s1) as [O|O]; destruct (out_of_flow_dec s2) as [O2|O2]; try reflexivity; exfalso;
  unfold out_of_flow in *; rewrite !(H eq_refl) in * by reflexivity; tauto.
Qed.
Lemma fixups_ext s1 s2 : (forall l, sv s1 l = sv s2 l) -> same_style (post_cascade_fixups s1) (post_cascade_fixups s2).
Proof.
  intros H. split; [|rewrite !fixups_specified; exact (H Ldisplay)].
  intros l. rewrite (fixups_adjusted s1), (fixups_adjusted s2), H. apply adjusted_ext.
  intros _ l' Hl. rewrite !fixups_plain by exact Hl. apply H.
Qed.
Lemma new_same p m1 m2 : ok_opt m1 -> ok_opt m2 -> (forall l, for_l l (ds_of m1) = for_l l (ds_of m2)) ->
  same_style (style_new p m1) (style_new p m2).
Proof.
  intros H1 H2 H. rewrite !style_new_two by assumption. apply fixups_ext. apply two_phase_same. exact H.
Qed.
End Any.
