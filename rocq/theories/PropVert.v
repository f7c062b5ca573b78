(** Properties of the vertical geometry of lines: C66, C67.

    The font metrics m_ascent, m_descent, m_width are what the graphics device answers; the theorems hold for all
    of them. *)
From Verif Require Import BlockModel InlineModel InlineSpec InlineWrap InlineProofs InlineFacts PropInline.
From Verif Require Import BlockSpec PageSpec PageProofs VertSpec VertProofs.
Local Open Scope len_scope.

(* ------------------------------------------------------------------ *)
(** * Concrete cases, used beside the theorems *)

(** A line height of 20 px, at font size 16 px with ascent 8 px, descent 2 px. *)
Definition st20 : style := set_sv st0 Lline_height (LPNLen (px 20)).
Definition with_align (a : vertical_align Len) : style := set_sv st20 Lvertical_align a.
Definition inline_box (st : style) (l : list (ilb abs_lay)) : ilb abs_lay := InlineBox st true true l.
(** a<span style="vertical-align: 3px; position: relative; top: 1px">b<span style="vertical-align: sub">c d</span></span>newline e *)
Definition st_moved : style := set_sv (set_sv (with_align (VALen (px 3))) Lposition PosRelative) Ltop (LPALen (px 1)).
Definition vert_boxes : list (ilb abs_lay) :=
  [TextRun st20 (txt "a") st20;
   inline_box st_moved [TextRun st_moved (txt "b") st_moved; inline_box (with_align VASub) (run (with_align VASub) (txt "c d"))];
   TextRun st_pre [nl; 101%N] st_pre].
Definition first_line (r : result (flow * list abs_frag)) : fragment :=
  match r with Ok (fl, _) => hd anon_no_op (fl_fragments fl) | _ => anon_no_op end.
Definition qs (l : list Len) : list Q := map this l.
Definition height_q (f : fragment) : Q := match f with FBox _ _ r _ _ _ _ | FAnon r _ | FText _ r _ _ => this (v_block (r_size r)) end.
Definition top_q (f : fragment) : Q := match f with FBox _ _ r _ _ _ _ | FAnon r _ | FText _ r _ _ => this (v_block (r_start r)) end.

(* ------------------------------------------------------------------ *)
(** * C66 *)

(** On every line the baseline of every text is the baseline of the line, lowered by the vertical-align values and
    the relative offsets of the inline boxes around it: [y] is where the lines are put, [above] how far the baseline
    is below the top of the line.
    MISSING: vertical-align values middle, top, bottom, text-top, text-bottom ([plain_fonts]; C66_middle_refuted,
    C66_top_refuted). *)
Theorem C66_drawn_partial : forall m_ascent m_descent m_width parent boxes cb rank abs fl abs' r ch y,
  ifc_layout m_ascent m_descent m_width parent boxes cb rank abs = Ok (fl, abs') -> In (FAnon r ch) (fl_fragments fl) ->
  plain_fonts m_ascent parent (FAnon r ch) ->
  exists above, l0 <= above /\ above <= v_block (r_size r) /\
    drawn_baselines m_ascent y (FAnon r ch) = due_baselines m_ascent cb parent (y + v_block (r_start r) + above) (FAnon r ch).
Proof.
  intros ma md mw parent boxes cb rank abs fl abs' r ch y E Hin Hp.
  pose proof (ifc_layout_seated ma md mw cb _ rank parent boxes abs fl abs' eq_refl E) as H.
  rewrite Forall_forall in H. destruct (H _ Hin) as (above & below & ts & ns & H1 & _ & _ & [_ H4] & [_ H5] & H6).
  exists above. pose proof (H4 l0 (or_introl eq_refl)) as A. pose proof (H5 l0 (or_introl eq_refl)) as B.
  split; [exact A|]. split; [rewrite H6; revert B; clear; lenq|].
  cbn [drawn_baselines due_baselines]. eapply seated_drawn; [exact H1 | exact Hp].
Qed.
Print Assumptions C66_drawn_partial.
(** Every line has its inline boxes and texts where they have to be ([seated]), vertically.
    MISSING: as above. *)
Theorem C66_seated_partial : forall m_ascent m_descent m_width parent boxes cb rank abs fl abs' r ch,
  ifc_layout m_ascent m_descent m_width parent boxes cb rank abs = Ok (fl, abs') -> In (FAnon r ch) (fl_fragments fl) ->
  exists above texts, l0 <= above /\ above <= v_block (r_size r) /\ all_seated m_ascent m_descent cb parent l0 above ch texts.
Proof.
  intros ma md mw parent boxes cb rank abs fl abs' r ch E Hin.
  pose proof (ifc_layout_seated ma md mw cb _ rank parent boxes abs fl abs' eq_refl E) as H.
  rewrite Forall_forall in H. destruct (H _ Hin) as (above & below & ts & ns & H1 & _ & _ & [_ H4] & [_ H5] & H6).
  exists above, ts. pose proof (H4 l0 (or_introl eq_refl)) as A. pose proof (H5 l0 (or_introl eq_refl)) as B.
  split; [exact A|]. split; [rewrite H6; revert B; clear; lenq|exact H1].
Qed.
Print Assumptions C66_seated_partial.
(** The line is 24 px high: 16 px above the baseline, for b, which is raised by 3 px and moved 1 px down, and 8 px
    below it, for c, which is lowered from there by half its parent's ascent, 4 px. *)
Example C66_case :
  let line := first_line (lay st20 vert_boxes (CBlock (px 100) LAAuto)) in
  (exists r ch, line = FAnon r ch /\ plain_fonts ex_ascent st20 (FAnon r ch)) /\
  qs (drawn_baselines ex_ascent l0 line) = [16; 14; 18]%Q /\
  qs (due_baselines ex_ascent (CBlock (px 100) LAAuto) st20 (px 16) line) = [16; 14; 18]%Q /\ height_q line = 24%Q.
Proof.
  cbn zeta. split; [|vm_compute; repeat split; reflexivity].
  vm_compute. eexists _, _. split; [reflexivity|]. repeat split; reflexivity.
Qed.

(** vertical-align: middle puts the middle of a box half an x height above the baseline of its parent (CSS 2.2, 10.8.1);
    [ch] are the contents of an inline box with style [parent]. *)
Definition middle_aligned (m_ascent : style -> Len) (parent : style) (f : fragment) : Prop :=
  match f with
  | FBox st _ r _ _ _ _ => sv st Lvertical_align = VAMiddle ->
      v_block (r_start r) + lhalf (v_block (r_size r)) = m_ascent parent - lhalf (font_ex parent)
  | _ => True
  end.
Definition middle_b (m_ascent : style -> Len) (parent : style) (f : fragment) : bool :=
  match f with
  | FBox st _ r _ _ _ _ => match sv st Lvertical_align with VAMiddle =>
      leqb (v_block (r_start r) + lhalf (v_block (r_size r))) (m_ascent parent - lhalf (font_ex parent)) | _ => true end
  | _ => true
  end.
Lemma middle_b_ok ma st f : middle_aligned ma st f -> middle_b ma st f = true.
Proof. destruct f; cbn; try reflexivity. destruct (sv _ Lvertical_align); try reflexivity. intros H. apply leqb_iff. auto. Qed.
(** False: a middle-aligned box is put too low, in the witness by 3 px. *)
Theorem C66_middle_refuted :
  ~ (forall m_ascent m_descent m_width parent boxes cb fl abs r st ch r1 p b m cm,
      ifc_layout m_ascent m_descent m_width parent boxes cb 0 [] = Ok (fl, abs) ->
      fl_fragments fl = [FAnon r [FBox st ch r1 p b m cm]] -> Forall (middle_aligned m_ascent st) ch).
Proof.
  intros H. set (bx := [inline_box st20 [inline_box (with_align VAMiddle) (run (with_align VAMiddle) (txt "x"))]]).
  assert (K : match lay st20 bx (CBlock (px 100) LAAuto) with
    | Ok (fl, _) => match fl_fragments fl with [FAnon _ [FBox st ch _ _ _ _ _]] => negb (forallb (middle_b ex_ascent st) ch) | _ => false end
    | _ => false end = true) by (vm_compute; reflexivity).
  destruct (lay st20 bx (CBlock (px 100) LAAuto)) as [[fl abs]| |] eqn:E; try discriminate K.
  destruct (fl_fragments fl) as [|[|r [|[st ch r1 p b m cm| |] [|]]|] [|]] eqn:Ef; try discriminate K.
  apply negb_true_iff in K. specialize (H _ _ _ _ _ _ _ _ _ _ _ _ _ _ _ _ E Ef).
  assert (K1 : forallb (middle_b ex_ascent st) ch = true).
  { apply forallb_forall. intros x Hx. rewrite Forall_forall in H. apply middle_b_ok, H, Hx. }
  rewrite K1 in K. discriminate K.
Qed.
Print Assumptions C66_middle_refuted.
(** vertical-align: top puts a box at the top of the line: its text, with [up] of its line height above its baseline,
    has its baseline [up] below the top of the line. *)
Definition top_aligned (m_ascent m_descent : style -> Len) (f : fragment) : Prop :=
  match f with
  | FBox st [FText st1 r1 font _] r _ _ _ _ => sv st Lvertical_align = VATop ->
      forall up down, text_extent m_ascent m_descent st1 font up down -> drawn_baselines m_ascent l0 f = [up]
  | _ => True
  end.
Definition top_b (m_ascent m_descent : style -> Len) (f : fragment) : bool :=
  match f with
  | FBox st [FText st1 r1 font _] r _ _ _ _ => match sv st Lvertical_align with VATop =>
      leqb (l0 + v_block (r_start r) + v_block (r_start r1) + m_ascent font) (fst (line_ascent_descent m_ascent m_descent st1 font)) | _ => true end
  | _ => true
  end.
Lemma top_b_ok ma md f : top_aligned ma md f -> top_b ma md f = true.
Proof.
  destruct f as [st [|[| |st1 r1 font seg] [|]] r p b m cm| |]; cbn [top_aligned top_b]; try reflexivity. destruct (sv st Lvertical_align); try reflexivity.
  intros H. specialize (H eq_refl _ _ (line_extent ma md st1 font)). apply leqb_iff. exact (f_equal (hd l0) H).
Qed.
(** False: top means baseline. *)
Theorem C66_top_refuted :
  ~ (forall m_ascent m_descent m_width parent boxes cb fl abs r ch,
      ifc_layout m_ascent m_descent m_width parent boxes cb 0 [] = Ok (fl, abs) ->
      fl_fragments fl = [FAnon r ch] -> Forall (top_aligned m_ascent m_descent) ch).
Proof.
  intros H. set (big := set_sv st0 Lline_height (LPNLen (px 40))). set (top := with_align VATop).
  set (bx := [TextRun big (txt "x") big; inline_box top (run top (txt "x"))]).
  assert (K : match lay st0 bx (CBlock (px 100) LAAuto) with
    | Ok (fl, _) => match fl_fragments fl with [FAnon _ ch] => negb (forallb (top_b ex_ascent ex_descent) ch) | _ => false end
    | _ => false end = true) by (vm_compute; reflexivity).
  destruct (lay st0 bx (CBlock (px 100) LAAuto)) as [[fl abs]| |] eqn:E; try discriminate K.
  destruct (fl_fragments fl) as [|[|r ch|] [|]] eqn:Ef; try discriminate K.
  apply negb_true_iff in K. specialize (H _ _ _ _ _ _ _ _ _ _ E Ef).
  assert (K1 : forallb (top_b ex_ascent ex_descent) ch = true).
  { apply forallb_forall. intros x Hx. rewrite Forall_forall in H. apply top_b_ok, H, Hx. }
  rewrite K1 in K. discriminate K.
Qed.
Print Assumptions C66_top_refuted.

(* ------------------------------------------------------------------ *)
(** * C67 *)

(** Every line is exactly as high as its texts need: each text, and the newline that ends the line, takes its line
    height, split evenly around its font's ascent and descent and moved with its baseline (relative offsets do not
    count); the line reaches from the highest of them to the lowest, and contains its baseline.
    MISSING: the line height of the block itself and of inline boxes without text (C67_strut_refuted). *)
Theorem C67_exact_partial : forall m_ascent m_descent m_width parent boxes cb rank abs fl abs',
  ifc_layout m_ascent m_descent m_width parent boxes cb rank abs = Ok (fl, abs') ->
  Forall (line_seated m_ascent m_descent cb parent boxes) (fl_fragments fl).
Proof. intros. eapply ifc_layout_seated; [reflexivity | eassumption]. Qed.
Print Assumptions C67_exact_partial.
(** So it is on every page, wherever there is inline content.
    MISSING: as above. *)
Theorem C67_everywhere_partial : forall m_ascent m_descent m_width floats c viewport fs, wf_container c ->
  layout_root m_ascent m_descent m_width (BFC floats c) viewport = Ok fs ->
  page_laid_with (fun _ _ _ => True) (fun _ _ _ => True)
    (fun cb st l lines => Forall (line_seated m_ascent m_descent cb st l) lines) viewport c fs.
Proof.
  intros ma md mw floats c viewport fs W E. eapply page_everywhere; [| | | |exact W|exact E]; try (intros; exact I).
  intros st l cb rank abs fl abs' Wl El. pose proof (ifc_layout_seated ma md mw cb _ rank st _ abs fl abs' eq_refl El) as H.
  eapply Forall_impl; [|exact H]. intros f. apply line_seated_map.
Qed.
Print Assumptions C67_everywhere_partial.
(** The empty line between two newlines has the line height of the text they are in. *)
Example C67_case :
  match lay st20 [TextRun st20 (txt "a b") st20; TextRun st_pre [nl; nl; 101%N] st_pre] (CBlock (px 2) LAAuto) with
  | Ok (fl, _) => map height_q (fl_fragments fl)
  | _ => []
  end = [20; 20; 96 # 5; 96 # 5]%Q.
Proof. vm_compute. reflexivity. Qed.

(** A line is at least as high as the line height of the block it is in (CSS 2.2, 10.8.1).  False: the code takes
    only the text into account. *)
Theorem C67_strut_refuted :
  ~ (forall m_ascent m_descent m_width parent boxes cb fl abs r ch,
      ifc_layout m_ascent m_descent m_width parent boxes cb 0 [] = Ok (fl, abs) -> fl_fragments fl = [FAnon r ch] -> ch <> [] ->
      used_line_height parent <= v_block (r_size r)).
Proof.
  intros H. set (big := set_sv st0 Lline_height (LPNLen (px 40))). set (bx := [inline_box st20 (run st20 (txt "x"))]).
  assert (K : match lay big bx (CBlock (px 100) LAAuto) with
    | Ok (fl, _) => match fl_fragments fl with [FAnon r (_ :: _)] => negb (lleb (used_line_height big) (v_block (r_size r))) | _ => false end
    | _ => false end = true) by (vm_compute; reflexivity).
  destruct (lay big bx (CBlock (px 100) LAAuto)) as [[fl abs]| |] eqn:E; try discriminate K.
  destruct (fl_fragments fl) as [|[|r [|c ch]|] [|]] eqn:Ef; try discriminate K.
  apply negb_true_iff in K. specialize (H _ _ _ _ _ _ _ _ _ _ E Ef ltac:(discriminate)).
  apply lleb_Qcle in H. rewrite H in K. discriminate K.
Qed.
Print Assumptions C67_strut_refuted.
