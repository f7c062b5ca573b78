(** Properties of inline layout: C35-C38, C41, C42, C62.

    The font metrics m_ascent, m_descent, m_width are what the graphics device answers; the theorems hold for all
    of them.  Content comes as the boxes of an inline formatting context; an absolutely positioned box in it
    carries a style that generates a box ([abspos_oks]). *)
From Verif Require Import InlineModel InlineSpec InlineWrap InlineProofs InlineFacts.
Local Open Scope len_scope.

(* ------------------------------------------------------------------ *)
(** * A concrete case, used beside the theorems *)

(** every char is one pixel wide *)
Definition mono : style -> text -> Len := fun _ t => px (Z.of_nat (List.length t) # 1).
Definition ex_ascent : style -> Len := fun _ => px 8.
Definition ex_descent : style -> Len := fun _ => px 2.
Definition st0 : style := initial_style.
Definition st_pad : style :=
  set_sv (set_sv (set_sv (set_sv st0 Lpadding_left (LPLen (px 3))) Lpadding_right (LPLen (px 1)))
    Lborder_left_width (LPLen l0)) Lborder_right_width (LPLen l0).
Definition st_pre : style := set_sv st0 Lwhite_space WSPre.
Definition st_center : style := set_sv st0 Ltext_align TACenter.
Definition cb10 : cblock := CBlock (px 10) LAAuto.
(** aa<padded>bb cc ddd</padded>e-f *)
Definition ex_boxes : list (ilb abs_lay) :=
  [TextRun st0 (txt "aa") st0; InlineBox st_pad true true [TextRun st_pad (txt "bb cc ddd") st_pad];
   TextRun st0 (txt "e-f") st0].
Definition run (st : style) (t : text) : list (ilb abs_lay) := [TextRun st t st].
Definition lay (parent : style) (boxes : list (ilb abs_lay)) (cb : cblock) :=
  ifc_layout ex_ascent ex_descent mono parent boxes cb 0 [].
Definition texts_of (r : result (flow * list abs_frag)) : option (list text) :=
  match r with Ok (fl, _) => Some (map (fun f => marks_text (line_marks f)) (fl_fragments fl)) | _ => None end.

(* ------------------------------------------------------------------ *)
(** * C36 *)

(** Inline layout terminates, for all content, widths (zero and negative ones too) and metrics; it cannot fail
    on content whose absolutely positioned boxes generate a box. *)
Theorem C36_terminates {ar : Arith} : forall m_ascent m_descent m_width parent boxes cb rank abs,
  ifc_layout m_ascent m_descent m_width parent boxes cb rank abs <> OutOfFuel.
Proof. exact (@ifc_layout_total _). Qed.
Print Assumptions C36_terminates.
Theorem C36_no_panic {ar : Arith} : forall m_ascent m_descent m_width parent boxes cb rank abs, abspos_oks boxes ->
  exists fl abs', ifc_layout m_ascent m_descent m_width parent boxes cb rank abs = Ok (fl, abs').
Proof.
  intros ma md mw parent boxes cb rank abs H.
  destruct (ifc_layout_any ma md mw parent boxes cb rank abs H) as (fl & abs' & es & pos & E & _). eauto.
Qed.
Print Assumptions C36_no_panic.
Example C36_case : abspos_oks ex_boxes /\
  texts_of (lay st0 ex_boxes cb10) = Some [txt "aabb cc"; txt "ddde-f"] /\
  texts_of (lay st0 (run st0 (txt "ab c")) (CBlock (px (-5)) LAAuto)) = Some [txt ""; txt "ab"; txt "c"].
Proof. split; [cbn; tauto|]. split; vm_compute; reflexivity. Qed.

(* ------------------------------------------------------------------ *)
(** * C35 *)

(** No char is inserted, duplicated or moved, and nothing but spaces, newlines and hyphens is dropped: the text
    the lines show is the text of the content without some of these. *)
Theorem C35_preserves_partial {ar : Arith} : forall m_ascent m_descent m_width parent boxes cb rank abs, abspos_oks boxes ->
  exists fl abs', ifc_layout m_ascent m_descent m_width parent boxes cb rank abs = Ok (fl, abs') /\
    deletes (fun c => c = sp \/ c = nl \/ c = hyphen)
      (flat_map ilb_text boxes) (marks_text (concat (map line_marks (fl_fragments fl)))).
Proof.
  intros ma md mw parent boxes cb rank abs H.
  destruct (ifc_layout_any ma md mw parent boxes cb rank abs H) as (fl & abs' & es & pos & E & _ & Hb & Hl & _).
  exists fl, (abs ++ abs'). split; [exact E|]. rewrite Hl, cut_text. eapply boxes_deletes; [apply le_n | exact Hb].
Qed.
Print Assumptions C35_preserves_partial.

(** Text without hyphens loses only spaces and newlines. *)
Theorem C35_no_hyphen_partial {ar : Arith} : forall m_ascent m_descent m_width parent boxes cb rank abs, abspos_oks boxes ->
  ~ In hyphen (flat_map ilb_text boxes) ->
  exists fl abs', ifc_layout m_ascent m_descent m_width parent boxes cb rank abs = Ok (fl, abs') /\
    deletes (fun c => c = sp \/ c = nl)
      (flat_map ilb_text boxes) (marks_text (concat (map line_marks (fl_fragments fl)))).
Proof.
  intros ma md mw parent boxes cb rank abs H Hh.
  destruct (C35_preserves_partial ma md mw parent boxes cb rank abs H) as (fl & abs' & E & Hs).
  exists fl, abs'. split; [exact E|]. eapply deletes_weaken; [|exact Hs].
  intros c Hc [-> | [-> | ->]]; auto. contradiction.
Qed.
Print Assumptions C35_no_hyphen_partial.

(** Exactly which chars are dropped, and where: every text run is cut into lines as [run_lines] says (a char is
    dropped only between two lines or at the end of the run, at most one space besides a newline; a hyphen only
    behind a piece that is too long and has no break opportunity), and the line boxes show these lines. *)
Theorem C35_lines_partial {ar : Arith} : forall m_ascent m_descent m_width parent boxes cb rank abs, abspos_oks boxes ->
  exists fl abs' es pos, ifc_layout m_ascent m_descent m_width parent boxes cb rank abs = Ok (fl, abs') /\
    boxes_events m_width (fun _ _ _ => True) (cb_inline cb) l0 boxes es pos /\
    map line_marks (fl_fragments fl) = cut [] es.
Proof.
  intros ma md mw parent boxes cb rank abs H.
  destruct (ifc_layout_any ma md mw parent boxes cb rank abs H) as (fl & abs' & es & pos & E & _ & Hb & Hl & _).
  exists fl, (abs ++ abs'), es, pos. split; [exact E|]. split; [|exact Hl].
  eapply boxes_events_weaken; [|apply le_n | exact Hb]. intros; exact I.
Qed.
Print Assumptions C35_lines_partial.

(** Finding: the full claim is false.  The hyphen of `aaaa-b` disappears when `aaaa` does not fit. *)
Theorem C35_hyphen_lost_refuted : exists boxes cb fl abs',
  lay st0 boxes cb = Ok (fl, abs') /\ In hyphen (flat_map ilb_text boxes) /\
  ~ deletes (fun c => c = sp \/ c = nl) (flat_map ilb_text boxes) (marks_text (concat (map line_marks (fl_fragments fl)))).
Proof.
  set (boxes := run st0 (txt "aaaa-b")). set (cb := CBlock (px 2) LAAuto).
  assert (E : texts_of (lay st0 boxes cb) = Some [[]; txt "aaaa"; txt "b"]) by (vm_compute; reflexivity).
  destruct (lay st0 boxes cb) as [[fl abs']| |] eqn:El; try discriminate.
  exists boxes, cb, fl, abs'. split; [exact El|]. split; [vm_compute; tauto|].
  assert (Q : marks_text (concat (map line_marks (fl_fragments fl))) = txt "aaaab").
  { cbn [texts_of] in E. injection E as E.
    assert (G : forall l, marks_text (concat (map line_marks l)) = concat (map (fun f => marks_text (line_marks f)) l)).
    { induction l as [|f l IH]; [reflexivity|]. cbn [map concat]. rewrite marks_text_app, IH. reflexivity. }
    rewrite G, E. reflexivity. }
  rewrite Q. intros D. vm_compute in D.
  repeat match goal with
  | H : deletes _ _ _ |- _ => inversion H; clear H; subst; try discriminate
  | H : _ = _ \/ _ = _ |- _ => destruct H; discriminate
  end.
Qed.
Print Assumptions C35_hyphen_lost_refuted.
Example C35_case : abspos_oks ex_boxes /\ abspos_oks (run st0 (txt "ab  c")) /\ ~ In hyphen (flat_map ilb_text (run st0 (txt "ab  c"))) /\
  texts_of (lay st0 (run st0 (txt "ab  c")) (CBlock (px 3) LAAuto)) = Some [txt "ab "; txt "c"].
Proof.
  split; [cbn; tauto|]. split; [cbn; tauto|]. split; [|vm_compute; reflexivity].
  intros H. vm_compute in H. repeat destruct H as [H|H]; try discriminate; exact H.
Qed.

(* ------------------------------------------------------------------ *)
(** * C37 *)

(** In exact arithmetic [fits] is [<=], and metrics in which a trailing space does not shorten a text meet the
    hypothesis of the theorems below. *)
Lemma fits_exact avail w : fits avail w <-> w <= avail.
Proof. unfold fits. split; [apply lltb_false | intros H; destruct (lltb avail w) eqn:E; [|reflexivity]; apply lltb_true in E; apply Qlt_not_le in E; contradiction]. Qed.
Lemma space_never_shortens (m_width : style -> text -> Len) : (forall font p, m_width font p <= m_width font (p ++ [sp])) ->
  forall font avail p, fits avail (m_width font (p ++ [sp])) -> fits avail (m_width font p).
Proof. intros H font avail p. rewrite !fits_exact. intros H1. eapply Qcle_trans; [apply H | exact H1]. Qed.

(** With metrics in which a trailing space does not shorten a text, every line of wrapped text fits its room, or
    has no break opportunity, or is too long by no more than its final hyphen. *)
Theorem C37_overflow_partial {ar : Arith} : forall m_ascent m_descent m_width parent boxes cb rank abs, abspos_oks boxes ->
  (forall font avail p, fits avail (m_width font (p ++ [sp])) -> fits avail (m_width font p)) ->
  exists fl abs' es pos, ifc_layout m_ascent m_descent m_width parent boxes cb rank abs = Ok (fl, abs') /\
    boxes_events m_width (fun font avail p =>
        fits avail (m_width font p) \/ no_break_char p \/ (exists q, p = q ++ [hyphen] /\ fits avail (m_width font q)))
      (cb_inline cb) l0 boxes es pos /\
    map line_marks (fl_fragments fl) = cut [] es.
Proof.
  intros ma md mw parent boxes cb rank abs H Hm.
  destruct (ifc_layout_any ma md mw parent boxes cb rank abs H) as (fl & abs' & es & pos & E & _ & Hb & Hl & _).
  exists fl, (abs ++ abs'), es, pos. split; [exact E|]. split; [|exact Hl].
  eapply boxes_events_weaken; [|apply le_n | exact Hb]. intros fo a p Hok. exact (Hok (Hm fo)).
Qed.
Print Assumptions C37_overflow_partial.

(** Text without hyphens never overflows needlessly. *)
Lemma not_needless {ar : Arith} width avail p : ~ In hyphen p -> fits_or_unbreakable width avail p -> ~ overflows_needlessly width avail p.
Proof.
  intros Hh Hf (Hw & q & r & Hq & Hp). destruct Hf as [Hf | [Hf | (q' & -> & _)]].
  - unfold too_wide, fits in *. congruence.
  - destruct Hp as [-> | (-> & _ & q' & ->)].
    + unfold no_break_char in Hf. rewrite Forall_forall in Hf. apply (Hf sp); [apply in_or_app; right; left; reflexivity|]. unfold break_char; auto.
    + apply Hh. apply in_or_app; left. apply in_or_app; right; left; reflexivity.
  - apply Hh. apply in_or_app; right; left; reflexivity.
Qed.
Lemma deletes_in P t s c : deletes P t s -> In c s -> In c t.
Proof. induction 1; intros Hi; [exact Hi | destruct Hi as [-> | Hi]; [left; reflexivity | right; auto] | right; auto]. Qed.

Theorem C37_no_hyphen_partial {ar : Arith} : forall m_ascent m_descent m_width parent boxes cb rank abs, abspos_oks boxes ->
  (forall font avail p, fits avail (m_width font (p ++ [sp])) -> fits avail (m_width font p)) ->
  exists fl abs' es pos, ifc_layout m_ascent m_descent m_width parent boxes cb rank abs = Ok (fl, abs') /\
    boxes_events m_width (fun font avail p => In hyphen p \/ ~ overflows_needlessly (m_width font) avail p)
      (cb_inline cb) l0 boxes es pos /\
    map line_marks (fl_fragments fl) = cut [] es.
Proof.
  intros ma md mw parent boxes cb rank abs H Hm.
  destruct (C37_overflow_partial ma md mw parent boxes cb rank abs H Hm) as (fl & abs' & es & pos & E & Hb & Hl).
  exists fl, abs', es, pos. split; [exact E|]. split; [|exact Hl].
  eapply boxes_events_weaken; [|apply le_n | exact Hb]. intros fo a p Hok.
  destruct (in_dec N.eq_dec hyphen p) as [Hi|Hi]; [left; exact Hi | right; apply not_needless; assumption].
Qed.
Print Assumptions C37_no_hyphen_partial.

(** Finding: `x aa-bb` in a box 4 wide becomes `x aa-` / `bb`, although breaking at the space would have made
    every line fit. *)
Theorem C37_needless_overflow_refuted : exists boxes cb fl abs' line st p,
  lay st0 boxes cb = Ok (fl, abs') /\ In line (fl_fragments fl) /\ line_marks line = [MText st st p] /\
  overflows_needlessly (mono st) (cb_inline cb) p /\
  (forall font avail t, fits avail (mono font (t ++ [sp])) -> fits avail (mono font t)).
Proof.
  set (boxes := run st0 (txt "x aa-bb")). set (cb := CBlock (px 4) LAAuto).
  assert (E : match lay st0 boxes cb with Ok (fl, _) => map line_marks (fl_fragments fl) | _ => [] end =
              [[MText st0 st0 (txt "x aa-")]; [MText st0 st0 (txt "bb")]]) by (vm_compute; reflexivity).
  destruct (lay st0 boxes cb) as [[fl abs']| |] eqn:El; try discriminate.
  destruct (fl_fragments fl) as [|line rest] eqn:Ef; [discriminate|]. injection E as E1 E2.
  exists boxes, cb, fl, abs', line, st0, (txt "x aa-"). rewrite Ef.
  split; [exact El|]. split; [left; reflexivity|]. split; [exact E1|]. split.
  - split; [vm_compute; reflexivity|]. exists (txt "x"), (txt "aa-"). split; [vm_compute; reflexivity | left; reflexivity].
  - apply space_never_shortens. intros font t. unfold mono. rewrite app_length. cbn [List.length].
    assert (Hz : (Z.of_nat (List.length t) <= Z.of_nat (List.length t + 1))%Z) by lia.
    unfold Qcle. rewrite !this_px. unfold Qle. cbn [Qnum Qden]. lia.
Qed.
Print Assumptions C37_needless_overflow_refuted.

(* ------------------------------------------------------------------ *)
(** * C62: lines are not broken early *)

(** A line of a run that is broken for want of room is broken where the next word would not fit, or is itself one
    word that does not fit ([no_room] in [wrapped]).  Stated for content that is one run of wrapping text; every line starts at 0, so its room is the width of
    the containing block less 0. *)
Theorem C62_greedy {ar : Arith} : forall m_ascent m_descent m_width parent st font t cb rank abs,
  sv st Lwhite_space <> WSNowrap -> sv st Lwhite_space <> WSPre ->
  exists fl abs' ls, ifc_layout m_ascent m_descent m_width parent [TextRun st t font] cb rank abs = Ok (fl, abs') /\
    map line_marks (fl_fragments fl) = map (piece_marks st font) ls /\
    wrapped (m_width font) (fun _ _ => True) (cb_inline cb - l0) true (cb_inline cb - l0) t ls.
Proof.
  intros ma md mw parent st fo t cb rank abs H1 H2.
  destruct (ifc_layout_any ma md mw parent [TextRun st t fo] cb rank abs) as (fl & abs' & es & pos & E & _ & Hb & Hl & _); [cbn; tauto|].
  inversion Hb as [|? b bs e es' p1 p2 Hb1 Hbs]; subst. inversion Hbs; subst.
  inversion Hb1 as [| ? ? ? ? ls Hr | |]; subst.
  inversion Hr as [Hw E0 | ls0 Hw1 Hw2 Hw]; subst; [destruct Hw; contradiction|].
  exists fl, (abs ++ abs'), ls. split; [exact E|]. split.
  - rewrite Hl, app_nil_r. apply cut_lines. intros ->. inversion Hw.
  - eapply wrapped_weaken; [|exact Hw]. intros; exact I.
Qed.
Print Assumptions C62_greedy.
Example C62_case : sv st0 Lwhite_space <> WSNowrap /\ sv st0 Lwhite_space <> WSPre /\
  texts_of (lay st0 (run st0 (txt "aa bb-c dd")) (CBlock (px 6) LAAuto)) = Some [txt "aa bb-"; txt "c dd"].
Proof. repeat split; try discriminate. Qed.

(* ------------------------------------------------------------------ *)
(** * C38 *)

(** [split_nl] is the cutting at newlines: the pieces contain none, and joined by newlines they are the text. *)
Fixpoint join_nl (ls : list text) : text :=
  match ls with [] => [] | [p] => p | p :: ls' => p ++ nl :: join_nl ls' end.
Lemma split_nl_spec t : join_nl (split_nl t) = t /\ Forall no_newline (split_nl t).
Proof.
  induction t as [|c t [IH1 IH2]]; [split; [reflexivity | repeat constructor; intros []]|]. cbn [split_nl].
  destruct (split_nl t) as [|l ls] eqn:E; [exfalso; revert E; apply split_nl_nonempty|].
  destruct (c =? nl)%N eqn:Ec.
  - apply N.eqb_eq in Ec. subst c. split; [cbn [join_nl app] in *; rewrite IH1; reflexivity|].
    constructor; [intros [] | exact IH2].
  - inversion IH2; subst. split.
    + destruct ls; cbn [join_nl app]; reflexivity.
    + constructor; [|assumption]. intros [He|Hi]; [subst c; discriminate | contradiction].
Qed.

(** Text that is not wrapped shows one line per newline-separated segment. *)
Theorem C38_run_lines {ar : Arith} : forall m_ascent m_descent m_width parent st font t cb rank abs,
  sv st Lwhite_space = WSNowrap \/ sv st Lwhite_space = WSPre ->
  exists fl abs', ifc_layout m_ascent m_descent m_width parent [TextRun st t font] cb rank abs = Ok (fl, abs') /\
    map line_marks (fl_fragments fl) = map (piece_marks st font) (split_nl t).
Proof.
  intros ma md mw parent st fo t cb rank abs Hw.
  destruct (ifc_layout_any ma md mw parent [TextRun st t fo] cb rank abs) as (fl & abs' & es & pos & E & _ & Hb & Hl & _); [cbn; tauto|].
  apply (nowrap_det _ _ _ _ _ (le_n _)) in Hb; [|cbn; tauto]. exists fl, (abs ++ abs'). split; [exact E|].
  rewrite Hl, Hb. cbn [flat_map nowrap_events]. rewrite app_nil_r. apply cut_lines. apply split_nl_nonempty.
Qed.
Print Assumptions C38_run_lines.

(** The same for any content whose text is not wrapped: lines break at the newlines and nowhere else. *)
Theorem C38_content_lines {ar : Arith} : forall m_ascent m_descent m_width parent boxes cb rank abs, abspos_oks boxes ->
  Forall nowrap_only boxes ->
  exists fl abs', ifc_layout m_ascent m_descent m_width parent boxes cb rank abs = Ok (fl, abs') /\
    map line_marks (fl_fragments fl) = cut [] (flat_map (nowrap_events (cb_inline cb)) boxes).
Proof.
  intros ma md mw parent boxes cb rank abs H Hw.
  destruct (ifc_layout_any ma md mw parent boxes cb rank abs H) as (fl & abs' & es & pos & E & _ & Hb & Hl & _).
  apply (nowrap_det _ _ _ _ _ (le_n _)) in Hb.
  - exists fl, (abs ++ abs'). split; [exact E|]. rewrite Hl, Hb. reflexivity.
  - clear - Hw. induction Hw; cbn; tauto.
Qed.
Print Assumptions C38_content_lines.
Definition ex_pre : list (ilb abs_lay) :=
  [TextRun st_pre (txt "a  b") st_pre; InlineBox st_pad true true [TextRun st_pre (nl :: txt "cc" ++ [nl]) st_pre]].
Example C38_case : abspos_oks ex_pre /\ Forall nowrap_only ex_pre /\
  texts_of (lay st0 ex_pre (CBlock (px 1) LAAuto)) = Some [txt "a  b"; txt "cc"; []] /\
  texts_of (lay st0 (run st_pre (txt "a b" ++ nl :: nl :: txt "c")) (CBlock (px 1) LAAuto)) = Some [txt "a b"; []; txt "c"].
Proof.
  split; [cbn; tauto|]. split.
  - constructor; [right; reflexivity|]. constructor; [|constructor]. cbn. split; [right; reflexivity | exact I].
  - split; vm_compute; reflexivity.
Qed.

(* ------------------------------------------------------------------ *)
(** * C41 *)

(** The line boxes follow each other without gap or overlap from position 0 on, the content height is where the
    last one ends; each is as wide as the containing block, begins at the alignment fraction of its free space,
    and shows its content in a row without gaps from its start on. *)
Theorem C41_lines_stacked : forall m_ascent m_descent m_width parent boxes cb rank abs, abspos_oks boxes ->
  exists fl abs', ifc_layout m_ascent m_descent m_width parent boxes cb rank abs = Ok (fl, abs') /\
    stacked m_width cb (align_fraction (sv parent Ltext_align)) l0 (fl_fragments fl) (fl_block_size fl) /\
    fl_margins fl = cb_zero.
Proof.
  intros ma md mw parent boxes cb rank abs H.
  destruct (ifc_layout_ok ma md mw parent boxes cb rank abs H) as (fl & abs' & es & pos & E & _ & _ & _ & Hs & Hm). eauto 6.
Qed.
Print Assumptions C41_lines_stacked.

(** [stacked] in sums: line [i] starts where the heights of the lines before it end. *)
Definition line_height_of (f : fragment) : Len := match f with FAnon r _ => v_block (r_size r) | _ => l0 end.
Lemma stacked_sum mw cb frac y ls y' : stacked mw cb frac y ls y' ->
  y' = y + lsum (map line_height_of ls) /\
  forall ls1 f ls2, ls = ls1 ++ f :: ls2 -> v_block (frag_start f) = y + lsum (map line_height_of ls1).
Proof.
  unfold lsum. induction 1 as [y | y r ch ls y' H1 H2 H3 H4 [IH1 IH2]]; cbn [map fold_right line_height_of].
  - split; [ring | intros [] ? ?; discriminate].
  - split; [rewrite IH1; ring|]. intros [|g ls1] f ls2 E; injection E as <- E.
    + cbn [frag_start map fold_right]. rewrite H1. cbn [v_block]. ring.
    + cbn [map fold_right line_height_of]. rewrite (IH2 _ _ _ E). ring.
Qed.
Theorem C41_heights : forall m_ascent m_descent m_width parent boxes cb rank abs, abspos_oks boxes ->
  exists fl abs', ifc_layout m_ascent m_descent m_width parent boxes cb rank abs = Ok (fl, abs') /\
    fl_block_size fl = lsum (map line_height_of (fl_fragments fl)) /\
    forall ls1 f ls2, fl_fragments fl = ls1 ++ f :: ls2 -> v_block (frag_start f) = lsum (map line_height_of ls1).
Proof.
  intros ma md mw parent boxes cb rank abs H.
  destruct (C41_lines_stacked ma md mw parent boxes cb rank abs H) as (fl & abs' & E & Hs & _).
  apply stacked_sum in Hs. destruct Hs as [H1 H2]. exists fl, abs'. split; [exact E|]. split.
  - rewrite H1. ring.
  - intros. rewrite (H2 _ _ _ H0). ring.
Qed.
Print Assumptions C41_heights.

(** Changing text-align moves lines as wholes: sizes, block positions and everything inside the lines stay. *)
Theorem C41_alignment_moves_lines {ar : Arith} : forall m_ascent m_descent m_width parent align boxes cb rank abs fl abs',
  m_ascent (set_sv parent Ltext_align align) = m_ascent parent ->
  m_descent (set_sv parent Ltext_align align) = m_descent parent ->
  ifc_layout m_ascent m_descent m_width parent boxes cb rank abs = Ok (fl, abs') ->
  exists fl', ifc_layout m_ascent m_descent m_width (set_sv parent Ltext_align align) boxes cb rank abs = Ok (fl', abs') /\
    Forall2 same_line (fl_fragments fl) (fl_fragments fl') /\ fl_block_size fl' = fl_block_size fl.
Proof.
  intros ma md mw parent align boxes cb rank abs fl abs' Ha Hd E.
  apply (ifc_layout_align ma md mw parent (set_sv parent Ltext_align align) boxes cb rank abs fl abs' Ha Hd); [reflexivity | exact E].
Qed.
Print Assumptions C41_alignment_moves_lines.
Definition line_boxes (r : result (flow * list abs_frag)) : list (Q * Q * Q * Q) :=
  match r with
  | Ok (fl, _) => map (fun f => match f with
      | FAnon r _ => (this (v_inline (r_start r)), this (v_block (r_start r)), this (v_inline (r_size r)), this (v_block (r_size r)))
      | _ => (0, 0, 0, 0)%Q end) (fl_fragments fl)
  | _ => []
  end.
Example C41_case : abspos_oks ex_boxes /\
  line_boxes (lay st0 ex_boxes cb10) = [(0, 0, 10, 96#5); (0, 96#5, 10, 96#5)]%Q /\
  line_boxes (lay st_center ex_boxes cb10) = [(0, 0, 10, 96#5); (3#2, 96#5, 10, 96#5)]%Q.
Proof. split; [cbn; tauto|]. split; vm_compute; reflexivity. Qed.

(* ------------------------------------------------------------------ *)
(** * C42 *)

(** The lines show the content as one stream of marks cut at the line breaks; in it an inline box has one
    opening edge, with its start padding, border and margin, before its content and one closing edge behind it.
    The fragments a box has on further lines have edges of size zero ([cut]). *)
Theorem C42_edges_once {ar : Arith} : forall m_ascent m_descent m_width parent boxes cb rank abs, abspos_oks boxes ->
  exists fl abs' es pos, ifc_layout m_ascent m_descent m_width parent boxes cb rank abs = Ok (fl, abs') /\
    boxes_events m_width (fun _ _ _ => True) (cb_inline cb) l0 boxes es pos /\
    map line_marks (fl_fragments fl) = cut [] es.
Proof. exact (@C35_lines_partial _). Qed.
Print Assumptions C42_edges_once.

(** In sums: the start edges of all fragments on all lines together are the start edges of the boxes, and the
    same for the end edges. *)
Theorem C42_edge_sums : forall m_ascent m_descent m_width parent boxes cb rank abs, abspos_oks boxes ->
  exists fl abs', ifc_layout m_ascent m_descent m_width parent boxes cb rank abs = Ok (fl, abs') /\
    total opening (concat (map line_marks (fl_fragments fl))) = lsum (map (boxes_edges opening (cb_inline cb)) boxes) /\
    total closing (concat (map line_marks (fl_fragments fl))) = lsum (map (boxes_edges closing (cb_inline cb)) boxes).
Proof.
  intros ma md mw parent boxes cb rank abs H.
  destruct (C42_edges_once ma md mw parent boxes cb rank abs H) as (fl & abs' & es & pos & E & Hb & Hl).
  exists fl, abs'. split; [exact E|]. rewrite Hl. split.
  - rewrite cut_total; [eapply boxes_total; [|apply le_n | exact Hb] | |]; try reflexivity.
  - rewrite cut_total; [eapply boxes_total; [|apply le_n | exact Hb] | |]; try reflexivity.
Qed.
Print Assumptions C42_edge_sums.
Definition mark_edges (m : mark) : Q * Q := (this (opening m), this (closing m)).
Example C42_case : abspos_oks ex_boxes /\
  match lay st0 ex_boxes cb10 with Ok (fl, _) => map (fun f => map mark_edges (line_marks f)) (fl_fragments fl) | _ => [] end =
  [[(0, 0); (3, 0); (0, 0); (0, 0)]; [(0, 0); (0, 0); (0, 1); (0, 0)]]%Q.
Proof. split; [cbn; tauto|]. vm_compute; reflexivity. Qed.
