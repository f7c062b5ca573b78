(** Properties of the number of lines: C91, and of the words on a line: C92. *)
From Verif Require Import InlineModel InlineSpec InlineWrap InlineProofs InlineFacts PropInline InlineCount WordSpec WordProofs.
Local Open Scope len_scope.

(* ------------------------------------------------------------------ *)
(** * C91: a wider box needs no more lines *)

(** The lines of the layout are the fragments of its flow.  [narrow] and [wide] are two containing blocks. *)

(** The text of one run, laid out in a wide block, takes no more lines than in a narrow one, if whatever fits in
    the narrow block still fits in the wide one when something is taken away at its front.
    MISSING: text that ends with a newline (C91_newline_refuted), and content of several runs (C91_runs_refuted). *)
Theorem C91_wider_partial {ar : Arith} : forall m_ascent m_descent m_width parent st font t narrow wide rank abs,
  sv st Lwhite_space <> WSNowrap -> sv st Lwhite_space <> WSPre ->
  (forall u, t <> u ++ [nl]) ->
  (forall a b, fits (cb_inline narrow - l0) (m_width font (a ++ b)) -> fits (cb_inline wide - l0) (m_width font b)) ->
  exists fl abs1 fl' abs2,
    ifc_layout m_ascent m_descent m_width parent [TextRun st t font] narrow rank abs = Ok (fl, abs1) /\
    ifc_layout m_ascent m_descent m_width parent [TextRun st t font] wide rank abs = Ok (fl', abs2) /\
    (List.length (fl_fragments fl') <= List.length (fl_fragments fl))%nat.
Proof.
  intros ma md mw parent st fo t cb cb' rank abs H1 H2 Hn Hw.
  destruct (run_counted ma md mw parent st fo t cb rank abs H1 H2) as (fl & a1 & E1 & C1).
  destruct (run_counted ma md mw parent st fo t cb' rank abs H1 H2) as (fl' & a2 & E2 & C2).
  exists fl, a1, fl', a2. split; [exact E1|]. split; [exact E2|].
  rewrite <- (Nat.add_0_r (List.length (fl_fragments fl))).
  refine (counted_fewer _ _ _ Hw 0 _ _ _ C1 (or_intror eq_refl) _ _ _ _ (suff_refl t) _ C2).
  - intros [u Hu]. destruct (Hn u Hu).
  - right. auto.
Qed.
Print Assumptions C91_wider_partial.

(** With any text, at most one line more. *)
Theorem C91_one_more_partial {ar : Arith} : forall m_ascent m_descent m_width parent st font t narrow wide rank abs,
  sv st Lwhite_space <> WSNowrap -> sv st Lwhite_space <> WSPre ->
  (forall a b, fits (cb_inline narrow - l0) (m_width font (a ++ b)) -> fits (cb_inline wide - l0) (m_width font b)) ->
  exists fl abs1 fl' abs2,
    ifc_layout m_ascent m_descent m_width parent [TextRun st t font] narrow rank abs = Ok (fl, abs1) /\
    ifc_layout m_ascent m_descent m_width parent [TextRun st t font] wide rank abs = Ok (fl', abs2) /\
    (List.length (fl_fragments fl') <= List.length (fl_fragments fl) + 1)%nat.
Proof.
  intros ma md mw parent st fo t cb cb' rank abs H1 H2 Hw.
  destruct (run_counted ma md mw parent st fo t cb rank abs H1 H2) as (fl & a1 & E1 & C1).
  destruct (run_counted ma md mw parent st fo t cb' rank abs H1 H2) as (fl' & a2 & E2 & C2).
  exists fl, a1, fl', a2. split; [exact E1|]. split; [exact E2|].
  refine (counted_fewer _ _ _ Hw 1 _ _ _ C1 (or_intror eq_refl) _ _ _ _ (suff_refl t) _ C2).
  - intros _. lia.
  - right. auto.
Qed.
Print Assumptions C91_one_more_partial.

(** With exact lengths, it is enough that the wide block is not narrower and that no text is wider than the same
    text with more in front. *)
Theorem C91_exact_partial : forall m_ascent m_descent (m_width : style -> text -> Len) parent st font t narrow wide rank abs,
  sv st Lwhite_space <> WSNowrap -> sv st Lwhite_space <> WSPre ->
  (forall u, t <> u ++ [nl]) ->
  (cb_inline narrow <= cb_inline wide)%Qc ->
  (forall a b, (m_width font b <= m_width font (a ++ b))%Qc) ->
  exists fl abs1 fl' abs2,
    ifc_layout m_ascent m_descent m_width parent [TextRun st t font] narrow rank abs = Ok (fl, abs1) /\
    ifc_layout m_ascent m_descent m_width parent [TextRun st t font] wide rank abs = Ok (fl', abs2) /\
    (List.length (fl_fragments fl') <= List.length (fl_fragments fl))%nat.
Proof.
  intros ma md mw parent st fo t cb cb' rank abs H1 H2 Hn Hc Hw. apply C91_wider_partial; try assumption.
  intros a b. unfold fits. specialize (Hw a b). intros H. match goal with |- ?x = _ => destruct x eqn:E; [exfalso|reflexivity] end.
  unfold Qcle in *. lenq.
Qed.
Print Assumptions C91_exact_partial.

Definition lines_of (r : result (flow * list abs_frag)) : option nat :=
  match r with Ok (fl, _) => Some (List.length (fl_fragments fl)) | _ => None end.
Lemma mono_front font a b : (mono font b <= mono font (a ++ b))%Qc.
Proof.
  unfold mono. rewrite app_length.
  assert (Hz : (Z.of_nat (List.length b) <= Z.of_nat (List.length a + List.length b))%Z) by lia.
  unfold Qcle. rewrite !this_px. unfold Qle. cbn [Qnum Qden]. lia.
Qed.
(** the words of this text, the first line that stays empty and the overlong word all meet the hypotheses *)
Example C91_case :
  let t := txt "wrapping the-words takes some lines " in
  sv st0 Lwhite_space <> WSNowrap /\ sv st0 Lwhite_space <> WSPre /\ (forall u, t <> u ++ [nl]) /\
  (forall a b, (mono st0 b <= mono st0 (a ++ b))%Qc) /\
  map (fun w => lines_of (lay st0 (run st0 t) (CBlock (px w) LAAuto))) [3; 6; 9; 12; 18; 40]%Q
  = [Some 7; Some 7; Some 5; Some 3; Some 2; Some 1]%nat.
Proof.
  cbv zeta. split; [discriminate|]. split; [discriminate|]. split.
  { intros u Hu. apply (f_equal (fun l => hd 0%N (rev l))) in Hu. rewrite rev_app_distr in Hu. vm_compute in Hu. discriminate. }
  split; [intros a b; apply mono_front|]. vm_compute. reflexivity.
Qed.

(** The full claim is false: a newline at the end of the text is swallowed behind a word too long for its line, but
    starts an empty line behind one that fits. *)
Definition st_lines : style := set_sv st0 Lwhite_space WSPreLine.
Theorem C91_newline_refuted : exists t fl abs1 fl' abs2,
  lay st_lines (run st_lines t) (CBlock (px 3) LAAuto) = Ok (fl, abs1) /\
  lay st_lines (run st_lines t) (CBlock (px 9) LAAuto) = Ok (fl', abs2) /\
  List.length (fl_fragments fl) = 2%nat /\ List.length (fl_fragments fl') = 3%nat.
Proof.
  set (t := txt "one" ++ [nl] ++ txt "three" ++ [nl]). exists t.
  remember (lay st_lines (run st_lines t) (CBlock (px 3) LAAuto)) as r1 eqn:E1.
  remember (lay st_lines (run st_lines t) (CBlock (px 9) LAAuto)) as r2 eqn:E2.
  assert (H1 : lines_of r1 = Some 2%nat) by (subst r1; vm_compute; reflexivity).
  assert (H2 : lines_of r2 = Some 3%nat) by (subst r2; vm_compute; reflexivity).
  destruct r1 as [[fl1 a1]| |]; try discriminate. destruct r2 as [[fl2 a2]| |]; try discriminate.
  exists fl1, a1, fl2, a2. cbn [lines_of] in H1, H2. injection H1 as H1. injection H2 as H2. auto.
Qed.
Print Assumptions C91_newline_refuted.

(** ... and with two runs: a space at the end of the first that does not fit is dropped although the line goes on,
    which leaves room for the next run. *)
Definition char_w (c : char) : Z := if (c =? sp)%N then 10 else if (c =? 105)%N then 3 else 25.
Definition proportional : style -> text -> Len := fun _ t => px (fold_right Z.add 0%Z (map char_w t) # 1).
Definition lay_p (boxes : list (ilb abs_lay)) (cb : cblock) := ifc_layout ex_ascent ex_descent proportional st0 boxes cb 0 [].
Definition two_runs : list (ilb abs_lay) := [TextRun st0 (txt "a ") st0; TextRun st0 (txt "i") st0].
Theorem C91_runs_refuted : exists boxes fl abs1 fl' abs2,
  lay_p boxes (CBlock (px 30) LAAuto) = Ok (fl, abs1) /\ lay_p boxes (CBlock (px 36) LAAuto) = Ok (fl', abs2) /\
  List.length (fl_fragments fl) = 1%nat /\ List.length (fl_fragments fl') = 2%nat.
Proof.
  exists two_runs.
  remember (lay_p two_runs (CBlock (px 30) LAAuto)) as r1 eqn:E1.
  remember (lay_p two_runs (CBlock (px 36) LAAuto)) as r2 eqn:E2.
  assert (H1 : lines_of r1 = Some 1%nat) by (subst r1; vm_compute; reflexivity).
  assert (H2 : lines_of r2 = Some 2%nat) by (subst r2; vm_compute; reflexivity).
  destruct r1 as [[fl1 a1]| |]; try discriminate. destruct r2 as [[fl2 a2]| |]; try discriminate.
  exists fl1, a1, fl2, a2. cbn [lines_of] in H1, H2. injection H1 as H1. injection H2 as H2. auto.
Qed.
Print Assumptions C91_runs_refuted.

(* ------------------------------------------------------------------ *)
(** * C92: words do not run together *)

(** Within a line nothing is dropped: the content is the lines one behind the other, with at most a space, a newline,
    a space and a newline, or a hyphen missing where a line ends.  So two words between which the content has a
    space are either on different lines or on one line with the space between them.
    MISSING: content in which a run that is followed by more text ends with a break opportunity (C92_refuted). *)
Theorem C92_apart_partial {ar : Arith} : forall m_ascent m_descent m_width parent boxes cb rank abs, abspos_oks boxes ->
  no_loose_end (flat_map run_texts boxes) ->
  exists fl abs', ifc_layout m_ascent m_descent m_width parent boxes cb rank abs = Ok (fl, abs') /\
    shown_on (map (fun f => marks_text (line_marks f)) (fl_fragments fl)) (flat_map ilb_text boxes).
Proof.
  intros ma md mw parent boxes cb rank abs H Ha.
  destruct (ifc_layout_any ma md mw parent boxes cb rank abs H) as (fl & abs' & es & pos & E & _ & Hb & Hl & _).
  exists fl, (abs ++ abs'). split; [exact E|].
  rewrite <- (map_map line_marks marks_text), Hl, cut_etexts.
  rewrite <- (app_nil_r es), <- (app_nil_r (flat_map ilb_text boxes)).
  apply (boxes_shown _ _ _ _ _ (le_n _) _ _ _ Hb [] []); [|rewrite app_nil_r; exact Ha].
  apply (so_last [] []). left; reflexivity.
Qed.
Print Assumptions C92_apart_partial.

Lemma ends_nobreak (t : text) x : ~ break_char x -> forall u c, t ++ [x] = u ++ [c] -> break_char c -> False.
Proof. intros Hx u c E Hc. apply app_inj_tail in E. destruct E as [_ ->]. exact (Hx Hc). Qed.
Example C92_case : abspos_oks ex_boxes /\ no_loose_end (flat_map run_texts ex_boxes) /\
  texts_of (lay st0 ex_boxes cb10) = Some [txt "aabb cc"; txt "ddde-f"] /\
  shown_on [txt "aabb cc"; txt "ddde-f"] (txt "aabb cc ddde-f").
Proof.
  split; [cbn; tauto|]. split.
  { intros before t c after E Hc. exfalso.
    assert (Hi : In (t ++ [c]) [txt "aa"; txt "bb cc ddd"; txt "e-f"]).
    { change [txt "aa"; txt "bb cc ddd"; txt "e-f"] with (flat_map run_texts ex_boxes). rewrite E. apply in_or_app. right; left; reflexivity. }
    destruct Hi as [Hi | [Hi | [Hi | []]]]; apply (f_equal (fun l => hd 0%N (rev l))) in Hi; rewrite rev_app_distr in Hi;
      vm_compute in Hi; subst c; destruct Hc as [Hc | [Hc | Hc]]; discriminate. }
  split; [vm_compute; reflexivity|].
  apply (so_line (txt "aabb cc") [sp] [txt "ddde-f"] (txt "ddde-f")); [right; left; reflexivity|].
  apply (so_last (txt "ddde-f") []). left; reflexivity.
Qed.

(** Finding: the full claim is false.  The space at the end of a run is dropped when it does not fit, although the
    next run still fits on the same line: `a <b>i</b>` is shown as `ai`. *)
Definition st_b : style := set_sv (set_sv st0 Lborder_left_width (LPLen l0)) Lborder_right_width (LPLen l0).
Lemma not_shown ls t : shown_on ls t -> ls = [txt "ai"] -> t = txt "a i" -> False.
Proof.
  destruct 1 as [l d Hg | l d ls t Hg Hs]; intros El Et.
  - injection El as ->. vm_compute in Et. discriminate Et.
  - injection El as -> ->. inversion Hs.
Qed.
Theorem C92_refuted : exists boxes cb fl abs',
  lay_p boxes cb = Ok (fl, abs') /\ flat_map ilb_text boxes = txt "a i" /\
  map (fun f => marks_text (line_marks f)) (fl_fragments fl) = [txt "ai"] /\
  ~ shown_on (map (fun f => marks_text (line_marks f)) (fl_fragments fl)) (flat_map ilb_text boxes).
Proof.
  set (boxes := [TextRun st0 (txt "a ") st0; InlineBox st_b true true [TextRun st_b (txt "i") st_b]] : list (ilb abs_lay)).
  exists boxes, (CBlock (px 30) LAAuto).
  assert (Et : texts_of (lay_p boxes (CBlock (px 30) LAAuto)) = Some [txt "ai"]) by (vm_compute; reflexivity).
  destruct (lay_p boxes (CBlock (px 30) LAAuto)) as [[fl abs']| |] eqn:El; try discriminate.
  exists fl, abs'. split; [reflexivity|]. split; [vm_compute; reflexivity|]. cbn [texts_of] in Et. injection Et as Et.
  rewrite Et. split; [reflexivity|]. change (flat_map ilb_text boxes) with (txt "a i"). intros Hs.
  exact (not_shown _ _ Hs eq_refl eq_refl).
Qed.
Print Assumptions C92_refuted.
