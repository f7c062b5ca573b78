(** Values of longhands: C81. *)
From Verif Require Import StyleModel StyleSpec StyleCascade StyleParse GfxModel ValueSpec.
Local Open Scope string_scope.

Lemma wide_iff t k : is_wide t k <-> parse_wide [t] = Some (k, []).
Proof.
  split.
  - intros (s & -> & H). cbn in H. destruct H as [H|[H|[H|[]]]]; injection H as <- <-; reflexivity.
  - destruct t as [s| | | | | | |]; try discriminate. intros H. exists s. split; [reflexivity|]. cbn in H.
    repeat match type of H with context [String.eqb s ?k] =>
      destruct (String.eqb s k) eqn:E; [apply String.eqb_eq in E; subst s; injection H as <-; cbn; tauto|clear E] end. discriminate.
Qed.
Lemma length_iff t s : length_token t s <-> parse_length [t] = Some (s, []).
Proof.
  split.
  - intros H. destruct H as [v u f H|v u H|]; [apply unit_conv, H | apply em_conv, H | reflexivity].
  - destruct t as [x|x|v|v|v u|c| |k]; try discriminate.
    + intros H. cbn in H. destruct (leqb v l0) eqn:E; [|discriminate]. injection H as <-. apply leqb_iff in E. subst v. constructor.
    + intros H. assert (K : known_unit (lower u)).
      { unfold known_unit. destruct (string_dec (lower u) "em"); [left; assumption|].
        cbn in H. repeat match type of H with context [String.eqb (lower u) ?k] =>
          destruct (String.eqb (lower u) k) eqn:E; [apply String.eqb_eq in E; first [congruence | rewrite E; clear; right; eexists; cbn; repeat first [left; reflexivity | right]] |clear E] end. discriminate. }
      destruct K as [K|(f & K)].
      * rewrite (em_conv v u [] K) in H. injection H as <-. constructor. exact K.
      * rewrite (unit_conv v u f [] K) in H. injection H as <-. constructor. exact K.
Qed.
Lemma means_parse ct l t d : means ct l t d -> parse_property ct (PLong l) [t] = Some ([d], []).
Proof.
  intros H. destruct H as [k d F H|t s d Ht Hd|p d Hd|t c d Ht Hd|n -> Hn|s d -> H|s -> H|s ->].
  - pose proof (lower_case_keywords ct) as A. rewrite Forall_forall in A. specialize (A _ H []). cbn [fst snd] in A.
    rewrite A. destruct l; reflexivity.
  - apply length_iff in Ht.
    destruct l; try discriminate Hd; injection Hd as <-; cbn [parse_property parse_longhand];
    unfold parse_line_width, parse_lpa, parse_lpn, parse_vertical_align, parse_lp, derive_parse, pmap; cbn [fold_right]; unfold try_or, pmap; rewrite ?Ht; reflexivity.
  - destruct l; try discriminate Hd; injection Hd as <-; reflexivity.
  - destruct l; try discriminate Hd; injection Hd as <-; cbn [parse_property parse_longhand]; unfold pmap, parse_color; rewrite Ht; reflexivity.
  - cbn [parse_property parse_longhand]. unfold pmap, parse_lpn, derive_parse. cbn [fold_right]. unfold try_or, pmap.
    rewrite (proj2 (unitless n []) Hn). reflexivity.
  - cbn in H. cbn [parse_property parse_longhand]. unfold pmap, parse_font_family, family_of_ident.
    repeat (destruct H as [H|H]; [first [discriminate H | pose proof (f_equal (fun x => snd (fst x)) H) as E1; pose proof (f_equal snd H) as E2; cbn [fst snd] in E1, E2; rewrite <- E1, <- E2; reflexivity]|]). destruct H.
  - cbn [parse_property parse_longhand]. unfold pmap, parse_font_family, family_of_ident.
    repeat match goal with |- context [String.eqb (lower s) ?k] =>
      destruct (String.eqb (lower s) k) eqn:E; [exfalso; apply String.eqb_eq in E; rewrite E in H; eapply H; cbn; repeat first [left; reflexivity | right] |clear E] end. reflexivity.
  - reflexivity.
Qed.

Fixpoint table_lookup (l : longhand) (k : string) (ts : list (longhand * string * decl)) : option decl :=
  match ts with
  | [] => None
  | (l', k', d) :: ts' => if longhand_eq_dec l' l then if String.eqb k' k then Some d else table_lookup l k ts' else table_lookup l k ts'
  end.
Lemma table_in l k d ts : table_lookup l k ts = Some d -> In (l, k, d) ts.
Proof.
  induction ts as [|[[l' k'] d'] ts IH]; [discriminate|]. cbn [table_lookup]. intros H.
  destruct (longhand_eq_dec l' l) as [->|]; [|right; auto]. destruct (String.eqb k' k) eqn:E; [|right; auto].
  apply String.eqb_eq in E. injection H as ->. subst k'. left. reflexivity.
Qed.
Ltac in_table := apply table_in; reflexivity.
Ltac keywords s H := cbn [parse_property parse_longhand] in H; unfold parse_font_style, parse_font_weight, parse_vertical_align, parse_text_align, parse_white_space, parse_position, parse_float, parse_display, parse_lpa, parse_lpn, parse_lp, parse_line_style, parse_line_width, derive_parse in H; cbn [fold_right] in H; unfold try_or, pmap, keyword in H; cbn in H;
  repeat match type of H with context [String.eqb s ?k] =>
    destruct (String.eqb s k) eqn:?; [match goal with Q : String.eqb s k = true |- _ => apply String.eqb_eq in Q; subst s end; injection H as <-; apply m_keyword; [discriminate | in_table]|] end;
  discriminate.
Lemma parse_means ct l t d : parse_property ct (PLong l) [t] = Some ([d], []) -> means ct l t d.
Proof.
  intros H. destruct (color_decl l CCurrent) eqn:C.
  { cbn [parse_property] in H. unfold pmap in H. destruct l; try discriminate C; cbn [parse_longhand] in H; unfold parse_color in H;
    destruct (ct t) as [c|] eqn:E; try discriminate H; injection H as <-; (eapply m_color; [exact E | reflexivity]). }
  destruct t as [s|s|v|v|v u|c| |k].
  - destruct l; try discriminate C; try (keywords s H; fail).
    cbn [parse_property parse_longhand] in H. unfold pmap, parse_font_family, family_of_ident in H.
    repeat match type of H with context [String.eqb (lower s) ?k] =>
      destruct (String.eqb (lower s) k) eqn:?; [match goal with Q : String.eqb (lower s) k = true |- _ => apply String.eqb_eq in Q; injection H as <-; apply m_generic; [reflexivity | rewrite Q; in_table] end|] end.
    injection H as <-. apply m_family; [reflexivity|]. intros d' Hin.
    repeat match goal with Q : String.eqb _ _ = false |- _ => apply String.eqb_neq in Q end.
    cbn in Hin. repeat (destruct Hin as [Hin|Hin]; [first [discriminate Hin | pose proof (f_equal (fun x => snd (fst x)) Hin) as E1; cbn [fst snd] in E1; congruence]|]). destruct Hin.
  - destruct l; try discriminate C; try discriminate H. injection H as <-. apply m_quoted. reflexivity.
  - destruct (Len_eq_dec v l0) as [->|N].
    + destruct l; try discriminate C; try discriminate H; injection H as <-; (eapply m_length; [apply lt_zero | reflexivity]).
    + pose proof (proj2 (unitless v []) N) as U.
      destruct l; try discriminate C; try discriminate H; cbn [parse_property parse_longhand] in H;
      unfold parse_line_width, parse_lpa, parse_lpn, parse_vertical_align, parse_lp, derive_parse, pmap in H; cbn [fold_right] in H; unfold try_or, pmap in H; rewrite ?U in H; try discriminate H.
      injection H as <-. apply m_number; [reflexivity | exact N].
  - destruct l; try discriminate C; try discriminate H; injection H as <-; apply m_percent; reflexivity.
  - destruct (parse_length [TDim v u]) as [[s r]|] eqn:U.
    + pose proof (proj1 (single_head _ _ _ _ _ single_length U)) as ->.
      pose proof U as U'. apply length_iff in U'.
      destruct l; try discriminate C; try discriminate H; cbn [parse_property parse_longhand] in H;
      unfold parse_line_width, parse_lpa, parse_lpn, parse_vertical_align, parse_lp, derive_parse, pmap in H; cbn [fold_right] in H; unfold try_or, pmap in H; rewrite U in H;
      injection H as <-; (eapply m_length; [exact U' | reflexivity]).
    + destruct l; try discriminate C; try discriminate H; cbn [parse_property parse_longhand] in H;
      unfold parse_line_width, parse_lpa, parse_lpn, parse_vertical_align, parse_lp, derive_parse, pmap in H; cbn [fold_right] in H; unfold try_or, pmap in H; rewrite U in H; discriminate H.
  - destruct l; try discriminate C; discriminate H.
  - destruct l; try discriminate C; discriminate H.
  - destruct l; try discriminate C; discriminate H.
Qed.

Lemma declares_iff ct l t d : declares ct l t d <-> split_value ct (PLong l) [t] = Some ([d], []).
Proof.
  unfold declares, split_value. split.
  - intros [(k & W & ->)|[W M]].
    + apply wide_iff in W. rewrite W. reflexivity.
    + destruct (parse_wide [t]) as [[k r]|] eqn:E; [|apply means_parse, M].
      exfalso. pose proof (proj1 (single_head _ _ _ _ _ single_wide E)) as ->. exact (W k (proj2 (wide_iff t k) E)).
  - destruct (parse_wide [t]) as [[k r]|] eqn:E; intros H.
    + left. exists k. cbn in H. injection H as <- ->. split; [apply wide_iff, E | reflexivity].
    + right. split; [intros k W; apply wide_iff in W; congruence | apply parse_means, H].
Qed.

(** A declaration of one token is taken exactly if the token is one of the values the longhand takes, with the
    meaning of that value, else it is ignored. *)
Theorem C81_exactly_partial : forall (ct : token -> option color) name l t, l <> Lborder_right_color -> lower name = css_name l ->
  exists b, parse_block ct [IDecl name [TColon; t]] = Ok b /\
    (forall d, entries b = [(d, false)] <-> declares ct l t d) /\
    ((forall d, ~ declares ct l t d) -> entries b = []).
Proof.
  intros ct name l t B N. apply (css_name_lookup name l B) in N.
  destruct (split_value ct (PLong l) [t]) as [[ds r]|] eqn:S.
  - assert (P := split_longhands _ _ _ _ _ S). cbn in P.
    destruct ds as [|d [|]]; try discriminate P.
    assert (r = []) as ->.
    { unfold split_value in S. destruct (parse_wide [t]) as [[k r0]|] eqn:W.
      - pose proof (proj1 (single_head _ _ _ _ _ single_wide W)) as ->. injection S as _ <-. reflexivity.
      - cbn [parse_property] in S. unfold pmap in S. destruct (parse_longhand ct l [t]) as [[v r0]|] eqn:L; [|discriminate].
        injection S as _ <-. destruct (longhand_eq_dec l Lfont_family) as [->|F].
        + cbn [parse_longhand] in L. unfold parse_font_family in L. destruct t; try discriminate; injection L as _ <-; reflexivity.
        + exact (proj1 (single_head _ _ _ _ _ (single_longhand ct l F) L)). }
    destruct (split_item ct _ _ _ _ N S) as [E L]. destruct (block_of_item ct _ _ E L) as (b & Hb & He).
    exists b. split; [exact Hb|]. rewrite He. split.
    + intros d'. rewrite declares_iff, S. cbn. split; intros H; injection H as <-; reflexivity.
    + intros H. contradiction (H d). apply declares_iff, S.
  - destruct (block_of_item ct (IDecl name [TColon; t]) []) as (b & Hb & He).
    + cbn [item_entries]. rewrite N, S. reflexivity.
    + intros (n' & ts & p & ds & r & E & Hn & Hs & _). injection E as <- <-. rewrite N in Hn. injection Hn as <-. congruence.
    + exists b. split; [exact Hb|]. rewrite He. split; [|reflexivity].
      intros d. rewrite declares_iff, S. split; discriminate.
Qed.
Print Assumptions C81_exactly_partial.
(** The full statement, with the illegal values ignored, fails for negative padding. *)
Theorem C81_refuted : exists name l t d, lower name = css_name l /\ forall ct : token -> option color,
  ~ legal ct l t d /\ exists b, parse_block ct [IDecl name [TColon; t]] = Ok b /\ entries b = [(d, false)].
Proof.
  exists "padding-top", Lpadding_top, (TDim (px (-5)) "px"), (DVal Lpadding_top (LPLen (SAbs (px (-5))))). split; [reflexivity|].
  intros ct. split.
  - intros [_ H]. apply H. split; [reflexivity|]. exists (px (-5)). split; reflexivity.
  - destruct (C81_exactly_partial ct "padding-top" Lpadding_top (TDim (px (-5)) "px")) as (b & Hb & H & _); [discriminate | reflexivity |].
    exists b. split; [exact Hb|]. apply H. right. split.
    + intros k (s & E & _). discriminate.
    + eapply m_length; [|reflexivity]. assert (px (-5) = (px (-5) * px 1)%len) as E by (apply Qc_is_canon; reflexivity).
      rewrite E at 2. apply lt_abs. left. reflexivity.
Qed.
Print Assumptions C81_refuted.
(** It holds for every other value. *)
Theorem C81_partial : forall (ct : token -> option color) name l t, l <> Lborder_right_color -> lower name = css_name l ->
  ~ (not_negative l = true /\ negative_value t) ->
  exists b, parse_block ct [IDecl name [TColon; t]] = Ok b /\
    (forall d, entries b = [(d, false)] <-> legal ct l t d) /\ ((forall d, ~ legal ct l t d) -> entries b = []).
Proof.
  intros ct name l t B N L. destruct (C81_exactly_partial ct name l t B N) as (b & Hb & H1 & H2).
  exists b. split; [exact Hb|]. unfold legal. split.
  - intros d. rewrite H1. tauto.
  - intros H. apply H2. intros d D. apply (H d). tauto.
Qed.
Print Assumptions C81_partial.
Example C81_case :
  declares (fun _ => None) Lmargin_left (TDim (px 3) "Pt") (DVal Lmargin_left (LPALen (SAbs (px 3 * px (96#72))%len))) /\
  declares (fun _ => None) Lline_height (TNumber (px 2)) (DVal Lline_height (LPNNum (px 2))) /\
  declares (fun _ => None) Lfont_family (TIdent "Sans-Serif") (DVal Lfont_family FamSans) /\
  (forall d, ~ declares (fun _ => None) Lwidth (TIdent "wide") d).
Proof.
  split; [|split; [|split]].
  - right. split; [intros k (s & E & _); discriminate|]. eapply m_length; [|reflexivity]. apply lt_abs. cbn. tauto.
  - apply declares_iff. vm_compute. reflexivity.
  - apply declares_iff. reflexivity.
  - intros d H. apply declares_iff in H. discriminate H.
Qed.
