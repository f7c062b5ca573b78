(** Other line styles in the style sheets give other line styles in the computed styles, and nothing else (proofs for C108). *)
From Verif Require Import Base Len StyleModel StyleSpec StyleCascade StyleWinner StyleParse StyleFacts PropStyle RecolorStyle LineSpec.
From Verif Require Import GfxModel.
From Coq Require Import Lia.
Local Open Scope list_scope.

(** the declarations that win for two elements are the same but for line styles *)
Definition relined_winners {ar : Arith} (cs cs' : list cand) : Prop :=
  forall l, (undeclared cs l /\ undeclared cs' l) \/
    exists c c', wins cs c /\ wins cs' c' /\ relined_decl (c_decl c) (c_decl c') /\ decl_longhand (c_decl c) = l.
Lemma relined_longhand {ar : Arith} d d' : relined_decl d d' -> decl_longhand d' = decl_longhand d.
Proof. intros []; reflexivity. Qed.
Lemma relined_other {ar : Arith} d d' : relined_decl d d' -> is_line_style (decl_longhand d) = false -> d' = d.
Proof. intros []; cbn; intros E; try discriminate E; reflexivity. Qed.

Section Element.
Context {ar : Arith} {sel sel' : Type}.
Variables (ct : token -> option color) (sp : sel -> N) (sp' : sel' -> N) (m : sel -> bool) (m' : sel' -> bool).
Variables (ua au : list (list (rule sel))) (ua' au' : list (list (rule sel'))) (at_ at_' : option (list item)) (p p' : option style) (s s' : style).
Hypothesis H : element_style ct sp m ua au at_ p s.
Hypothesis H' : element_style ct sp' m' ua' au' at_' p' s'.
Notation cs := (candidates ct sp m ua au at_).
Notation cs' := (candidates ct sp' m' ua' au' at_').
Hypothesis W : relined_winners cs cs'.
Hypothesis HP : relined_parent p p'.
Notation P := (parent_or_initial p).
Notation P' := (parent_or_initial p').

Lemma ln_parent l : is_line_style l = false -> sv P' l = sv P l.
Proof. intros Hl. destruct p as [q|], p' as [q'|]; cbn in HP; try contradiction; cbn [parent_or_initial]; [apply HP, Hl|reflexivity]. Qed.
Lemma ln_default l : is_line_style l = false -> default_value P' l = default_value P l.
Proof. intros Hl. unfold default_value. destruct (in_dec _ _ _); [apply ln_parent, Hl|reflexivity]. Qed.
Lemma ln_computed own l v : is_line_style l = false -> computed P' own l v = computed P own l v.
Proof.
  intros Hl. destruct l; try discriminate Hl; cbn [computed]; try reflexivity.
  all: first [rewrite (ln_parent Lfont_size) by reflexivity; reflexivity | destruct v; [reflexivity|apply ln_parent; reflexivity]].
Qed.
(** the value before the final adjustments *)
Lemma ln_raw l : is_line_style l = false -> (l = Lfont_size \/ sv s' Lfont_size = sv s Lfont_size) ->
  exists v, sv s l = adjusted s l v /\ sv s' l = adjusted s' l v.
Proof.
  intros Hl F. destruct (W l) as [[U U']|(c1 & c2 & W1 & W2 & E & E1)].
  - exists (default_value P l). split; [exact (rv_undeclared _ _ _ _ _ _ _ _ H _ U)|]. rewrite (rv_undeclared _ _ _ _ _ _ _ _ H' _ U'), (ln_default l Hl). reflexivity.
  - pose proof (C09_winner_takes_effect _ _ _ _ _ _ _ _ _ H c1 W1) as V.
    pose proof (C09_winner_takes_effect _ _ _ _ _ _ _ _ _ H' c2 W2) as V'.
    rewrite (relined_other _ _ E) in V' by (rewrite E1; exact Hl). subst l.
    eexists. split; [exact V|]. rewrite V'. f_equal.
    destruct (c_decl c1) as [l v|l w]; cbn [decl_longhand decl_value] in *.
    + rewrite (ln_computed _ l v Hl). destruct F as [->|F]; [reflexivity|]. rewrite F. reflexivity.
    + destruct w; [apply ln_parent, Hl|reflexivity|apply ln_default, Hl].
Qed.
Lemma ln_font : sv s' Lfont_size = sv s Lfont_size.
Proof. destruct (ln_raw Lfont_size eq_refl (or_introl eq_refl)) as (v & V & V'). rewrite V, V'. reflexivity. Qed.
Lemma ln_plain l : is_line_style l = false ->
  match l with Lborder_top_width | Lborder_right_width | Lborder_bottom_width | Lborder_left_width | Ldisplay => False | _ => True end ->
  sv s' l = sv s l.
Proof. intros Hl Hp. destruct (ln_raw l Hl (or_intror ln_font)) as (v & V & V'). rewrite V, V'. destruct l; try contradiction; reflexivity. Qed.
Lemma ln_style : relined s s'.
Proof.
  assert (PL : (sv P' Lborder_top_style = LSNone <-> sv P Lborder_top_style = LSNone) /\
    (sv P' Lborder_right_style = LSNone <-> sv P Lborder_right_style = LSNone) /\
    (sv P' Lborder_bottom_style = LSNone <-> sv P Lborder_bottom_style = LSNone) /\
    (sv P' Lborder_left_style = LSNone <-> sv P Lborder_left_style = LSNone)).
  { destruct p as [q|], p' as [q'|]; cbn in HP; try contradiction; cbn [parent_or_initial]; [apply HP|tauto]. }
  destruct PL as (PT & PR & PB & PLf).
  assert (X : forall l (c1 c2 : cand), wins cs c1 -> wins cs' c2 -> decl_longhand (c_decl c1) = l -> c_decl c2 = c_decl c1 ->
    is_line_style l = true -> match l return vty l -> vty l -> Prop with
      | Lborder_top_style | Lborder_right_style | Lborder_bottom_style | Lborder_left_style => fun a b => a = LSNone <-> b = LSNone
      | _ => fun _ _ => True end (sv s' l) (sv s l)).
  { intros l c1 c2 W1 W2 E1 E Hl. subst l.
    pose proof (C09_winner_takes_effect _ _ _ _ _ _ _ _ _ H c1 W1) as V.
    pose proof (C09_winner_takes_effect _ _ _ _ _ _ _ _ _ H' c2 W2) as V'. rewrite E in V'.
    destruct (c_decl c1) as [l v|l w]; cbn [decl_longhand decl_value] in *; rewrite V, V'; clear V V';
      destruct l; try discriminate Hl; cbn [adjusted computed]; try tauto; destruct w; cbn; tauto. }
  assert (Y : forall l, is_line_style l = true -> match l return vty l -> vty l -> Prop with
      | Lborder_top_style | Lborder_right_style | Lborder_bottom_style | Lborder_left_style => fun a b => a = LSNone <-> b = LSNone
      | _ => fun _ _ => True end (sv s' l) (sv s l)).
  { intros l Hl. destruct (W l) as [[U U']|(c1 & c2 & W1 & W2 & E & E1)].
    - rewrite (rv_undeclared _ _ _ _ _ _ _ _ H _ U), (rv_undeclared _ _ _ _ _ _ _ _ H' _ U'). destruct l; try discriminate Hl; cbn; tauto.
    - pose proof (X l c1 c2 W1 W2 E1) as Xl. pose proof (C09_winner_takes_effect _ _ _ _ _ _ _ _ _ H c1 W1) as V.
      pose proof (C09_winner_takes_effect _ _ _ _ _ _ _ _ _ H' c2 W2) as V'. clear X W1 W2.
      destruct E as [d|v v' N N'|v v' N N'|v v' N N'|v v' N N']; [exact (Xl eq_refl Hl)|..]; subst l; cbn in V, V' |- *; rewrite V, V'; tauto. }
  pose proof (Y Lborder_top_style eq_refl) as YT. pose proof (Y Lborder_right_style eq_refl) as YR.
  pose proof (Y Lborder_bottom_style eq_refl) as YB. pose proof (Y Lborder_left_style eq_refl) as YL. cbn in YT, YR, YB, YL. clear X Y.
  split; [|split; [|auto]].
  - intros l Hl. destruct (ln_raw l Hl (or_intror ln_font)) as (v & V & V').
    destruct l; try discriminate Hl; try (rewrite V, V'; reflexivity); rewrite V, V'; cbn [adjusted].
    all: try (match goal with |- width_if ?a _ = width_if ?b _ => destruct a, b; cbn; first [reflexivity | exfalso; clear - YT YR YB YL; intuition congruence] end).
    assert (O : out_of_flow s <-> out_of_flow s').
    { unfold out_of_flow. rewrite (ln_plain Lposition), (ln_plain Lfloat) by (reflexivity || exact I). reflexivity. }
    destruct (out_of_flow_dec s), (out_of_flow_dec s'); tauto || reflexivity.
  - destruct (C13_specified_display_is_remembered _ _ _ _ _ _ _ _ _ H) as [D1 D2].
    destruct (C13_specified_display_is_remembered _ _ _ _ _ _ _ _ _ H') as [D1' D2'].
    destruct (W Ldisplay) as [[U U']|(c1 & c2 & W1 & W2 & E & E1)]; [rewrite (D2 U), (D2' U'); reflexivity|].
    apply relined_other in E; [|rewrite E1; reflexivity].
    pose proof (D1 c1) as A. pose proof (D1' c2) as B. rewrite E in B.
    destruct (c_decl c1) as [l1 v|l1 w]; cbn [decl_longhand] in *; subst l1; cbn [declared_display] in *.
    + rewrite (A v W1 eq_refl), (B v W2 eq_refl). reflexivity.
    + destruct w; rewrite (A _ W1 eq_refl), (B _ W2 eq_refl); try reflexivity. exact (ln_parent Ldisplay eq_refl).
Qed.
End Element.

(* ------------------------------------------------------------------ *)
(** * Sheets *)
Section Sheets.
Context {ar : Arith}.
Definition lined (c c' : cand) : Prop :=
  c_ua c' = c_ua c /\ c_important c' = c_important c /\ c_spec c' = c_spec c /\ c_rule c' = c_rule c /\ c_pos c' = c_pos c /\ relined_decl (c_decl c) (c_decl c').
Lemma block_lined u spc i es es' : Forall2 (fun e e' : decl * bool => relined_decl (fst e) (fst e') /\ snd e' = snd e) es es' -> forall pos,
  Forall2 lined (block_cands_from u spc i pos es) (block_cands_from u spc i pos es').
Proof. induction 1 as [|[d im] [d' im'] es es' [R E] _ IH]; intros pos; cbn in *; [constructor|]. subst im'. constructor; [repeat split; exact R|apply IH]. Qed.
Lemma rules_of_relined {sel} ct (s s' : list (list (rule sel))) : relined_sheets ct s s' ->
  Forall2 (fun a b => fst b = fst a /\ relined_block ct (snd a) (snd b)) (rules_of s) (rules_of s').
Proof.
  induction 1 as [|r r' s s' Hr _ IH]; cbn; [constructor|]. apply Forall2_app; [|exact IH]. clear IH.
  induction Hr as [|x y r r' Hxy _ IH]; cbn; [constructor|]. apply Forall2_app; [|exact IH]. destruct Hxy as [sels a b B|]; [|constructor].
  induction sels; cbn; constructor; auto.
Qed.
Lemma rule_cands_lined {sel} ct (sp : sel -> N) m u rules rules' : Forall2 (fun a b => fst b = fst a /\ relined_block ct (snd a) (snd b)) rules rules' ->
  forall i, Forall2 lined (rule_cands ct sp m u i rules) (rule_cands ct sp m u i rules').
Proof.
  induction 1 as [|[x a] [y b] r r' [E B] _ IH]; intros i; cbn; [constructor|]. cbn in E, B. subst y. apply Forall2_app; [|apply IH].
  destruct (m x); [apply block_lined, B|constructor].
Qed.
Lemma candidates_lined {sel} ct (sp : sel -> N) m ua au at_ ua' au' at_' : relined_sheets ct ua ua' -> relined_sheets ct au au' -> relined_attr ct at_ at_' ->
  Forall2 lined (candidates ct sp m ua au at_) (candidates ct sp m ua' au' at_').
Proof.
  intros U A T. unfold candidates. repeat apply Forall2_app; try (apply rule_cands_lined, rules_of_relined; assumption).
  destruct at_, at_'; cbn in T; try contradiction; [apply block_lined, T|constructor].
Qed.
Lemma lined_nth l l' : Forall2 lined l l' -> forall i, match nth_error l i, nth_error l' i with Some a, Some b => lined a b | None, None => True | _, _ => False end.
Proof. induction 1; intros [|i]; cbn; auto. apply IHForall2. Qed.
Lemma lined_wins F F' : Forall2 lined F F' -> ForallOrdPairs before F -> forall c, wins F c -> exists c', wins F' c' /\ relined_decl (c_decl c) (c_decl c').
Proof.
  intros A O c [Hc Hw]. apply In_nth_error in Hc. destruct Hc as (i & Ei). pose proof (lined_nth _ _ A i) as Ai. rewrite Ei in Ai.
  destruct (nth_error F' i) as [c'|] eqn:Ei'; [|contradiction]. exists c'. destruct Ai as (A1 & A2 & A3 & A4 & A5 & A6). split; [|exact A6].
  split; [exact (nth_error_In F' i Ei')|]. intros d' Hd' El. apply In_nth_error in Hd'. destruct Hd' as (j & Ej').
  pose proof (lined_nth _ _ A j) as Aj. rewrite Ej' in Aj. destruct (nth_error F j) as [d|] eqn:Ej; [|contradiction]. destruct Aj as (B1 & B2 & B3 & B4 & B5 & B6).
  rewrite (relined_longhand _ _ A6), (relined_longhand _ _ B6) in El.
  destruct (Nat.eq_dec i j) as [->|Nij]; [left; congruence|]. right.
  destruct (Hw d (nth_error_In F j Ej) El) as [->|R].
  - exfalso. destruct (Nat.lt_total i j) as [L|[L|L]]; [|congruence|].
    + pose proof (ordered_nth _ O _ _ _ _ Ei Ej L eq_refl eq_refl eq_refl). lia.
    + pose proof (ordered_nth _ O _ _ _ _ Ej Ei L eq_refl eq_refl eq_refl). lia.
  - unfold outranks, c_level in *. rewrite A1, A2, A3, A4, A5, B1, B2, B3, B4, B5. exact R.
Qed.
Lemma lined_undeclared F F' l : Forall2 lined F F' -> undeclared F l -> undeclared F' l.
Proof.
  intros A U. induction A as [|a b F F' (_ & _ & _ & _ & _ & E) A IH]; intros c Hc; [contradiction|]. destruct Hc as [<-|Hc].
  - rewrite (relined_longhand _ _ E). apply U. left. reflexivity.
  - apply IH; [|exact Hc]. intros d Hd. apply U. right. exact Hd.
Qed.
Lemma winners_relined cs cs' : Forall2 lined cs cs' -> ForallOrdPairs before cs ->
  (forall l, (exists c, wins cs c /\ decl_longhand (c_decl c) = l) \/ undeclared cs l) -> relined_winners cs cs'.
Proof.
  intros A O X l. destruct (X l) as [(c & W & E)|U].
  - right. destruct (lined_wins _ _ A O c W) as (c' & W' & E'). exists c, c'. auto.
  - left. split; [exact U|]. exact (lined_undeclared _ _ _ A U).
Qed.
End Sheets.
