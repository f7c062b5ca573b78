(** From style sheets to computed styles: the lemmas behind PropStyle. *)
From Verif Require Import StyleModel StyleSpec StyleCascade StyleWinner StyleParse.
From Verif Require Import GfxModel.
Section Any.
Context {ar : Arith}.

Section Top.
Variable ct : token -> option color.
Variable selector : Type.
Variable specificity : selector -> N.

Definition parses_to (x : selector * list item) (y : selector * block) : Prop :=
  fst x = fst y /\ parse_block ct (snd x) = Ok (snd y).

Definition sheet_rules (rules : list (rule selector)) : list (selector * list item) :=
  flat_map (fun r => match r with RStyle sels items => map (fun s => (s, items)) sels | RErr => [] end) rules.

Lemma parses_map sels items b : parse_block ct items = Ok b ->
  Forall2 parses_to (map (fun s => (s, items)) sels) (map (fun s => (s, b)) sels).
Proof. intros H. induction sels; cbn; constructor; auto. split; [reflexivity|exact H]. Qed.
Lemma add_sheet_parses rules : forall acc out, add_stylesheet ct selector acc rules = Ok out ->
  exists l, out = acc ++ l /\ Forall2 parses_to (sheet_rules rules) l.
Proof.
  induction rules as [|[sels items|] rules IH]; intros acc out H; cbn in H.
  - injection H as <-. exists []. rewrite app_nil_r. split; [reflexivity|constructor].
  - destruct (parse_block ct items) as [b| |] eqn:E; try discriminate. cbn in H.
    destruct (IH _ _ H) as (l & -> & F). exists (map (fun s => (s, b)) sels ++ l). rewrite app_assoc. split; [reflexivity|].
    cbn. apply Forall2_app; [apply parses_map; exact E|exact F].
  - destruct (IH _ _ H) as (l & -> & F). exists l. split; [reflexivity|exact F].
Qed.
Lemma add_sheets_parses sheets : forall acc out, add_stylesheets ct selector acc sheets = Ok out ->
  exists l, out = acc ++ l /\ Forall2 parses_to (rules_of sheets) l.
Proof.
  induction sheets as [|s sheets IH]; intros acc out H; cbn in H.
  - injection H as <-. exists []. rewrite app_nil_r. split; [reflexivity|constructor].
  - destruct (add_stylesheet ct selector acc s) as [acc'| |] eqn:E; try discriminate. cbn in H.
    destruct (add_sheet_parses _ _ _ E) as (l1 & -> & F1). destruct (IH _ _ H) as (l2 & -> & F2).
    exists (l1 ++ l2). rewrite app_assoc. split; [reflexivity|]. apply Forall2_app; assumption.
Qed.
Lemma add_sheet_ok rules : (forall x, In x (sheet_rules rules) -> forall i, In i (snd x) -> ~ leftover ct i) ->
  (forall items, In (RStyle [] items) rules -> forall i, In i items -> ~ leftover ct i) ->
  forall acc, exists out, add_stylesheet ct selector acc rules = Ok out.
Proof.
  induction rules as [|[sels items|] rules IH]; intros H H0 acc; cbn.
  - eauto.
  - destruct (parse_block_ok ct items) as (b & E & _).
    { destruct sels as [|s sels].
      - apply H0. left. reflexivity.
      - apply (H (s, items)). cbn. left. reflexivity. }
    rewrite E. cbn. apply IH.
    + intros x Hx. apply H. cbn. apply in_or_app. right. exact Hx.
    + intros it Hit. apply H0. right. exact Hit.
  - apply IH; [exact H|]. intros it Hit. apply H0. right. exact Hit.
Qed.

Lemma parses_entries rules l (matches : selector -> bool) ua i : Forall2 parses_to rules l ->
  rule_cands ct specificity matches ua i rules = sheet_cands specificity matches ua i l.
Proof.
  intros F. revert i. induction F as [|[s items] [s' b] rules l [E1 E2] F IH]; intros i; [reflexivity|].
  cbn in E1, E2. subst s'. cbn. rewrite IH. unfold block_cands. rewrite (parsed_entries _ _ _ E2). reflexivity.
Qed.
Lemma parses_flags rules l : Forall2 parses_to rules l -> forall x, In x l -> flags_ok (snd x).
Proof.
  induction 1 as [|[s items] [s' b] rules l [E1 E2] F IH]; intros x; [intros []|]. intros [<-|Hx]; auto.
  apply (parsed_flags ct). exists items. exact E2.
Qed.

Variables (matches : selector -> bool) (ua author : list (list (rule selector))) (attr : option (list item)).
Variable parent : option style.

Lemma element_style_inv s : element_style ct specificity matches ua author attr parent s ->
  exists ur au at_, Forall2 parses_to (rules_of ua) ur /\ Forall2 parses_to (rules_of author) au /\
    (forall b, at_ = Some b -> flags_ok b) /\
    candidates ct specificity matches ua author attr = applicable specificity matches ur au at_ /\
    s = style_new parent (Some (matching_of selector specificity matches ur au at_)).
Proof.
  intros (ur & au & Hu & Ha & Hs).
  destruct (add_sheets_parses _ _ _ Hu) as (l1 & E1 & F1). cbn in E1. subst l1.
  destruct (add_sheets_parses _ _ _ Ha) as (l2 & E2 & F2). cbn in E2. subst l2.
  unfold style_for_element in Hs. destruct attr as [items|].
  - destruct (parse_block ct items) as [b| |] eqn:E; try discriminate. cbn in Hs. injection Hs as <-.
    exists ur, au, (Some b). split; [exact F1|]. split; [exact F2|]. split; [|split; [|reflexivity]].
    + intros b' Hb. injection Hb as <-. apply (parsed_flags ct). exists items. exact E.
    + unfold candidates, applicable. rewrite (parses_entries _ _ _ _ _ F1), (parses_entries _ _ _ _ _ F2).
      unfold block_cands. rewrite (parsed_entries _ _ _ E). reflexivity.
  - injection Hs as <-. exists ur, au, None. split; [exact F1|]. split; [exact F2|]. split; [|split].
    + discriminate.
    + unfold candidates, applicable. rewrite (parses_entries _ _ _ _ _ F1), (parses_entries _ _ _ _ _ F2). reflexivity.
    + unfold matching_of. rewrite app_nil_r. reflexivity.
Qed.

Section Style.
Variable s : style.
Hypothesis Hs : element_style ct specificity matches ua author attr parent s.
Let cs := candidates ct specificity matches ua author attr.

Lemma top_winner c : wins cs c ->
  sv s (decl_longhand (c_decl c)) =
  adjusted s (decl_longhand (c_decl c)) (decl_value (parent_or_initial parent) (sv s Lfont_size) (c_decl c)).
Proof.
  destruct (element_style_inv s Hs) as (ur & au & at_ & F1 & F2 & Fa & Ec & Es). unfold cs. rewrite Ec.
  rewrite Es. apply winner_value; [exact (parses_flags _ _ F1)|exact (parses_flags _ _ F2)|exact Fa].
Qed.
Lemma top_undeclared l : undeclared cs l -> sv s l = adjusted s l (default_value (parent_or_initial parent) l).
Proof.
  destruct (element_style_inv s Hs) as (ur & au & at_ & F1 & F2 & Fa & Ec & Es). unfold cs. rewrite Ec.
  rewrite Es. apply undeclared_value; [exact (parses_flags _ _ F1)|exact (parses_flags _ _ F2)|exact Fa].
Qed.
Lemma top_exists l : undeclared cs l \/ exists c, wins cs c /\ decl_longhand (c_decl c) = l.
Proof.
  destruct (element_style_inv s Hs) as (ur & au & at_ & F1 & F2 & Fa & Ec & Es). unfold cs. rewrite Ec.
  apply winner_exists.
Qed.
Lemma top_specified : s_specified_display s = sv s Ldisplay \/ (out_of_flow s /\ sv s Ldisplay = block_level (s_specified_display s)).
Proof.
  destruct (element_style_inv s Hs) as (ur & au & at_ & F1 & F2 & Fa & Ec & Es). rewrite Es.
  unfold style_new. match goal with |- context [post_cascade_fixups ?x] => generalize x end. intros x.
  rewrite fixups_specified, (fixups_adjusted x Ldisplay). cbn [adjusted].
  destruct (out_of_flow_dec _) as [O|O]; [right|left]; auto.
Qed.
Lemma top_fixup : exists s0, s = post_cascade_fixups s0.
Proof. destruct (element_style_inv s Hs) as (ur & au & at_ & F1 & F2 & Fa & Ec & Es). rewrite Es. eexists. reflexivity. Qed.
End Style.
End Top.

Lemma new_fixup p m : exists s0, style_new p m = post_cascade_fixups s0.
Proof. eexists. reflexivity. Qed.

Lemma wins_unique cs c c' : wins cs c -> wins cs c' -> decl_longhand (c_decl c) = decl_longhand (c_decl c') -> c = c'.
Proof.
  intros [I1 W1] [I2 W2] E. destruct (W1 c' I2 (eq_sym E)) as [->|O1]; [reflexivity|].
  destruct (W2 c I1 E) as [->|O2]; [reflexivity|]. exfalso.
  unfold outranks in *. destruct O1 as [O1|(L1 & O1)], O2 as [O2|(L2 & O2)]; try lia.
  destruct O1 as [O1|(S1 & O1)], O2 as [O2|(S2 & O2)].
  - unfold spec_lt in *. destruct (c_spec c), (c_spec c'); try tauto. lia.
  - rewrite S2 in O1. unfold spec_lt in O1. destruct (c_spec c'); [lia|tauto].
  - rewrite S1 in O2. unfold spec_lt in O2. destruct (c_spec c); [lia|tauto].
  - lia.
Qed.

(* ------------- styles depend on the winners only ------------- *)
Definition same_winner (cs1 cs2 : list cand) (l : longhand) : Prop :=
  (undeclared cs1 l /\ undeclared cs2 l) \/
  exists c1 c2, wins cs1 c1 /\ wins cs2 c2 /\ c_decl c1 = c_decl c2 /\ decl_longhand (c_decl c1) = l.

Section Same.
Context {sel1 sel2 : Type}.
Variables (ct : token -> option color) (sp1 : sel1 -> N) (sp2 : sel2 -> N) (m1 : sel1 -> bool) (m2 : sel2 -> bool).
Variables (ua1 au1 : list (list (rule sel1))) (ua2 au2 : list (list (rule sel2))) (at1 at2 : option (list item)) (parent : option style).
Variables s1 s2 : style.
Hypothesis H1 : element_style ct sp1 m1 ua1 au1 at1 parent s1.
Hypothesis H2 : element_style ct sp2 m2 ua2 au2 at2 parent s2.
Hypothesis W : forall l, same_winner (candidates ct sp1 m1 ua1 au1 at1) (candidates ct sp2 m2 ua2 au2 at2) l.

Lemma same_fs : sv s1 Lfont_size = sv s2 Lfont_size.
Proof.
  destruct (W Lfont_size) as [[U1 U2]|(c1 & c2 & W1 & W2 & E & L)].
  - rewrite (top_undeclared _ _ _ _ _ _ _ _ s1 H1 _ U1), (top_undeclared _ _ _ _ _ _ _ _ s2 H2 _ U2). reflexivity.
  - pose proof (top_winner _ _ _ _ _ _ _ _ s1 H1 _ W1) as E1. pose proof (top_winner _ _ _ _ _ _ _ _ s2 H2 _ W2) as E2.
    rewrite <- E in E2. clear W1 W2 E. destruct (c_decl c1) as [l v|l k]; cbn in L; subst l; cbn in E1, E2; rewrite E1, E2; reflexivity.
Qed.
Lemma same_plain l : special l = false -> sv s1 l = sv s2 l.
Proof.
  intros P. assert (A : forall s v, adjusted s l v = v) by (intros s; destruct l; try discriminate; reflexivity).
  destruct (W l) as [[U1 U2]|(c1 & c2 & W1 & W2 & E & L)].
  - rewrite (top_undeclared _ _ _ _ _ _ _ _ s1 H1 _ U1), (top_undeclared _ _ _ _ _ _ _ _ s2 H2 _ U2). rewrite !A. reflexivity.
  - pose proof (top_winner _ _ _ _ _ _ _ _ s1 H1 _ W1) as E1. pose proof (top_winner _ _ _ _ _ _ _ _ s2 H2 _ W2) as E2.
    rewrite <- E in E2. subst l. rewrite E1, E2, !A, same_fs. reflexivity.
Qed.
Lemma same_all l : sv s1 l = sv s2 l.
Proof.
  assert (A : forall v, adjusted s1 l v = adjusted s2 l v).
  { intros v. apply adjusted_ext. intros _ l' Hl. apply same_plain. exact Hl. }
  destruct (W l) as [[U1 U2]|(c1 & c2 & W1 & W2 & E & L)].
  - rewrite (top_undeclared _ _ _ _ _ _ _ _ s1 H1 _ U1), (top_undeclared _ _ _ _ _ _ _ _ s2 H2 _ U2). apply A.
  - pose proof (top_winner _ _ _ _ _ _ _ _ s1 H1 _ W1) as E1. pose proof (top_winner _ _ _ _ _ _ _ _ s2 H2 _ W2) as E2.
    rewrite <- E in E2. subst l. rewrite E1, E2, same_fs. apply A.
Qed.
End Same.

(* ------------- !important / block level corollaries ------------- *)
Lemma never_skipped_eq ct b : parsed ct b -> forall p inh this,
  cascade_normal p inh this b = cascade_normal p inh this (never_skipped b) /\
  cascade_important p inh this b = cascade_important p inh this (never_skipped b).
Proof.
  intros P p inh this. destruct (parsed_cascade ct b P p inh this) as [A B]. rewrite A, B. clear A B.
  unfold cascade_normal, cascade_important, block_cascade, never_skipped. cbn [b_any_normal b_any_important b_decls b_important].
  replace (ph_select p (Phases true true)) with true by (destruct p; reflexivity). fold (entries b).
  split; (rewrite fold_pick; unfold pick; symmetry).
  - rewrite (filter_ext _ (fun e : decl * bool => negb (snd e))) by (intros [d []]; reflexivity). reflexivity.
  - rewrite (filter_ext _ (fun e : decl * bool => snd e)) by (intros [d []]; reflexivity). reflexivity.
Qed.

Lemma wide_split ct p k w r : In (k, w) wide_keywords ->
  split_value ct p (TIdent k :: r) = Some (map (fun l => DWide l w) (property_longhands p), r).
Proof. intros H. unfold split_value. destruct H as [H|[H|[H|[]]]]; injection H as <- <-; reflexivity. Qed.

Lemma adjusted_plain s l v : l <> Ldisplay -> governing_style s l <> Some LSNone -> adjusted s l v = v.
Proof.
  intros Hd Hg. destruct l; cbn in *; try reflexivity; try congruence; unfold width_if;
    match goal with |- match ?x with _ => _ end = _ => destruct x eqn:?; try reflexivity; congruence end.
Qed.
Lemma inherited_special l : In l css_inherited -> special l = false.
Proof. intros H. cbn in H. repeat destruct H as [<-|H]; try reflexivity. destruct H. Qed.

(* ------------- statements used by PropStyle ------------- *)
Section Corollaries.
Context {selector : Type}.
Variables (ct : token -> option color) (specificity : selector -> N) (matches : selector -> bool).
Variables (ua author : list (list (rule selector))) (attr : option (list item)) (parent : option style) (s : style).
Hypothesis Hs : element_style ct specificity matches ua author attr parent s.
Let cs := candidates ct specificity matches ua author attr.

Lemma inherits l : In l css_inherited -> undeclared cs l -> sv s l = sv (parent_or_initial parent) l.
Proof.
  intros I U. rewrite (top_undeclared _ _ _ _ _ _ _ _ s Hs l U). unfold default_value.
  destruct (in_dec longhand_eq_dec l css_inherited); [|contradiction].
  pose proof (inherited_special l I). destruct l; try discriminate; reflexivity.
Qed.
Lemma takes_initial l : ~ In l css_inherited -> undeclared cs l -> sv s l = adjusted s l (initial_value l).
Proof.
  intros I U. rewrite (top_undeclared _ _ _ _ _ _ _ _ s Hs l U). unfold default_value.
  destruct (in_dec longhand_eq_dec l css_inherited); [contradiction|reflexivity].
Qed.
Lemma wide_winner c l k : wins cs c -> c_decl c = DWide l k ->
  sv s l = adjusted s l (match k with
                         | KInitial => initial_value l
                         | KInherit => sv (parent_or_initial parent) l
                         | KUnset => default_value (parent_or_initial parent) l
                         end).
Proof.
  intros W E. pose proof (top_winner _ _ _ _ _ _ _ _ s Hs c W) as H. rewrite E in H. cbn in H. destruct k; exact H.
Qed.
Lemma own_value c l v : wins cs c -> c_decl c = DVal l v ->
  sv s l = adjusted s l (computed (parent_or_initial parent) (sv s Lfont_size) l v).
Proof. intros W E. pose proof (top_winner _ _ _ _ _ _ _ _ s Hs c W) as H. rewrite E in H. exact H. Qed.
Lemma border_zero : (sv s Lborder_top_style = LSNone -> sv s Lborder_top_width = LPLen l0) /\
  (sv s Lborder_right_style = LSNone -> sv s Lborder_right_width = LPLen l0) /\
  (sv s Lborder_bottom_style = LSNone -> sv s Lborder_bottom_width = LPLen l0) /\
  (sv s Lborder_left_style = LSNone -> sv s Lborder_left_width = LPLen l0).
Proof.
  destruct (top_fixup _ _ _ _ _ _ _ _ s Hs) as (s0 & ->).
  repeat split; intros H;
    match goal with |- sv _ ?l = _ => rewrite (fixups_adjusted s0 l) end; cbn [adjusted]; rewrite H; reflexivity.
Qed.
Lemma border_declared c : wins cs c -> (exists st, governing_style s (decl_longhand (c_decl c)) = Some st /\ st <> LSNone) ->
  sv s (decl_longhand (c_decl c)) = decl_value (parent_or_initial parent) (sv s Lfont_size) (c_decl c).
Proof.
  intros W (st & G & N). rewrite (top_winner _ _ _ _ _ _ _ _ s Hs c W). apply adjusted_plain; [|congruence].
  intros E. rewrite E in G. discriminate.
Qed.
Lemma border_default l : (exists st, governing_style s l = Some st /\ st <> LSNone) -> undeclared cs l ->
  sv s l = initial_value l.
Proof.
  intros (st & G & N) U. rewrite takes_initial; [|intros I; apply inherited_special in I; destruct l; discriminate|exact U].
  apply adjusted_plain; [|congruence]. intros ->. discriminate.
Qed.
Lemma display_value : sv s Ldisplay = (if out_of_flow_dec s then block_level (s_specified_display s) else s_specified_display s).
Proof.
  destruct (top_fixup _ _ _ _ _ _ _ _ s Hs) as (s0 & ->). rewrite fixups_specified, (fixups_adjusted s0 Ldisplay). reflexivity.
Qed.
End Corollaries.

Section Specified.
Context {selector : Type}.
Variables (ct : token -> option color) (specificity : selector -> N) (matches : selector -> bool).
Variables (ua author : list (list (rule selector))) (attr : option (list item)) (parent : option style) (s : style).
Hypothesis Hs : element_style ct specificity matches ua author attr parent s.
Let cs := candidates ct specificity matches ua author attr.
(** the specified display is the cascaded display *)
Lemma specified_winner c v : wins cs c -> declared_display (parent_or_initial parent) (c_decl c) = Some v -> s_specified_display s = v.
Proof.
  intros W L.
  destruct (element_style_inv _ _ _ _ _ _ _ _ s Hs) as (ur & au & at_ & F1 & F2 & Fa & Ec & Es).
  unfold cs in W. rewrite Ec in W.
  destruct (wins_last _ _ c (applied_sorted _ _ (src_sorted selector specificity matches ur) (u_sorted selector specificity matches au at_))
     (applicable_in selector specificity matches ur au at_) W) as (x & y & E & N).
  assert (OK : ok_opt (Some (matching_of selector specificity matches ur au at_))).
  { apply (m_ok selector specificity matches ur au at_ parent); [exact (parses_flags _ _ _ _ F1)|exact (parses_flags _ _ _ _ F2)|exact Fa]. }
  assert (SD : s_specified_display s = sv (two_phase (parent_or_initial parent) (map c_decl x ++ c_decl c :: map c_decl y) (base (parent_or_initial parent))) Ldisplay).
  { rewrite Es, style_new_two by exact OK. rewrite fixups_specified. cbn [ds_of]. rewrite matching_order_cands. unfold u_src at 1. rewrite E, map_app. reflexivity. }
  pose proof (two_phase_last (parent_or_initial parent) (map c_decl x) (c_decl c) (map c_decl y) (base (parent_or_initial parent)) N) as T.
  rewrite SD. clear - L T. destruct (c_decl c) as [l w|l k]; cbn in L.
  - destruct l; try discriminate. injection L as <-. exact T.
  - destruct l; try discriminate. destruct k; cbn in L; injection L as <-; exact T.
Qed.
Lemma specified_undeclared : undeclared cs Ldisplay -> s_specified_display s = DispBox OInline IFlow.
Proof.
  intros U.
  destruct (element_style_inv _ _ _ _ _ _ _ _ s Hs) as (ur & au & at_ & F1 & F2 & Fa & Ec & Es).
  unfold cs in U. rewrite Ec in U.
  assert (OK : ok_opt (Some (matching_of selector specificity matches ur au at_))).
  { apply (m_ok selector specificity matches ur au at_ parent); [exact (parses_flags _ _ _ _ F1)|exact (parses_flags _ _ _ _ F2)|exact Fa]. }
  rewrite Es, style_new_two by exact OK. rewrite fixups_specified. rewrite two_phase_none; [reflexivity|].
  cbn [ds_of]. rewrite matching_order_cands. intros d Hd. apply in_map_iff in Hd.
  destruct Hd as (c & <- & Hc). apply U. apply applicable_in. exact Hc.
Qed.
End Specified.

Lemma same_specified {sel1 sel2} ct (sp1 : sel1 -> N) (sp2 : sel2 -> N) m1 m2 ua1 au1 ua2 au2 at1 at2 parent s1 s2 :
  element_style ct sp1 m1 ua1 au1 at1 parent s1 -> element_style ct sp2 m2 ua2 au2 at2 parent s2 ->
  same_winner (candidates ct sp1 m1 ua1 au1 at1) (candidates ct sp2 m2 ua2 au2 at2) Ldisplay ->
  s_specified_display s1 = s_specified_display s2.
Proof.
  intros H1 H2 [[U1 U2]|(c1 & c2 & W1 & W2 & E & L)].
  - rewrite (specified_undeclared _ _ _ _ _ _ _ _ H1 U1), (specified_undeclared _ _ _ _ _ _ _ _ H2 U2). reflexivity.
  - assert (D : exists v, declared_display (parent_or_initial parent) (c_decl c1) = Some v).
    { destruct (c_decl c1) as [l v|l k]; cbn in L; subst l; cbn; [eauto|]. destruct k; eauto. }
    destruct D as (v & D). rewrite (specified_winner _ _ _ _ _ _ _ _ H1 c1 v W1 D).
    rewrite E in D. rewrite (specified_winner _ _ _ _ _ _ _ _ H2 c2 v W2 D). reflexivity.
Qed.
Lemma only_winners_matter {sel1 sel2} ct (sp1 : sel1 -> N) (sp2 : sel2 -> N) m1 m2 ua1 au1 ua2 au2 at1 at2 parent s1 s2 :
  element_style ct sp1 m1 ua1 au1 at1 parent s1 -> element_style ct sp2 m2 ua2 au2 at2 parent s2 ->
  (forall l, same_winner (candidates ct sp1 m1 ua1 au1 at1) (candidates ct sp2 m2 ua2 au2 at2) l) ->
  same_style s1 s2.
Proof.
  intros H1 H2 W. split.
  - intros l. exact (same_all _ _ _ _ _ _ _ _ _ _ _ _ _ _ H1 H2 W l).
  - exact (same_specified _ _ _ _ _ _ _ _ _ _ _ _ _ _ H1 H2 (W Ldisplay)).
Qed.

Lemma all_sheets_ok {selector} ct (sheets : list (list (rule selector))) :
  (forall sels items i, In (RStyle sels items) (concat sheets) -> In i items -> ~ leftover ct i) ->
  forall acc, exists out, add_stylesheets ct selector acc sheets = Ok out.
Proof.
  induction sheets as [|sh sheets IH]; intros H acc; cbn; [eauto|].
  destruct (add_sheet_ok ct selector sh) with (acc := acc) as (out & E).
  - intros x Hx i Hi. unfold sheet_rules in Hx. apply in_flat_map in Hx. destruct Hx as ([sels items|] & Hr & Hx); [|destruct Hx].
    apply in_map_iff in Hx. destruct Hx as (sel & <- & _). apply (H sels items); [|exact Hi]. cbn. apply in_or_app. auto.
  - intros items Hr i Hi. apply (H [] items); [|exact Hi]. cbn. apply in_or_app. auto.
  - rewrite E. cbn. apply IH. intros sels items i Hr. apply (H sels). cbn. apply in_or_app. auto.
Qed.
Lemma style_always {selector} ct specificity (matches : selector -> bool) ua author attr parent :
  (forall sels items i, In (RStyle sels items) (concat ua ++ concat author) -> In i items -> ~ leftover ct i) ->
  (forall items i, attr = Some items -> In i items -> ~ leftover ct i) ->
  exists s, element_style ct specificity matches ua author attr parent s.
Proof.
  intros H Ha.
  destruct (all_sheets_ok ct ua) with (acc := @nil (selector * block)) as (u & Eu).
  { intros sels items i Hr. apply H with (sels := sels). apply in_or_app. auto. }
  destruct (all_sheets_ok ct author) with (acc := @nil (selector * block)) as (a & Ea).
  { intros sels items i Hr. apply H with (sels := sels). apply in_or_app. auto. }
  destruct attr as [items|].
  - destruct (parse_block_ok ct items (fun i Hi => Ha items i eq_refl Hi)) as (b & Eb & _).
    eexists. exists u, a. split; [exact Eu|]. split; [exact Ea|]. unfold style_for_element. rewrite Eb. reflexivity.
  - eexists. exists u, a. split; [exact Eu|]. split; [exact Ea|]. reflexivity.
Qed.

Lemma four_sides_block ct s name tp rg bt lf toks t1 t2 t3 t4 d1 d2 d3 d4 : colour_contract ct ->
  property_by_name name = Some (PShort s) -> sides_of s = Some (tp, rg, bt, lf) -> css_sides toks t1 t2 t3 t4 ->
  long_value ct tp t1 d1 -> long_value ct rg t2 d2 -> long_value ct bt t3 d3 -> long_value ct lf t4 d4 ->
  exists b, parse_block ct [IDecl name (TColon :: toks)] = Ok b /\
    Permutation (entries b) [(d1, false); (d2, false); (d3, false); (d4, false)].
Proof.
  intros C Hn Hs Hc L1 L2 L3 L4.
  pose proof (four_sides_split ct s tp rg bt lf toks t1 t2 t3 t4 d1 d2 d3 d4 C Hs Hc L1 L2 L3 L4) as E.
  destruct (split_item ct _ _ _ _ Hn E) as [E1 L]. destruct (block_of_item ct _ _ E1 L) as (b & B & N).
  exists b. split; [exact B|]. rewrite N. cbn. apply perm_skip.
  apply (Permutation_trans (l' := [(d2, false); (d4, false); (d3, false)])).
  - apply Permutation_sym. apply (Permutation_cons_app [(d4, false); (d3, false)] []). cbn. reflexivity.
  - apply perm_skip. apply perm_swap.
Qed.
Lemma short_name_lookup name s : lower name = shorthand_name s -> property_by_name name = Some (PShort s).
Proof. intros H. apply name_found. exact H. Qed.

Lemma border_block ct s name st co wi toks : colour_contract ct -> property_by_name name = Some (PShort s) ->
  border_longhands s <> [] ->
  (forall t, st = Some t -> exists v, parse_line_style [t] = Some (v, [])) ->
  (forall t, co = Some t -> exists v, parse_color ct [t] = Some (v, [])) ->
  (forall t, wi = Some t -> exists v, parse_line_width [t] = Some (v, [])) ->
  Permutation (opt_list st ++ opt_list co ++ opt_list wi) toks -> toks <> [] ->
  exists b ds, parse_block ct [IDecl name (TColon :: toks)] = Ok b /\ Permutation (entries b) (map (fun d => (d, false)) ds) /\
    Forall2 (fun lo d => border_part ct (fst lo) (snd lo) d)
      (flat_map (fun x => [(fst (fst x), st); (snd (fst x), co); (snd x, wi)]) (border_longhands s)) ds.
Proof.
  intros C Hn B Hs Hc Hw P NE.
  assert (S : exists vs, opt_rel tstyle st vs).
  { destruct st as [t|]; [|exists None; exact I]. destruct (Hs t eq_refl) as (v & E). exists (Some v). exact E. }
  assert (Co : exists vs, opt_rel (tcolor ct) co vs).
  { destruct co as [t|]; [|exists None; exact I]. destruct (Hc t eq_refl) as (v & E). exists (Some v). exact E. }
  assert (Wi : exists vs, opt_rel twidth wi vs).
  { destruct wi as [t|]; [|exists None; exact I]. destruct (Hw t eq_refl) as (v & E). exists (Some v). exact E. }
  destruct S as (vs & S), Co as (vc & Co), Wi as (vw & Wi).
  destruct (border_split ct C s st co wi vs vc vw toks B S Co Wi P NE) as (ds & ds' & E & PD & F).
  destruct (split_item ct _ _ _ _ Hn E) as [E1 L]. destruct (block_of_item ct _ _ E1 L) as (b & Bk & N).
  exists b, ds'. split; [exact Bk|]. split; [|exact F]. rewrite N. apply Permutation_map. exact PD.
Qed.

Lemma important_block ct p name ts ds s : (forall c, ct (TDelim c) = None) -> p <> PLong Lfont_family ->
  lower name = property_name p -> split_value ct p ts = Some (ds, []) -> lower s = "important"%string ->
  exists b, parse_block ct [IDecl name (TColon :: ts ++ [TDelim "!"; TIdent s])] = Ok b /\
    entries b = map (fun d => (d, true)) ds.
Proof.
  intros C Hp Hn Hs Hi. apply name_found in Hn.
  destruct (important_item ct p name ts ds s C Hp Hn Hs Hi) as [E L]. apply (block_of_item ct _ _ E L).
Qed.
Lemma wide_block ct p name k w : lower name = property_name p -> In (k, w) wide_keywords ->
  exists b, parse_block ct [IDecl name [TColon; TIdent k]] = Ok b /\ entries b = map (fun l => (DWide l w, false)) (property_longhands p).
Proof.
  intros Hn Hk. apply name_found in Hn. pose proof (wide_split ct p k w [] Hk) as S.
  destruct (split_item ct _ _ _ _ Hn S) as [E L]. destruct (block_of_item ct _ _ E L) as (b & B & N).
  exists b. split; [exact B|]. rewrite N, map_map. reflexivity.
Qed.
Lemma four_sides_named ct name tp rg bt lf toks t1 t2 t3 t4 d1 d2 d3 d4 : colour_contract ct ->
  In (lower name, (tp, rg, bt, lf)) four_sided -> css_sides toks t1 t2 t3 t4 ->
  long_value ct tp t1 d1 -> long_value ct rg t2 d2 -> long_value ct bt t3 d3 -> long_value ct lf t4 d4 ->
  exists b, parse_block ct [IDecl name (TColon :: toks)] = Ok b /\
    Permutation (entries b) [(d1, false); (d2, false); (d3, false); (d4, false)].
Proof.
  intros C H. assert (E : exists s, lower name = shorthand_name s /\ sides_of s = Some (tp, rg, bt, lf)).
  { cbn in H. destruct H as [H|[H|[H|[H|[H|[]]]]]]; injection H as <- <- <- <- <-;
      [exists Smargin|exists Spadding|exists Sborder_style|exists Sborder_color|exists Sborder_width]; auto. }
  destruct E as (s & E & S). apply (four_sides_block ct s); [exact C|apply short_name_lookup; exact E|exact S].
Qed.
Lemma border_named ct name sides st co wi toks : colour_contract ct -> In (lower name, sides) border_sided ->
  (forall t, st = Some t -> exists v, parse_line_style [t] = Some (v, [])) ->
  (forall t, co = Some t -> exists v, parse_color ct [t] = Some (v, [])) ->
  (forall t, wi = Some t -> exists v, parse_line_width [t] = Some (v, [])) ->
  Permutation (opt_list st ++ opt_list co ++ opt_list wi) toks -> toks <> [] ->
  exists b ds, parse_block ct [IDecl name (TColon :: toks)] = Ok b /\ Permutation (entries b) (map (fun d => (d, false)) ds) /\
    Forall2 (fun lo d => border_part ct (fst lo) (snd lo) d)
      (flat_map (fun x => [(fst (fst x), st); (snd (fst x), co); (snd x, wi)]) sides) ds.
Proof.
  intros C H. assert (E : exists s, lower name = shorthand_name s /\ border_longhands s = sides /\ sides <> []).
  { cbn in H. destruct H as [H|[H|[H|[H|[H|[]]]]]]; injection H as <- <-;
      [exists Sborder_top|exists Sborder_right|exists Sborder_bottom|exists Sborder_left|exists Sborder]; repeat split; discriminate. }
  destruct E as (s & E & S & NE). subst sides. apply (border_block ct s); [exact C|apply short_name_lookup; exact E|exact NE].
Qed.
Lemma css_property_found name ls : In (lower name, ls) css_properties -> lower name <> "border-right-color"%string ->
  exists p, lower name = property_name p /\ Permutation ls (property_longhands p).
Proof.
  intros H N. unfold css_properties in H. apply in_app_or in H. destruct H as [H|H]; [|apply in_app_or in H; destruct H as [H|H]; [|apply in_app_or in H; destruct H as [H|H]]].
  - apply in_map_iff in H. destruct H as (l & H & _). injection H as E <-. exists (PLong l). split; [|reflexivity].
    rewrite <- E in *. destruct l; try reflexivity. exfalso. apply N. reflexivity.
  - cbn in H. assert (S : forall a b c d : longhand, Permutation [a; b; c; d] [a; d; c; b]).
    { intros a b c d. apply perm_skip. apply (Permutation_trans (l' := [b; d; c])); [apply perm_skip; apply perm_swap|].
      apply (Permutation_cons_app [d; c] []). reflexivity. }
    destruct H as [H|[H|[H|[H|[H|[]]]]]]; injection H as <- <-;
      [exists (PShort Smargin)|exists (PShort Spadding)|exists (PShort Sborder_style)|exists (PShort Sborder_color)|exists (PShort Sborder_width)]; (split; [reflexivity|apply S]).
  - cbn in H. destruct H as [H|[H|[H|[H|[H|[]]]]]]; injection H as <- <-;
      [exists (PShort Sborder_top)|exists (PShort Sborder_right)|exists (PShort Sborder_bottom)|exists (PShort Sborder_left)|exists (PShort Sborder)]; (split; [reflexivity|]); try reflexivity.
    cbn. generalize Lborder_top_style Lborder_right_style Lborder_bottom_style Lborder_left_style
      Lborder_top_color Lborder_right_color Lborder_bottom_color Lborder_left_color
      Lborder_top_width Lborder_right_width Lborder_bottom_width Lborder_left_width.
    intros a1 a2 a3 a4 b1 b2 b3 b4 c1 c2 c3 c4. apply Permutation_sym.
    apply perm_skip.
    apply (Permutation_cons_app [b1; c1]). apply (Permutation_cons_app [b1; c1; b2; c2]).
    apply (Permutation_cons_app [b1; c1; b2; c2; b3; c3]). cbn.
    apply perm_skip. apply (Permutation_cons_app [c1]). apply (Permutation_cons_app [c1; c2]).
    apply (Permutation_cons_app [c1; c2; c3]). reflexivity.
  - destruct H as [H|[]]. injection H as <- <-. exists (PShort Sbackground). split; reflexivity.
Qed.
Lemma wide_named ct name ls k w : In (lower name, ls) css_properties -> lower name <> "border-right-color"%string -> In (k, w) wide_keywords ->
  exists b, parse_block ct [IDecl name [TColon; TIdent k]] = Ok b /\ Permutation (entries b) (map (fun l => (DWide l w, false)) ls).
Proof.
  intros H N K. destruct (css_property_found name ls H N) as (p & E & P). destruct (wide_block ct p name k w E K) as (b & B & En).
  exists b. split; [exact B|]. rewrite En. apply Permutation_map. symmetry. exact P.
Qed.
Lemma currentcolor_own {selector} ct specificity (matches : selector -> bool) ua author attr parent s :
  element_style ct specificity matches ua author attr parent s ->
  forall c, wins (candidates ct specificity matches ua author attr) c -> c_decl c = DVal Lcolor CCurrent ->
  sv s Lcolor = sv (parent_or_initial parent) Lcolor.
Proof. intros H c W E. exact (own_value _ _ _ _ _ _ _ s H c Lcolor CCurrent W E). Qed.
Lemma fs_em {selector} ct specificity (matches : selector -> bool) ua author attr parent s :
  element_style ct specificity matches ua author attr parent s ->
  forall c v, wins (candidates ct specificity matches ua author attr) c -> c_decl c = DVal Lfont_size (SEm v) ->
  sv s Lfont_size = (sv (parent_or_initial parent) Lfont_size * v)%len.
Proof. intros H c v W E. exact (own_value _ _ _ _ _ _ _ s H c Lfont_size (SEm v) W E). Qed.
Lemma anonymous_value parent l : sv (anonymous_inheriting_from parent) l =
  adjusted (anonymous_inheriting_from parent) l (default_value (parent_or_initial parent) l).
Proof. apply (new_undeclared parent None l). - exact I. - intros d []. Qed.
Lemma colours_elsewhere {selector} ct specificity (matches : selector -> bool) ua author attr parent s :
  element_style ct specificity matches ua author attr parent s ->
  (forall c l, In l [Lborder_top_color; Lborder_right_color; Lborder_bottom_color; Lborder_left_color; Lbackground_color] ->
     wins (candidates ct specificity matches ua author attr) c -> decl_longhand (c_decl c) = l ->
     forall v, colour_of_decl (c_decl c) = Some v ->
     option_map (to_rgba s) (colour_of_style s l) =
       Some (match v with CCurrent => sv s Lcolor | CRGBA r => r end)) /\
  (forall l, In l [Lborder_top_color; Lborder_right_color; Lborder_bottom_color; Lborder_left_color] ->
     undeclared (candidates ct specificity matches ua author attr) l ->
     option_map (to_rgba s) (colour_of_style s l) = Some (sv s Lcolor)).
Proof.
  intros H. split.
  - intros c l I W L v V. pose proof (top_winner _ _ _ _ _ _ _ _ s H c W) as E.
    destruct (c_decl c) as [l' w|l' k]; [|discriminate V]. cbn in L. subst l'.
    cbn in I. destruct I as [<-|[<-|[<-|[<-|[<-|[]]]]]]; cbn in V; injection V as <-; cbn in E; cbn; rewrite E; destruct w; reflexivity.
  - intros l I U. assert (E := takes_initial _ _ _ _ _ _ _ s H l).
    cbn in I. destruct I as [<-|[<-|[<-|[<-|[]]]]]; cbn;
      (rewrite E; [reflexivity|cbn; intuition discriminate|exact U]).
Qed.

(* ------------- counterexamples ------------- *)
Lemma leftover_witness : exists items, forall ct : token -> option color, parse_block ct items = Panic.
Proof. exists [IDecl "margin" [TColon; TDim (px 1) "px"; TIdent "foo"]]. intros ct. vm_compute. reflexivity. Qed.
Lemma upper_case_witness : exists l k d k', In (l, k, d) keyword_values /\ lower k' = k /\
  forall ct : token -> option color, exists b, parse_block ct [IDecl (css_name l) [TColon; TIdent k']] = Ok b /\ entries b = [].
Proof.
  exists Ldisplay, "block"%string, (DVal Ldisplay (DispBox OBlock IFlow)), "BLOCK"%string.
  split; [cbn; tauto|]. split; [reflexivity|]. intros ct. exists block_empty. split; vm_compute; reflexivity.
Qed.
Lemma family_important_witness : exists name ts, forall ct : token -> option color,
  (exists b, parse_block ct [IDecl name (TColon :: ts)] = Ok b /\ entries b = [(DVal Lfont_family FamSerif, false)]) /\
  (exists b, parse_block ct [IDecl name (TColon :: ts ++ [TDelim "!"; TIdent "important"])] = Ok b /\ entries b = []).
Proof.
  exists "font-family"%string, [TIdent "serif"]. intros ct. split; eexists; (split; [vm_compute; reflexivity|reflexivity]).
Qed.
Lemma leftover_iff ct items : (exists i, In i items /\ leftover ct i) <-> parse_block ct items = Panic.
Proof.
  split; [apply parse_block_panic|]. intros E.
  destruct (parse_block_cases ct items) as [[H _]|[_ (b & E' & _)]]; [exact H|congruence].
Qed.
Lemma name_witness : exists l, property_by_name (css_name l) = None.
Proof. exists Lborder_right_color. vm_compute. reflexivity. Qed.
End Any.
