(** Style sheets that differ in some properties only give styles that do (proofs for C103).  As in RecolorStyle. *)
From Verif Require Import Base Len StyleModel StyleSpec StyleCascade StyleWinner StyleParse StyleFacts PropStyle ExceptSpec.
From Verif Require Import GfxModel.
From Coq Require Import Lia.
Local Open Scope list_scope.

(** the declarations that win for two elements are the same but for the properties [ex] *)
Definition winners_but {ar : Arith} (ex : longhand -> bool) (cs cs' : list cand) : Prop :=
  forall l, ex l = false -> (undeclared cs l /\ undeclared cs' l) \/
    exists c c', wins cs c /\ wins cs' c' /\ c_decl c' = c_decl c /\ decl_longhand (c_decl c) = l.

Section Element.
Context {ar : Arith} {sel sel' : Type}.
Variable ex : longhand -> bool.
Hypothesis X : self_contained ex.
Variables (ct : token -> option color) (sp : sel -> N) (sp' : sel' -> N) (m : sel -> bool) (m' : sel' -> bool).
Variables (ua au : list (list (rule sel))) (ua' au' : list (list (rule sel'))) (at_ at_' : option (list item)) (p p' : option style) (s s' : style).
Hypothesis H : element_style ct sp m ua au at_ p s.
Hypothesis H' : element_style ct sp' m' ua' au' at_' p' s'.
Notation cs := (candidates ct sp m ua au at_).
Notation cs' := (candidates ct sp' m' ua' au' at_').
Hypothesis W : winners_but ex cs cs'.
Hypothesis HP : parent_but ex p p'.
Notation P := (parent_or_initial p).
Notation P' := (parent_or_initial p').

Lemma rv_parent l : ex l = false -> sv P' l = sv P l.
Proof. intros Hl. destruct p as [q|], p' as [q'|]; cbn in HP; try contradiction; cbn [parent_or_initial]; [apply HP, Hl|reflexivity]. Qed.
Lemma rv_undeclared {se} (sp0 : se -> N) m0 u0 a0 t0 p0 s0 : element_style ct sp0 m0 u0 a0 t0 p0 s0 ->
  forall l, undeclared (candidates ct sp0 m0 u0 a0 t0) l -> sv s0 l = adjusted s0 l (default_value (parent_or_initial p0) l).
Proof.
  intros H0 l U. unfold default_value. destruct (in_dec longhand_eq_dec l css_inherited) as [I|I].
  - rewrite (inherits ct sp0 m0 u0 a0 t0 p0 s0 H0 l I U). destruct l; try reflexivity; exfalso; revert I; clear; cbn; intros I; decompose [or] I; try discriminate; assumption.
  - exact (C10_other_property_without_declaration _ ct sp0 m0 u0 a0 t0 p0 s0 H0 l I U).
Qed.
Lemma rv_default l : ex l = false -> default_value P' l = default_value P l.
Proof. intros Hl. unfold default_value. destruct (in_dec _ _ _); [apply rv_parent, Hl|reflexivity]. Qed.
Lemma rv_computed own l v : ex l = false -> computed P' own l v = computed P own l v.
Proof. intros Hl. destruct X as (Xs & Xc & _). destruct l; cbn [computed]; try reflexivity; first [rewrite (rv_parent Lfont_size Xs); reflexivity | rewrite (rv_parent Lcolor Xc); reflexivity]. Qed.
(** the value before the final adjustments *)
Lemma rv_raw l : ex l = false -> (l = Lfont_size \/ sv s' Lfont_size = sv s Lfont_size) ->
  exists v, sv s l = adjusted s l v /\ sv s' l = adjusted s' l v.
Proof.
  intros Hl F. destruct (W l Hl) as [[U U']|(c1 & c2 & W1 & W2 & E & E1)].
  - exists (default_value P l). split; [exact (rv_undeclared _ _ _ _ _ _ _ H _ U)|]. rewrite (rv_undeclared _ _ _ _ _ _ _ H' _ U'), (rv_default l Hl). reflexivity.
  - pose proof (C09_winner_takes_effect _ _ _ _ _ _ _ _ _ H c1 W1) as V.
    pose proof (C09_winner_takes_effect _ _ _ _ _ _ _ _ _ H' c2 W2) as V'. rewrite E in V'. subst l.
    eexists. split; [exact V|]. rewrite V'. f_equal.
    destruct (c_decl c1) as [l v|l w]; cbn [decl_longhand decl_value] in *.
    + rewrite (rv_computed _ l v Hl). destruct F as [->|F]; [reflexivity|]. rewrite F. reflexivity.
    + destruct w; [apply rv_parent, Hl|reflexivity|apply rv_default, Hl].
Qed.
Lemma rv_font : sv s' Lfont_size = sv s Lfont_size.
Proof. destruct (rv_raw Lfont_size (proj1 X) (or_introl eq_refl)) as (v & V & V'). rewrite V, V'. reflexivity. Qed.
Lemma rv_plain l : ex l = false ->
  match l with Lborder_top_width | Lborder_right_width | Lborder_bottom_width | Lborder_left_width | Ldisplay => False | _ => True end ->
  sv s' l = sv s l.
Proof. intros Hl Hp. destruct (rv_raw l Hl (or_intror rv_font)) as (v & V & V'). rewrite V, V'. destruct l; try contradiction; reflexivity. Qed.
Lemma rv_style : same_but ex s s'.
Proof.
  pose proof X as (Xs & Xc & Xd & Xp & Xf & X1 & X2 & X3 & X4). split.
  - intros l Hl. destruct (rv_raw l Hl (or_intror rv_font)) as (v & V & V').
    destruct l; try (rewrite V, V'; reflexivity); rewrite V, V'; cbn [adjusted].
    2: rewrite (rv_plain Lborder_top_style (X1 Hl) I); reflexivity.
    2: rewrite (rv_plain Lborder_right_style (X2 Hl) I); reflexivity.
    2: rewrite (rv_plain Lborder_bottom_style (X3 Hl) I); reflexivity.
    2: rewrite (rv_plain Lborder_left_style (X4 Hl) I); reflexivity.
    assert (O : out_of_flow s <-> out_of_flow s').
    { unfold out_of_flow. rewrite (rv_plain Lposition Xp I), (rv_plain Lfloat Xf I). reflexivity. }
    destruct (out_of_flow_dec s), (out_of_flow_dec s'); tauto || reflexivity.
  - destruct (C13_specified_display_is_remembered _ _ _ _ _ _ _ _ _ H) as [D1 D2].
    destruct (C13_specified_display_is_remembered _ _ _ _ _ _ _ _ _ H') as [D1' D2'].
    destruct (W Ldisplay Xd) as [[U U']|(c1 & c2 & W1 & W2 & E & E1)]; [rewrite (D2 U), (D2' U'); reflexivity|].
    pose proof (D1 c1) as A. pose proof (D1' c2) as B. rewrite E in B.
    destruct (c_decl c1) as [l1 v|l1 w]; cbn [decl_longhand] in *; subst l1; cbn [declared_display] in *.
    + rewrite (A v W1 eq_refl), (B v W2 eq_refl). reflexivity.
    + destruct w; rewrite (A _ W1 eq_refl), (B _ W2 eq_refl); try reflexivity. exact (rv_parent Ldisplay Xd).
Qed.
End Element.

(* ------------------------------------------------------------------ *)
(** * Such sheets have such winners *)
Section Sheets.
Context {ar : Arith}.
Variable ex : longhand -> bool.
Definition nc (c : cand) : bool := negb (ex (decl_longhand (c_decl c))).
(** candidates that agree but for their positions in the block *)
Definition alike (c c' : cand) : Prop :=
  c_ua c' = c_ua c /\ c_important c' = c_important c /\ c_spec c' = c_spec c /\ c_rule c' = c_rule c /\ c_decl c' = c_decl c.
(** candidates of one block come in the order of their positions *)
Definition before (a b : cand) : Prop := c_ua a = c_ua b -> c_spec a = c_spec b -> c_rule a = c_rule b -> (c_pos a < c_pos b)%nat.
Notation ordered := (ForallOrdPairs before).

Lemma ordered_app l l' : ordered l -> ordered l' -> (forall a b, In a l -> In b l' -> before a b) -> ordered (l ++ l').
Proof.
  intros H H' X. induction H as [|a l Ha H IH]; cbn; [exact H'|]. constructor.
  - apply Forall_app. split; [exact Ha|]. apply Forall_forall. intros b Hb. apply X; [left; reflexivity|exact Hb].
  - apply IH. intros c b Hc Hb. apply X; [right; exact Hc|exact Hb].
Qed.
Lemma ordered_filter f l : ordered l -> ordered (filter f l).
Proof.
  induction 1 as [|a l Ha _ IH]; cbn; [constructor|]. destruct (f a); [|exact IH]. constructor; [|exact IH].
  rewrite Forall_forall in *. intros b Hb. apply Ha. apply filter_In in Hb. tauto.
Qed.
Lemma block_in u spc i es : forall pos c, In c (block_cands_from u spc i pos es) -> c_ua c = u /\ c_spec c = spc /\ c_rule c = i /\ (pos <= c_pos c)%nat.
Proof.
  induction es as [|[d im] es IH]; intros pos c; cbn; [tauto|]. intros [<-|Hc]; [cbn; auto|]. destruct (IH _ _ Hc) as (? & ? & ? & ?). repeat split; auto; lia.
Qed.
Lemma block_ordered u spc i es : forall pos, ordered (block_cands_from u spc i pos es).
Proof.
  induction es as [|[d im] es IH]; intros pos; cbn; [constructor|]. constructor; [|apply IH]. apply Forall_forall. intros c Hc.
  destruct (block_in _ _ _ _ _ _ Hc) as (_ & _ & _ & L). intros _ _ _. cbn. lia.
Qed.
Lemma rules_in {sel} ct (sp : sel -> N) m u rules : forall i c, In c (rule_cands ct sp m u i rules) -> c_ua c = u /\ c_spec c <> None /\ (i <= c_rule c)%nat.
Proof.
  induction rules as [|[x its] rules IH]; intros i c; cbn; [tauto|]. intros Hc. apply in_app_iff in Hc. destruct Hc as [Hc|Hc].
  - destruct (m x); [|contradiction]. destruct (block_in _ _ _ _ _ _ Hc) as (-> & -> & -> & _). repeat split; auto. discriminate.
  - destruct (IH _ _ Hc) as (? & ? & ?). repeat split; auto. lia.
Qed.
Lemma rules_ordered {sel} ct (sp : sel -> N) m u rules : forall i, ordered (rule_cands ct sp m u i rules).
Proof.
  induction rules as [|[x its] rules IH]; intros i; cbn; [constructor|]. apply ordered_app; [|apply IH|].
  - destruct (m x); [apply block_ordered|constructor].
  - intros a b Ha Hb _ _ E. destruct (m x); [|contradiction]. destruct (block_in _ _ _ _ _ _ Ha) as (_ & _ & Ra & _). destruct (rules_in _ _ _ _ _ _ _ Hb) as (_ & _ & Rb). lia.
Qed.
Lemma candidates_ordered {sel} ct (sp : sel -> N) m ua au at_ : ordered (candidates ct sp m ua au at_).
Proof.
  unfold candidates. apply ordered_app; [apply rules_ordered|apply ordered_app; [apply rules_ordered| |]|].
  - destruct at_; [apply block_ordered|constructor].
  - intros a b Ha Hb _ E _. destruct at_; [|contradiction]. destruct (rules_in _ _ _ _ _ _ _ Ha) as (_ & Na & _). destruct (block_in _ _ _ _ _ _ Hb) as (_ & Sb & _). congruence.
  - intros a b Ha Hb E _ _. exfalso. destruct (rules_in _ _ _ _ _ _ _ Ha) as (Ua & _). apply in_app_iff in Hb. destruct Hb as [Hb|Hb].
    + destruct (rules_in _ _ _ _ _ _ _ Hb) as (Ub & _). congruence.
    + destruct at_; [|contradiction]. destruct (block_in _ _ _ _ _ _ Hb) as (Ub & _). congruence.
Qed.

Lemma block_alike u spc i es es' : without ex es' = without ex es -> forall pos pos',
  Forall2 alike (filter nc (block_cands_from u spc i pos es)) (filter nc (block_cands_from u spc i pos' es')).
Proof.
  assert (G : forall es pos, exists ps, filter nc (block_cands_from u spc i pos es) =
     map (fun x => Cand u (snd (fst x)) spc i (snd x) (fst (fst x))) (combine (without ex es) ps) /\ length ps = length (without ex es)).
  { clear. induction es as [|[d im] es IH]; intros pos; cbn; [exists []; auto|]. destruct (IH (S pos)) as (ps & E & L). unfold nc at 1. cbn [c_decl].
    destruct (negb (ex (decl_longhand d))); [|exists ps; auto]. exists (pos :: ps). cbn. rewrite E, L. auto. }
  intros E pos pos'. destruct (G es pos) as (ps & -> & L). destruct (G es' pos') as (ps' & -> & L'). rewrite E in *. clear G E.
  revert ps ps' L L'. induction (without ex es) as [|[d im] w IH]; intros [|q ps] [|q' ps'] L L'; cbn in *; try discriminate; constructor; [|apply IH; congruence].
  repeat split.
Qed.
Lemma rules_of_but {sel} ct (s s' : list (list (rule sel))) : sheets_but ex ct s s' ->
  Forall2 (fun a b => fst b = fst a /\ block_but ex ct (snd a) (snd b)) (rules_of s) (rules_of s').
Proof.
  induction 1 as [|r r' s s' Hr _ IH]; cbn; [constructor|]. apply Forall2_app; [|exact IH]. clear IH.
  induction Hr as [|x y r r' Hxy _ IH]; cbn; [constructor|]. apply Forall2_app; [|exact IH]. destruct Hxy as [sels a b B|]; [|constructor].
  induction sels; cbn; constructor; auto.
Qed.
Lemma rule_cands_alike {sel} ct (sp : sel -> N) m u rules rules' : Forall2 (fun a b => fst b = fst a /\ block_but ex ct (snd a) (snd b)) rules rules' ->
  forall i, Forall2 alike (filter nc (rule_cands ct sp m u i rules)) (filter nc (rule_cands ct sp m u i rules')).
Proof.
  induction 1 as [|[x a] [y b] r r' [E B] _ IH]; intros i; cbn; [constructor|]. cbn in E, B. subst y. rewrite !filter_app. apply Forall2_app; [|apply IH].
  destruct (m x); [apply block_alike, B|constructor].
Qed.
Lemma candidates_alike {sel} ct (sp : sel -> N) m ua au at_ ua' au' at_' : sheets_but ex ct ua ua' -> sheets_but ex ct au au' -> attr_but ex ct at_ at_' ->
  Forall2 alike (filter nc (candidates ct sp m ua au at_)) (filter nc (candidates ct sp m ua' au' at_')).
Proof.
  intros U A T. unfold candidates. rewrite !filter_app. repeat apply Forall2_app; try (apply rule_cands_alike, rules_of_but; assumption).
  destruct at_, at_'; cbn in T; try contradiction; [apply block_alike, T|constructor].
Qed.

Lemma ordered_nth l : ordered l -> forall i j a b, nth_error l i = Some a -> nth_error l j = Some b -> (i < j)%nat -> before a b.
Proof.
  induction 1 as [|x l Hx _ IH]; intros [|i] [|j] a b Ea Eb L; cbn in *; try discriminate; try lia.
  - injection Ea as <-. rewrite Forall_forall in Hx. apply Hx, (nth_error_In l j), Eb.
  - apply (IH i j); auto. lia.
Qed.
Lemma alike_nth l l' : Forall2 alike l l' -> forall i, match nth_error l i, nth_error l' i with Some a, Some b => alike a b | None, None => True | _, _ => False end.
Proof. induction 1; intros [|i]; cbn; auto. apply IHForall2. Qed.
Lemma level_inj a b : c_level a = c_level b -> c_ua a = c_ua b.
Proof. unfold c_level. destruct (c_ua a), (c_important a), (c_ua b), (c_important b); intros E; try discriminate E; reflexivity. Qed.
(** the winner at the same place *)
Lemma wins_alike F F' : Forall2 alike F F' -> ordered F -> ordered F' -> forall c, wins F c -> exists c', wins F' c' /\ c_decl c' = c_decl c.
Proof.
  intros A O O' c [Hc Hw]. apply In_nth_error in Hc. destruct Hc as (i & Ei). pose proof (alike_nth _ _ A i) as Ai. rewrite Ei in Ai.
  destruct (nth_error F' i) as [c'|] eqn:Ei'; [|contradiction]. exists c'. destruct Ai as (A1 & A2 & A3 & A4 & A5). split; [|exact A5].
  split; [exact (nth_error_In F' i Ei')|]. intros d' Hd' El. apply In_nth_error in Hd'. destruct Hd' as (j & Ej').
  pose proof (alike_nth _ _ A j) as Aj. rewrite Ej' in Aj. destruct (nth_error F j) as [d|] eqn:Ej; [|contradiction]. destruct Aj as (B1 & B2 & B3 & B4 & B5).
  destruct (Nat.eq_dec i j) as [->|Nij]; [left; congruence|]. right.
  rewrite A5, B5 in El. destruct (Hw d (nth_error_In F j Ej) El) as [->|R].
  - exfalso. destruct (Nat.lt_total i j) as [L|[L|L]]; [|congruence|].
    + pose proof (ordered_nth _ O _ _ _ _ Ei Ej L eq_refl eq_refl eq_refl). lia.
    + pose proof (ordered_nth _ O _ _ _ _ Ej Ei L eq_refl eq_refl eq_refl). lia.
  - assert (La : c_level c' = c_level c) by (unfold c_level; rewrite A1, A2; reflexivity).
    assert (Ld : c_level d' = c_level d) by (unfold c_level; rewrite B1, B2; reflexivity).
    unfold outranks in *. rewrite La, Ld, A3, A4, B3, B4. destruct R as [R|(R1 & R)]; [left; exact R|]. right. split; [exact R1|].
    destruct R as [R|(R2 & R)]; [left; exact R|]. right. split; [exact R2|]. destruct R as [R|(R3 & R)]; [left; exact R|]. right. split; [exact R3|].
    assert (U : c_ua d = c_ua c) by (apply level_inj, R1).
    assert (L : (j < i)%nat).
    { destruct (Nat.lt_total i j) as [L|[L|L]]; [|contradiction|exact L]. exfalso.
      pose proof (ordered_nth _ O _ _ _ _ Ei Ej L (eq_sym U) (eq_sym R2) (eq_sym R3)). lia. }
    apply (ordered_nth _ O' _ _ _ _ Ej' Ei' L); congruence.
Qed.
Lemma wins_filter cs c : nc c = true -> (wins (filter nc cs) c <-> wins cs c).
Proof.
  intros N. unfold wins. split.
  - intros [I W]. apply filter_In in I. split; [tauto|]. intros d Hd E. apply W; [|exact E]. apply filter_In. split; [exact Hd|]. unfold nc in *. rewrite E. exact N.
  - intros [I W]. split; [apply filter_In; auto|]. intros d Hd E. apply filter_In in Hd. apply W; tauto.
Qed.
Lemma alike_sym_undeclared F F' l : Forall2 alike F F' -> undeclared F l -> undeclared F' l.
Proof.
  intros A U. induction A as [|a b F F' (_ & _ & _ & _ & E) A IH]; intros c Hc; [contradiction|]. destruct Hc as [<-|Hc].
  - rewrite E. apply U. left. reflexivity.
  - apply IH; [|exact Hc]. intros d Hd. apply U. right. exact Hd.
Qed.
Lemma undeclared_filter cs l : ex l = false -> (undeclared (filter nc cs) l <-> undeclared cs l).
Proof.
  intros Hl. unfold undeclared. split; intros U c Hc.
  - intros E. apply (U c); [|exact E]. apply filter_In. split; [exact Hc|]. unfold nc. rewrite E, Hl. reflexivity.
  - apply filter_In in Hc. apply U. tauto.
Qed.
Lemma winners_alike cs cs' : Forall2 alike (filter nc cs) (filter nc cs') -> ordered cs -> ordered cs' ->
  (forall l, (exists c, wins cs c /\ decl_longhand (c_decl c) = l) \/ undeclared cs l) ->
  winners_but ex cs cs'.
Proof.
  intros A O O' X l Hl. destruct (X l) as [(c & W & E)|U].
  - right. assert (N : nc c = true) by (unfold nc; rewrite E, Hl; reflexivity).
    destruct (wins_alike _ _ A (ordered_filter nc _ O) (ordered_filter nc _ O') c (proj2 (wins_filter cs c N) W)) as (c' & W' & E').
    exists c, c'. split; [exact W|]. split; [|auto]. apply wins_filter; [|exact W']. unfold nc in *. rewrite E'. exact N.
  - left. split; [exact U|]. apply undeclared_filter; [exact Hl|]. apply (alike_sym_undeclared _ _ _ A). apply undeclared_filter; assumption.
Qed.
End Sheets.
