(** Rewriting style sheets keeps the computed styles (proofs for C93). *)
From Verif Require Import Base Len StyleModel StyleSpec StyleCascade StyleWinner StyleParse StyleFacts PropStyle RefactorSpec.
From Verif Require Import GfxModel.
From Coq Require Import Lia.
Local Open Scope list_scope.

(** the declarations that win are the same *)
Definition same_winners {ar : Arith} (cs cs' : list cand) : Prop :=
  forall l, (undeclared cs l /\ undeclared cs' l) \/
    exists c c', wins cs c /\ wins cs' c' /\ c_decl c' = c_decl c /\ decl_longhand (c_decl c) = l.

Section Element.
Context {ar : Arith} {sel sel' : Type}.
Variables (ct : token -> option color) (sp : sel -> N) (sp' : sel' -> N) (m : sel -> bool) (m' : sel' -> bool).
Variables (ua au : list (list (rule sel))) (ua' au' : list (list (rule sel'))) (at_ at_' : option (list item)) (p p' : option style) (s s' : style).
Hypothesis H : element_style ct sp m ua au at_ p s.
Hypothesis H' : element_style ct sp' m' ua' au' at_' p' s'.
Notation cs := (candidates ct sp m ua au at_).
Notation cs' := (candidates ct sp' m' ua' au' at_').
Hypothesis W : same_winners cs cs'.
Hypothesis HP : same_parent p p'.
Notation P := (parent_or_initial p).
Notation P' := (parent_or_initial p').

Lemma w_parent l : sv P' l = sv P l.
Proof. destruct p as [q|], p' as [q'|]; cbn in HP; try contradiction; cbn [parent_or_initial]; [symmetry; apply HP|reflexivity]. Qed.
Lemma w_undeclared {se} (sp0 : se -> N) m0 u0 a0 t0 p0 s0 : element_style ct sp0 m0 u0 a0 t0 p0 s0 ->
  forall l, undeclared (candidates ct sp0 m0 u0 a0 t0) l -> sv s0 l = adjusted s0 l (default_value (parent_or_initial p0) l).
Proof.
  intros H0 l U. unfold default_value. destruct (in_dec longhand_eq_dec l css_inherited) as [I|I].
  - rewrite (inherits ct sp0 m0 u0 a0 t0 p0 s0 H0 l I U). destruct l; try reflexivity; exfalso; revert I; clear; cbn; intros I; decompose [or] I; try discriminate; assumption.
  - exact (C10_other_property_without_declaration _ ct sp0 m0 u0 a0 t0 p0 s0 H0 l I U).
Qed.
Lemma w_default l : default_value P' l = default_value P l.
Proof. unfold default_value. destruct (in_dec _ _ _); [apply w_parent|reflexivity]. Qed.
Lemma w_computed own l v : computed P' own l v = computed P own l v.
Proof. destruct l; cbn [computed]; try reflexivity; rewrite w_parent; reflexivity. Qed.
Lemma w_raw l : (l = Lfont_size \/ sv s' Lfont_size = sv s Lfont_size) ->
  exists v, sv s l = adjusted s l v /\ sv s' l = adjusted s' l v.
Proof.
  intros F. destruct (W l) as [[U U']|(c1 & c2 & W1 & W2 & E & E1)].
  - exists (default_value P l). split; [exact (w_undeclared _ _ _ _ _ _ _ H _ U)|]. rewrite (w_undeclared _ _ _ _ _ _ _ H' _ U'), (w_default l). reflexivity.
  - pose proof (C09_winner_takes_effect _ _ _ _ _ _ _ _ _ H c1 W1) as V.
    pose proof (C09_winner_takes_effect _ _ _ _ _ _ _ _ _ H' c2 W2) as V'. rewrite E in V'. subst l.
    eexists. split; [exact V|]. rewrite V'. f_equal.
    destruct (c_decl c1) as [l v|l w]; cbn [decl_longhand decl_value] in *.
    + rewrite (w_computed _ l v). destruct F as [->|F]; [reflexivity|]. rewrite F. reflexivity.
    + destruct w; [apply w_parent|reflexivity|apply w_default].
Qed.
Lemma w_font : sv s' Lfont_size = sv s Lfont_size.
Proof. destruct (w_raw Lfont_size (or_introl eq_refl)) as (v & V & V'). rewrite V, V'. reflexivity. Qed.
Lemma w_plain l :
  match l with Lborder_top_width | Lborder_right_width | Lborder_bottom_width | Lborder_left_width | Ldisplay => False | _ => True end ->
  sv s' l = sv s l.
Proof. intros Hp. destruct (w_raw l (or_intror w_font)) as (v & V & V'). rewrite V, V'. destruct l; try contradiction; reflexivity. Qed.
Lemma w_style : same_style s s'.
Proof.
  split.
  - intros l. destruct (w_raw l (or_intror w_font)) as (v & V & V'). symmetry.
    destruct l; try (rewrite V, V'; reflexivity); rewrite V, V'; cbn [adjusted].
    all: try (rewrite w_plain by exact I; reflexivity).
    assert (O : out_of_flow s <-> out_of_flow s').
    { unfold out_of_flow. rewrite (w_plain Lposition), (w_plain Lfloat) by exact I. reflexivity. }
    destruct (out_of_flow_dec s), (out_of_flow_dec s'); tauto || reflexivity.
  - destruct (C13_specified_display_is_remembered _ _ _ _ _ _ _ _ _ H) as [D1 D2].
    destruct (C13_specified_display_is_remembered _ _ _ _ _ _ _ _ _ H') as [D1' D2'].
    destruct (W Ldisplay) as [[U U']|(c1 & c2 & W1 & W2 & E & E1)]; [rewrite (D2 U), (D2' U'); reflexivity|].
    pose proof (D1 c1) as A. pose proof (D1' c2) as B. rewrite E in B.
    destruct (c_decl c1) as [l1 v|l1 w]; cbn [decl_longhand] in *; subst l1; cbn [declared_display] in *.
    + rewrite (A v W1 eq_refl), (B v W2 eq_refl). reflexivity.
    + destruct w; rewrite (A _ W1 eq_refl), (B _ W2 eq_refl); try reflexivity. symmetry. exact (w_parent Ldisplay).
Qed.
End Element.

(* ------------------------------------------------------------------ *)
(** * What a list of rules says about one property of one element *)
Section Best.
Context {ar : Arith} {sel : Type}.
Variable ct : token -> option color.
Variable sp : sel -> N.
Variable m : sel -> bool.
Variable l : longhand.

(** the later of two, unless the earlier is more specific *)
Definition comb (x y : option (N * decl)) : option (N * decl) :=
  match y with
  | None => x
  | Some (n', _) => match x with Some (n, _) => if (n' <? n)%N then x else y | None => y end
  end.
Lemma comb_assoc x y z : comb x (comb y z) = comb (comb x y) z.
Proof.
  destruct x as [[n d]|], y as [[n' d']|], z as [[n'' d'']|]; cbn;
    repeat (match goal with |- context [(?a <? ?b)%N] => destruct (N.ltb_spec a b) end; cbn); try reflexivity; lia.
Qed.
Lemma comb_none x : comb x None = x. Proof. reflexivity. Qed.
Lemma none_comb y : comb None y = y. Proof. destruct y as [[]|]; reflexivity. Qed.
Lemma comb_is_none x y : comb x y = None -> x = None /\ y = None.
Proof. destruct x as [[]|], y as [[]|]; cbn; try (destruct (_ <? _)%N); auto; discriminate. Qed.

Definition about (i : bool) (e : decl * bool) : bool :=
  (if longhand_eq_dec (decl_longhand (fst e)) l then true else false) && Bool.eqb (snd e) i.
Fixpoint lastd (i : bool) (es : list (decl * bool)) : option decl :=
  match es with
  | [] => None
  | e :: r => match lastd i r with Some d => Some d | None => if about i e then Some (fst e) else None end
  end.
Lemma lastd_app i a b : lastd i (a ++ b) = match lastd i b with Some d => Some d | None => lastd i a end.
Proof. induction a as [|e a IH]; cbn; [destruct (lastd i b); reflexivity|]. rewrite IH. destruct (lastd i b); reflexivity. Qed.
Lemma about_iff i d j : about i (d, j) = true <-> decl_longhand d = l /\ j = i.
Proof. unfold about. cbn. destruct (longhand_eq_dec _ _); cbn; rewrite ?Bool.eqb_true_iff; split; intros; try tauto; try discriminate; destruct H; try contradiction; auto. Qed.
Lemma lastd_some i es d : lastd i es = Some d -> In (d, i) es /\ decl_longhand d = l.
Proof.
  induction es as [|[d0 j] r IH]; cbn; [discriminate|]. destruct (lastd i r) as [d1|].
  - intros E. destruct (IH E). auto.
  - destruct (about i (d0, j)) eqn:A; [|discriminate]. intros E. injection E as ->. apply about_iff in A. destruct A as [A ->]. auto.
Qed.
Lemma lastd_none i es : lastd i es = None -> forall d, In (d, i) es -> decl_longhand d = l -> False.
Proof.
  induction es as [|[d0 j] r IH]; cbn; [tauto|]. destruct (lastd i r); [discriminate|]. destruct (about i (d0, j)) eqn:A; [discriminate|].
  intros _ d [E|I] El; [|exact (IH eq_refl d I El)]. injection E as -> ->. assert (about i (d, i) = true) by (apply about_iff; auto). congruence.
Qed.

Lemma lastd_of i b : lastd i (declared ct b) = lastd i (declared_of ct b l).
Proof.
  unfold declared_of. induction (declared ct b) as [|[d j] r IH]; [reflexivity|]. cbn [lastd filter fst]. rewrite IH.
  destruct (longhand_eq_dec (decl_longhand d) l) as [E|E]; cbn [lastd fst].
  - reflexivity.
  - replace (about i (d, j)) with false; [match goal with |- context [match ?x with Some _ => _ | None => _ end] => destruct x end; reflexivity|].
    symmetry. apply Bool.not_true_is_false. intros A. apply about_iff in A. tauto.
Qed.

Fixpoint best (i : bool) (rs : list (sel * list item)) : option (N * decl) :=
  match rs with
  | [] => None
  | (s, b) :: r => comb (if m s then option_map (pair (sp s)) (lastd i (declared ct b)) else None) (best i r)
  end.
Lemma best_app i a b : best i (a ++ b) = comb (best i a) (best i b).
Proof. induction a as [|[s x] a IH]; cbn; [symmetry; apply none_comb|]. rewrite IH. apply comb_assoc. Qed.

(** the greatest specificity among the selectors that match *)
Fixpoint top (x : list sel) : option N :=
  match x with
  | [] => None
  | s :: r => if m s then Some (match top r with Some n => N.max (sp s) n | None => sp s end) else top r
  end.
Definition both (n : option N) (d : option decl) : option (N * decl) :=
  match n, d with Some n, Some d => Some (n, d) | _, _ => None end.
Lemma best_rule i x b : best i (map (fun s => (s, b)) x) = both (top x) (lastd i (declared ct b)).
Proof.
  induction x as [|s x IH]; cbn; [reflexivity|]. rewrite IH. destruct (m s); [|rewrite none_comb; reflexivity].
  destruct (lastd i (declared ct b)) as [d|]; cbn; [|destruct (top x); reflexivity]. destruct (top x) as [n|]; cbn; [|reflexivity].
  destruct (N.ltb_spec n (sp s)); [rewrite N.max_l by lia|rewrite N.max_r by lia]; reflexivity.
Qed.
Lemma top_some x n : top x = Some n -> exists s, In s x /\ m s = true /\ sp s = n.
Proof.
  revert n. induction x as [|s x IH]; cbn; [discriminate|]. intros n. destruct (m s) eqn:M.
  - destruct (top x) as [k|] eqn:T; intros E; injection E as <-.
    + destruct (N.max_spec (sp s) k) as [[_ ->]|[_ ->]]; [|exists s; auto]. destruct (IH k eq_refl) as (q & ? & ? & ?). exists q. auto.
    + exists s. auto.
  - intros E. destruct (IH n E) as (q & ? & ? & ?). exists q. auto.
Qed.
Lemma top_ge x s : In s x -> m s = true -> exists n, top x = Some n /\ (sp s <= n)%N.
Proof.
  induction x as [|q x IH]; cbn; [tauto|]. intros [->|I] M.
  - rewrite M. destruct (top x); eexists; (split; [reflexivity|]); lia.
  - destruct (IH I M) as (n & -> & L). destruct (m q); eexists; (split; [reflexivity|]); lia.
Qed.
Lemma top_incl x y : incl x y -> forall n, top x = Some n -> exists n', top y = Some n' /\ (n <= n')%N.
Proof. intros I n E. destruct (top_some _ _ E) as (s & J & M & <-). apply top_ge; auto. Qed.

Definition rules1 (rs : list (rule sel)) : list (sel * list item) :=
  flat_map (fun r => match r with RStyle sels items => map (fun s => (s, items)) sels | RErr => [] end) rs.
Lemma rules1_app a b : rules1 (a ++ b) = rules1 a ++ rules1 b.
Proof. apply flat_map_app. Qed.
Definition bst i rs := best i (rules1 rs).
Lemma bst_app i a b : bst i (a ++ b) = comb (bst i a) (bst i b).
Proof. unfold bst. rewrite rules1_app. apply best_app. Qed.
Lemma bst_rule i x b : bst i [RStyle x b] = both (top x) (lastd i (declared ct b)).
Proof. unfold bst. cbn. rewrite app_nil_r. apply best_rule. Qed.
Lemma bst_cons i r rs : bst i (r :: rs) = comb (bst i [r]) (bst i rs).
Proof. exact (bst_app i [r] rs). Qed.

(** two lists of rules say the same about the property *)
Definition says (a b : list (rule sel)) : Prop := bst true a = bst true b /\ (bst true a = None -> bst false a = bst false b).
Lemma says_all a b : (forall i, bst i a = bst i b) -> says a b.
Proof. intros E. split; auto. Qed.
Lemma says_within x a b y : says a b -> says (x ++ a ++ y) (x ++ b ++ y).
Proof.
  intros [T F]. split; rewrite !bst_app; [rewrite T; reflexivity|]. intros N. rewrite F; [reflexivity|].
  apply comb_is_none in N. destruct N as [_ N]. apply comb_is_none in N. tauto.
Qed.

Context {element : Type}.
Variable hits : element -> sel -> Prop.
Variable e0 : element.
Hypothesis Hm : forall s, m s = true -> hits e0 s.

Lemma sets_lastd b i : (exists d, lastd i (declared ct b) = Some d) <-> sets ct b l i.
Proof.
  split.
  - intros (d & E). destruct (lastd_some _ _ _ E). exists d. auto.
  - intros (d & I & E). destruct (lastd i (declared ct b)) as [d'|] eqn:L; [eauto|]. exfalso. exact (lastd_none _ _ L d I E).
Qed.
Lemma comb_comm_none x y : x = None \/ y = None -> comb x y = comb y x.
Proof. intros [->| ->]; rewrite none_comb; reflexivity. Qed.
Lemma refactored_says a b : refactored ct sp hits a b -> says a b.
Proof.
  induction 1 as [x y b|x y b I J|x a b|x a b E|x a k y b I O|x a y b D|x b U|x b U| |a|a b R IH|a b c R1 IH1 R2 IH2|x a b y R IH].
  - apply says_all. intros i. unfold bst. cbn. rewrite !app_nil_r, map_app. reflexivity.
  - apply says_all. intros i. rewrite !bst_rule. f_equal.
    destruct (top x) as [n|] eqn:T, (top y) as [n'|] eqn:T'; try reflexivity.
    + destruct (top_incl _ _ I n T) as (k & E & L). destruct (top_incl _ _ J n' T') as (k' & E' & L'). f_equal. rewrite T in E'. rewrite T' in E. injection E as <-. injection E' as <-. lia.
    + destruct (top_incl _ _ I n T) as (k & E & L). congruence.
    + destruct (top_incl _ _ J n' T') as (k & E & L). congruence.
  - apply says_all. intros i. rewrite (bst_cons i (RStyle x a) [RStyle x b]), !bst_rule. unfold declared. rewrite flat_map_app, lastd_app. fold (declared ct a) (declared ct b).
    destruct (top x) as [n|]; [|reflexivity]. destruct (lastd i (declared ct a)), (lastd i (declared ct b)); cbn; try reflexivity.
    rewrite N.ltb_irrefl. reflexivity.
  - apply says_all. intros i. rewrite !bst_rule, !lastd_of, E. reflexivity.
  - assert (K : forall i n d, both (top x) (lastd i (declared ct a)) = Some (n, d) ->
       forall j d', lastd j (declared ct b) = Some d' -> forall z, exists n' e', comb (bst j z) (bst j [RStyle y b]) = Some (n', e') /\ (n <= n')%N).
    { intros i n d E j d' Ed z. destruct (top x) as [n0|] eqn:T; [|discriminate]. destruct (lastd i (declared ct a)); [|discriminate]. cbn in E. injection E as -> _.
      destruct (top_incl _ _ I n T) as (n' & T' & L). rewrite bst_rule, T', Ed. cbn. destruct (bst j z) as [[kk dk]|]; [|eauto]. destruct (N.ltb_spec n' kk); [exists kk, dk; split; auto; lia|eauto]. }
    assert (S : forall i d, lastd i (declared ct a) = Some d -> (exists d', lastd true (declared ct b) = Some d') \/ exists d', lastd i (declared ct b) = Some d').
    { intros i d Ed. destruct (O l i (proj1 (sets_lastd a i) (ex_intro _ d Ed))) as [X|X]; apply sets_lastd in X; auto. }
    assert (D : forall i n d, both (top x) (lastd i (declared ct a)) = Some (n, d) -> exists d, lastd i (declared ct a) = Some d)
      by (intros i n d; destruct (top x); [|discriminate]; destruct (lastd i (declared ct a)); [eauto|discriminate]).
    assert (C : forall n d z, (exists n' e', z = Some (n', e') /\ (n <= n')%N) -> comb (Some (n, d)) z = z)
      by (intros n d z (n' & e' & -> & L); cbn; destruct (N.ltb_spec n' n); [lia|reflexivity]).
    split; [rewrite (bst_cons true (RStyle x a)), bst_app|rewrite (bst_cons true (RStyle x a)), (bst_cons false (RStyle x a)), !bst_app]; rewrite !(bst_rule _ x a).
    + destruct (both (top x) (lastd true (declared ct a))) as [[n d]|] eqn:E; [|apply none_comb]. apply C. destruct (D _ _ _ E) as (d1 & E1).
      destruct (S _ _ E1) as [(d' & E')|(d' & E')]; exact (K _ _ _ E _ _ E' k).
    + intros N. apply comb_is_none in N. destruct N as [_ N].
      destruct (both (top x) (lastd false (declared ct a))) as [[n d]|] eqn:E; [|apply none_comb]. apply C. destruct (D _ _ _ E) as (d1 & E1).
      destruct (S _ _ E1) as [(d' & E')|(d' & E')].
      * destruct (K _ _ _ E _ _ E' k) as (? & ? & X & _). rewrite N in X. discriminate.
      * exact (K _ _ _ E _ _ E' k).
  - apply says_all. intros i. rewrite (bst_cons i (RStyle x a) [RStyle y b]), (bst_cons i (RStyle y b) [RStyle x a]), !bst_rule.
    destruct (top x) as [n|] eqn:T, (top y) as [n'|] eqn:T'; cbn [both]; try (apply comb_comm_none; auto; fail).
    destruct (lastd i (declared ct a)) as [d|] eqn:E, (lastd i (declared ct b)) as [d'|] eqn:E'; cbn [both]; try (apply comb_comm_none; auto; fail).
    destruct D as [D|[D|D]].
    + exfalso. apply (D l i i); apply sets_lastd; eauto.
    + exfalso. destruct (top_some _ _ T) as (s & I & M & _). destruct (top_some _ _ T') as (s' & I' & M' & _). exact (D e0 s s' I I' (Hm _ M) (Hm _ M')).
    + destruct (top_some _ _ T) as (s & I & _ & <-). destruct (top_some _ _ T') as (s' & I' & _ & <-). pose proof (D s s' I I') as N.
      cbn. destruct (N.ltb_spec (sp s') (sp s)), (N.ltb_spec (sp s) (sp s')); try reflexivity; lia.
  - apply says_all. intros i. rewrite bst_rule. replace (top x) with (@None N); [reflexivity|]. destruct (top x) eqn:T; [|reflexivity].
    destruct (top_some _ _ T) as (s & I & M & _). exfalso. exact (U e0 s I (Hm _ M)).
  - apply says_all. intros i. rewrite bst_rule, U. destruct (top x); reflexivity.
  - apply says_all. reflexivity.
  - apply says_all. reflexivity.
  - destruct IH as [T F]. split; [auto|]. rewrite <- T. intros N. symmetry. auto.
  - destruct IH1 as [T F], IH2 as [T' F']. split; [congruence|]. intros N. rewrite F by exact N. apply F'. congruence.
  - apply says_within, IH.
Qed.

(** the best declaration among the candidates of one importance *)
Lemma block_lastd u spc i k es : forall pos,
  match lastd i es with
  | Some d => exists c, In c (block_cands_from u spc k pos es) /\ c_important c = i /\ c_decl c = d /\ decl_longhand d = l /\
      forall c', In c' (block_cands_from u spc k pos es) -> decl_longhand (c_decl c') = l -> c_important c' = i -> c' = c \/ (c_pos c' < c_pos c)%nat
  | None => forall c', In c' (block_cands_from u spc k pos es) -> decl_longhand (c_decl c') = l -> c_important c' = i -> False
  end.
Proof.
  induction es as [|[d j] r IH]; intros pos; cbn; [tauto|]. specialize (IH (S pos)).
  assert (Q : forall c', In c' (block_cands_from u spc k (S pos) r) -> (pos < c_pos c')%nat).
  { clear. assert (G : forall q c', In c' (block_cands_from u spc k q r) -> (q <= c_pos c')%nat).
    { clear. induction r as [|[d j] r IH]; intros q c'; cbn; [tauto|]. intros [<-|I]; [cbn; lia|]. specialize (IH _ _ I). lia. }
    intros c' I. specialize (G _ _ I). lia. }
  destruct (lastd i r) as [dl|].
  - destruct IH as (c & I & Ei & Ed & El & B). exists c. repeat split; auto. intros c' [<-|I'] E1 E2; [right; cbn; exact (Q c I)|exact (B c' I' E1 E2)].
  - destruct (about i (d, j)) eqn:A.
    + apply about_iff in A. destruct A as [A ->]. cbn. eexists. split; [left; reflexivity|]. cbn. repeat split; auto.
      intros c' [<-|I'] E1 E2; [left; reflexivity|]. exfalso. exact (IH c' I' E1 E2).
    + intros c' [<-|I'] E1 E2; [|exact (IH c' I' E1 E2)]. cbn in *. assert (about i (d, j) = true) by (apply about_iff; auto). congruence.
Qed.
Lemma block_fields u spc k es : forall pos c, In c (block_cands_from u spc k pos es) -> c_ua c = u /\ c_spec c = spc /\ c_rule c = k.
Proof. induction es as [|[d j] r IH]; intros pos c; cbn; [tauto|]. intros [<-|I]; [cbn; auto|exact (IH _ _ I)]. Qed.
Lemma rules_fields u rs : forall k c, In c (rule_cands ct sp m u k rs) -> c_ua c = u /\ (exists n, c_spec c = Some n) /\ (k <= c_rule c)%nat.
Proof.
  induction rs as [|[s b] rs IH]; intros k c; cbn; [tauto|]. intros I. apply in_app_iff in I. destruct I as [I|I].
  - destruct (m s); [|contradiction]. destruct (block_fields _ _ _ _ _ _ I) as (-> & -> & ->). repeat split; eauto.
  - destruct (IH _ _ I) as (? & ? & ?). repeat split; auto. lia.
Qed.
Lemma best_cand u i rs : forall k,
  match best i rs with
  | Some (n, d) => exists c, In c (rule_cands ct sp m u k rs) /\ c_important c = i /\ c_spec c = Some n /\ c_decl c = d /\ decl_longhand d = l /\
      forall c', In c' (rule_cands ct sp m u k rs) -> decl_longhand (c_decl c') = l -> c_important c' = i -> c' = c \/ outranks c c'
  | None => forall c', In c' (rule_cands ct sp m u k rs) -> decl_longhand (c_decl c') = l -> c_important c' = i -> False
  end.
Proof.
  induction rs as [|[s b] rs IH]; intros k; cbn; [tauto|]. specialize (IH (S k)).
  assert (L : forall c c', c_ua c = c_ua c' -> c_important c = c_important c' -> c_level c' = c_level c) by (intros c c' E1 E2; unfold c_level; rewrite E1, E2; reflexivity).
  destruct (m s) eqn:M; cbn [app]; [|rewrite none_comb; exact IH].
  pose proof (block_lastd u (Some (sp s)) i k (declared ct b) 0) as B.
  destruct (lastd i (declared ct b)) as [d|]; cbn [option_map].
  - destruct B as (c & I & Ei & Ed & El & B). destruct (block_fields _ _ _ _ _ _ I) as (Fu & Fs & Fr).
    assert (B' : forall c', In c' (block_cands_from u (Some (sp s)) k 0 (declared ct b)) -> decl_longhand (c_decl c') = l -> c_important c' = i -> c' = c \/ outranks c c').
    { intros c' I' E1 E2. destruct (B c' I' E1 E2) as [->|P]; [auto|]. right. destruct (block_fields _ _ _ _ _ _ I') as (Fu' & Fs' & Fr').
      right. split; [apply L; congruence|]. right. split; [congruence|]. right. split; [congruence|exact P]. }
    destruct (best i rs) as [[n d']|]; cbn [comb].
    + destruct IH as (c2 & I2 & Ei2 & Es2 & Ed2 & El2 & B2). destruct (rules_fields _ _ _ _ I2) as (Gu & _ & Gr).
      destruct (N.ltb_spec n (sp s)) as [Hn|Hn].
      * exists c. repeat split; auto; [apply in_app_iff; auto|]. intros c' I' E1 E2. apply in_app_iff in I'. destruct I' as [I'|I']; [exact (B' c' I' E1 E2)|].
        right. right. destruct (rules_fields _ _ _ _ I') as (Gu' & (n' & Gs') & Gr'). split; [apply L; congruence|]. left.
        rewrite Gs', Fs. cbn. destruct (B2 c' I' E1 E2) as [->|O]; [congruence || (rewrite Es2 in Gs'; injection Gs' as <-; exact Hn)|].
        destruct O as [O|(_ & [O|(O & _)])].
        -- exfalso. rewrite (L c2 c') in O by congruence. lia.
        -- rewrite Gs', Es2 in O. cbn in O. lia.
        -- rewrite Gs', Es2 in O. injection O as ->. exact Hn.
      * exists c2. repeat split; auto; [apply in_app_iff; auto|]. intros c' I' E1 E2. apply in_app_iff in I'. destruct I' as [I'|I']; [|exact (B2 c' I' E1 E2)].
        right. right. destruct (block_fields _ _ _ _ _ _ I') as (Fu' & Fs' & Fr'). split; [apply L; congruence|]. rewrite Fs', Es2. cbn.
        destruct (N.lt_trichotomy (sp s) n) as [Q|[Q|Q]]; [left; exact Q| |lia]. right. split; [congruence|]. left. lia.
    + exists c. repeat split; auto; [apply in_app_iff; auto|]. intros c' I' E1 E2. apply in_app_iff in I'. destruct I' as [I'|I']; [exact (B' c' I' E1 E2)|]. exfalso. exact (IH c' I' E1 E2).
  - rewrite none_comb. destruct (best i rs) as [[n d']|].
    + destruct IH as (c2 & I2 & Ei2 & Es2 & Ed2 & El2 & B2). exists c2. repeat split; auto; [apply in_app_iff; auto|]. intros c' I' E1 E2. apply in_app_iff in I'. destruct I' as [I'|I']; [|exact (B2 c' I' E1 E2)].
      exfalso. exact (B c' I' E1 E2).
    + intros c' I' E1 E2. apply in_app_iff in I'. destruct I' as [I'|I']; [exact (B c' I' E1 E2)|exact (IH c' I' E1 E2)].
Qed.

(** the winner of the whole element *)
Variables (uc : list cand) (at_ : list cand).
Hypothesis Huc : forall c, In c uc -> c_ua c = true.
Hypothesis Hat : forall c, In c at_ -> c_ua c = false /\ c_spec c = None.
Notation all rs := (uc ++ rule_cands ct sp m false 0 (rules1 rs) ++ at_).

Lemma says_winner a b : says a b -> forall c, wins (all a) c -> decl_longhand (c_decl c) = l ->
  exists c', wins (all b) c' /\ c_decl c' = c_decl c.
Proof.
  intros [T F] c [I W] El.
  pose proof (best_cand false true (rules1 a) 0) as At. pose proof (best_cand false false (rules1 a) 0) as Af.
  pose proof (best_cand false true (rules1 b) 0) as Bt. pose proof (best_cand false false (rules1 b) 0) as Bf.
  fold (bst true a) in At. fold (bst false a) in Af. fold (bst true b) in Bt. fold (bst false b) in Bf.
  assert (Wl : forall c', In c' (all a) -> decl_longhand (c_decl c') = l -> c' = c \/ outranks c c') by (intros c' I' E'; apply W; congruence). clear W.
  assert (Ra : forall c', In c' (rule_cands ct sp m false 0 (rules1 a)) -> In c' (all a)) by (intros c' I'; apply in_app_iff; right; apply in_app_iff; left; exact I').
  (* no candidate of the author outranks the winner *)
  assert (U : forall c', wins (all b) c' -> c_decl c' = c_decl c -> exists c', wins (all b) c' /\ c_decl c' = c_decl c) by eauto.
  apply in_app_iff in I. rewrite in_app_iff in I. destruct I as [I|[I|I]].
  - (* user agent *)
    exists c. split; [|reflexivity]. split; [apply in_app_iff; left; exact I|]. rewrite El. intros c' I' E'.
    apply in_app_iff in I'. rewrite in_app_iff in I'. destruct I' as [I'|[I'|I']]; [apply Wl; auto; apply in_app_iff; auto| |apply Wl; auto; apply in_app_iff; right; apply in_app_iff; auto].
    destruct (rules_fields _ _ _ _ I') as (Fu & _ & _). right. left. unfold c_level. rewrite Fu, (Huc c I).
    destruct (c_important c) eqn:Ei; [destruct (c_important c'); lia|]. exfalso.
    assert (N : forall c2, In c2 (rule_cands ct sp m false 0 (rules1 a)) -> decl_longhand (c_decl c2) = l -> False).
    { intros c2 I2 E2. destruct (rules_fields _ _ _ _ I2) as (Fu2 & _ & _). destruct (Wl c2 (Ra c2 I2) E2) as [->|O]; [rewrite (Huc c I) in Fu2; discriminate|].
      unfold outranks, c_level in O. rewrite Fu2, (Huc c I), Ei in O. destruct (c_important c2); lia. }
    assert (NT : bst true a = None) by (destruct (bst true a) as [[n d]|]; [|reflexivity]; destruct At as (c2 & I2 & _ & _ & E2 & E3 & _); exfalso; apply (N c2 I2); congruence).
    assert (NF : bst false a = None) by (destruct (bst false a) as [[n d]|]; [|reflexivity]; destruct Af as (c2 & I2 & _ & _ & E2 & E3 & _); exfalso; apply (N c2 I2); congruence).
    rewrite <- T, NT in Bt. rewrite <- (F NT), NF in Bf. destruct (c_important c') eqn:E2; [exact (Bt c' I' E' E2)|exact (Bf c' I' E' E2)].
  - (* author *)
    destruct (rules_fields _ _ _ _ I) as (Fu & (n & Fs) & _).
    assert (X : forall i n' d', bst i b = Some (n', d') -> i = c_important c -> n' = n -> d' = c_decl c -> (i = false -> bst true b = None) ->
       exists c', wins (all b) c' /\ c_decl c' = c_decl c).
    { intros i n' d' Eb -> -> -> Nt.
      assert (B : exists c2, In c2 (rule_cands ct sp m false 0 (rules1 b)) /\ c_important c2 = c_important c /\ c_spec c2 = Some n /\ c_decl c2 = c_decl c /\
        forall c', In c' (rule_cands ct sp m false 0 (rules1 b)) -> decl_longhand (c_decl c') = l -> c_important c' = c_important c -> c' = c2 \/ outranks c2 c').
      { destruct (c_important c) eqn:Ei; [rewrite Eb in Bt; destruct Bt as (c2 & ? & ? & ? & ? & _ & ?)|rewrite Eb in Bf; destruct Bf as (c2 & ? & ? & ? & ? & _ & ?)]; exists c2; repeat split; auto. }
      destruct B as (c2 & I2 & Ei2 & Es2 & Ed2 & B). destruct (rules_fields _ _ _ _ I2) as (Fu2 & _ & _).
      exists c2. split; [|exact Ed2]. split; [apply in_app_iff; right; apply in_app_iff; left; exact I2|]. rewrite Ed2, El. intros c' I' E'.
      assert (Lv : c_level c2 = c_level c) by (unfold c_level; rewrite Fu2, Fu, Ei2; reflexivity).
      apply in_app_iff in I'. rewrite in_app_iff in I'. destruct I' as [I'|[I'|I']].
      + right. destruct (Wl c') as [->|O]; [apply in_app_iff; auto|exact E'|rewrite (Huc c I') in Fu; discriminate|].
        left. rewrite Lv. destruct O as [O|(O & _)]; [exact O|]. unfold c_level in O. rewrite (Huc c' I'), Fu in O. destruct (c_important c'), (c_important c); lia.
      + destruct (Bool.bool_dec (c_important c') (c_important c)) as [Q|Q]; [exact (B c' I' E' Q)|]. destruct (rules_fields _ _ _ _ I') as (Fu' & _ & _).
        destruct (c_important c) eqn:Ei.
        * right. left. rewrite Lv. unfold c_level. rewrite Fu', Fu, Ei. destruct (c_important c'); [congruence|lia].
        * exfalso. rewrite (Nt eq_refl) in Bt. apply (Bt c' I' E'). destruct (c_important c'); congruence.
      + right. destruct (Hat c' I') as (Fu' & Fs'). destruct (Wl c') as [->|O]; [apply in_app_iff; right; apply in_app_iff; auto|exact E'|congruence|].
        left. rewrite Lv. destruct O as [O|(O & O1)]; [exact O|]. exfalso. rewrite Fs', Fs in O1. cbn in O1. destruct O1 as [O1|(O1 & _)]; [exact O1|discriminate]. }
    destruct (c_important c) eqn:Ei.
    + (* important *)
      assert (E : bst true a = Some (n, c_decl c)).
      { destruct (bst true a) as [[n1 d1]|]; [|exfalso; exact (At c I El Ei)]. destruct At as (c2 & I2 & Ei2 & Es2 & Ed2 & El2 & B).
        assert (c = c2); [|subst c2; congruence]. destruct (B c I El Ei) as [Q|O]; [exact Q|]. destruct (Wl c2 (Ra c2 I2)) as [Q|O']; [congruence|auto|]. exfalso. exact (outranks_asym _ _ O O'). }
      apply (X true n (c_decl c)); auto; [congruence|discriminate].
    + assert (NT : bst true a = None).
      { destruct (bst true a) as [[n1 d1]|]; [|reflexivity]. exfalso. destruct At as (c2 & I2 & Ei2 & Es2 & Ed2 & El2 & B). destruct (rules_fields _ _ _ _ I2) as (Fu2 & _ & _).
        destruct (Wl c2 (Ra c2 I2)) as [Q|O]; [congruence|congruence|]. unfold outranks, c_level in O. rewrite Fu2, Fu, Ei, Ei2 in O. lia. }
      assert (E : bst false a = Some (n, c_decl c)).
      { destruct (bst false a) as [[n1 d1]|]; [|exfalso; exact (Af c I El Ei)]. destruct Af as (c2 & I2 & Ei2 & Es2 & Ed2 & El2 & B).
        assert (c = c2); [|subst c2; congruence]. destruct (B c I El Ei) as [Q|O]; [exact Q|]. destruct (Wl c2 (Ra c2 I2)) as [Q|O']; [congruence|auto|]. exfalso. exact (outranks_asym _ _ O O'). }
      apply (X false n (c_decl c)); auto; [rewrite <- (F NT); exact E|intros _; congruence].
  - (* style attribute *)
    destruct (Hat c I) as (Fu & Fs). exists c. split; [|reflexivity]. split; [apply in_app_iff; right; apply in_app_iff; right; exact I|]. rewrite El. intros c' I' E'.
    apply in_app_iff in I'. rewrite in_app_iff in I'. destruct I' as [I'|[I'|I']]; [apply Wl; auto; apply in_app_iff; auto| |apply Wl; auto; apply in_app_iff; right; apply in_app_iff; auto].
    destruct (rules_fields _ _ _ _ I') as (Fu' & (n' & Fs') & _). right.
    assert (Q : c_important c' = true -> c_important c = true).
    { intros Ei'. destruct (c_important c) eqn:Ei; [reflexivity|]. exfalso.
      assert (NT : bst true a = None).
      { destruct (bst true a) as [[n1 d1]|]; [|reflexivity]. exfalso. destruct At as (c2 & I2 & Ei2 & Es2 & Ed2 & El2 & B). destruct (rules_fields _ _ _ _ I2) as (Fu2 & _ & _).
        destruct (Wl c2 (Ra c2 I2)) as [Q|O]; [congruence|congruence|]. unfold outranks, c_level in O. rewrite Fu2, Fu, Ei, Ei2 in O. lia. }
      rewrite <- T, NT in Bt. exact (Bt c' I' E' Ei'). }
    destruct (c_important c') eqn:Ei', (c_important c) eqn:Ei; try (specialize (Q eq_refl); discriminate).
    + right. split; [unfold c_level; rewrite Fu, Fu', Ei, Ei'; reflexivity|]. left. rewrite Fs, Fs'. exact Logic.I.
    + left. unfold c_level. rewrite Fu, Fu', Ei, Ei'. lia.
    + right. split; [unfold c_level; rewrite Fu, Fu', Ei, Ei'; reflexivity|]. left. rewrite Fs, Fs'. exact Logic.I.
Qed.
Lemma says_undeclared a b : says a b -> undeclared (all a) l -> undeclared (all b) l.
Proof.
  intros [T F] U c I E. apply in_app_iff in I. rewrite in_app_iff in I. destruct I as [I|[I|I]]; try (apply (U c); [|exact E]; apply in_app_iff; rewrite in_app_iff; tauto).
  assert (Ra : forall c', In c' (rule_cands ct sp m false 0 (rules1 a)) -> In c' (all a)) by (intros c' I'; apply in_app_iff; right; apply in_app_iff; left; exact I').
  pose proof (best_cand false true (rules1 a) 0) as At. pose proof (best_cand false false (rules1 a) 0) as Af.
  pose proof (best_cand false true (rules1 b) 0) as Bt. pose proof (best_cand false false (rules1 b) 0) as Bf.
  fold (bst true a) in At. fold (bst false a) in Af. fold (bst true b) in Bt. fold (bst false b) in Bf.
  assert (NT : bst true a = None) by (destruct (bst true a) as [[n d]|]; [|reflexivity]; destruct At as (c2 & I2 & _ & _ & E2 & E3 & _); exfalso; apply (U c2 (Ra c2 I2)); congruence).
  assert (NF : bst false a = None) by (destruct (bst false a) as [[n d]|]; [|reflexivity]; destruct Af as (c2 & I2 & _ & _ & E2 & E3 & _); exfalso; apply (U c2 (Ra c2 I2)); congruence).
  rewrite <- T, NT in Bt. rewrite <- (F NT), NF in Bf. destruct (c_important c) eqn:E2; [exact (Bt c I E E2)|exact (Bf c I E E2)].
Qed.
End Best.

Lemma rules_of_concat {ar : Arith} {sel} (sheets : list (list (rule sel))) : rules_of sheets = rules1 (concat sheets).
Proof. unfold rules_of, rules1. induction sheets as [|s r IH]; cbn; [reflexivity|]. rewrite flat_map_app, IH. reflexivity. Qed.

Lemma refactored_winners {ar : Arith} {sel element} ct (sp : sel -> N) (hits : element -> sel -> Prop) e (m : sel -> bool) ua au au' at_ :
  (forall s, m s = true -> hits e s) -> refactored ct sp hits (concat au) (concat au') ->
  (forall l, undeclared (candidates ct sp m ua au at_) l \/ exists c, wins (candidates ct sp m ua au at_) c /\ decl_longhand (c_decl c) = l) ->
  same_winners (candidates ct sp m ua au at_) (candidates ct sp m ua au' at_).
Proof.
  intros Hm R X l. pose proof (refactored_says ct sp m l hits e Hm _ _ R) as S.
  assert (Hu : forall c, In c (rule_cands ct sp m true 0 (rules_of ua)) -> c_ua c = true) by (intros c I; apply (rules_fields _ _ _ _ _ _ _ I)).
  assert (Ha : forall c, In c (match at_ with Some items => block_cands_from false None 0 0 (declared ct items) | None => [] end) -> c_ua c = false /\ c_spec c = None).
  { intros c I. destruct at_; [|contradiction]. destruct (block_fields _ _ _ _ _ _ I) as (? & ? & _). auto. }
  unfold candidates in *. rewrite !rules_of_concat in *.
  destruct (X l) as [U|(c & W & El)].
  - left. split; [exact U|]. exact (says_undeclared ct sp m l _ _ _ _ S U).
  - right. destruct (says_winner ct sp m l _ _ Hu Ha _ _ S c W El) as (c' & W' & E). exists c, c'. auto.
Qed.
