(** Enlarging the lengths in the style sheets enlarges the computed styles (proofs for C87). *)
From Verif Require Import Base Len GeomModel StyleModel StyleSpec StyleCascade StyleWinner StyleParse StyleFacts PropStyle ScaleSpec.
From Verif Require Import GfxModel.
Local Open Scope len_scope.

Section Zoom.
Variable k : Len.
Lemma zv_px own v : px_of (k * own) (zoom_slength k v) = k * px_of own v.
Proof. destruct v; cbn; ring. Qed.
Lemma zv_lp own v : lp_map (px_of (k * own)) (lp_map (zoom_slength k) v) = zoom_lp k (lp_map (px_of own) v).
Proof. destruct v; cbn; [rewrite zv_px|]; reflexivity. Qed.
Lemma zv_lpa own v : lpa_map (px_of (k * own)) (lpa_map (zoom_slength k) v) = zoom_lpa k (lpa_map (px_of own) v).
Proof. destruct v; cbn; [rewrite zv_px|..]; reflexivity. Qed.
Lemma zv_lpn own v : lpn_map (px_of (k * own)) (lpn_map (zoom_slength k) v) = zoom_lpn k (lpn_map (px_of own) v).
Proof. destruct v; cbn; [rewrite zv_px|..]; reflexivity. Qed.
Lemma zv_va own v : va_map (px_of (k * own)) (va_map (zoom_slength k) v) = zoom_va k (va_map (px_of own) v).
Proof. destruct v; cbn; rewrite ?zv_px; reflexivity. Qed.
Lemma zv_computed P P' own l v : l <> Lfont_size -> sv P' Lcolor = sv P Lcolor ->
  computed P' (k * own) l (zoom_specified k l v) = zoom_value k l (computed P own l v).
Proof.
  intros N C. destruct l; cbn [computed zoom_specified zoom_value];
    first [contradiction | reflexivity | apply zv_lp | apply zv_lpa | apply zv_lpn | apply zv_va | idtac].
  destruct v; [reflexivity|exact C].
Qed.
Definition plain (l : longhand) : Prop :=
  match l with Lfont_size | Lborder_top_width | Lborder_right_width | Lborder_bottom_width | Lborder_left_width => False | _ => True end.
Lemma zv_initial l : plain l -> zoom_value k l (initial_value l) = initial_value l.
Proof.
  assert (Z : k * l0 = l0) by ring.
  destruct l; cbn; intros H; try contradiction; try reflexivity; rewrite Z; reflexivity.
Qed.

Section Element.
Context {sel sel' : Type}.
Variables (ct : token -> option color) (sp : sel -> N) (sp' : sel' -> N) (m : sel -> bool) (m' : sel' -> bool).
Variables (ua au : list (list (rule sel))) (ua' au' : list (list (rule sel'))) (at_ at_' : option (list item)) (p p' : option style) (s s' : style).
Hypothesis H : element_style ct sp m ua au at_ p s.
Hypothesis H' : element_style ct sp' m' ua' au' at_' p' s'.
Notation cs := (candidates ct sp m ua au at_).
Notation cs' := (candidates ct sp' m' ua' au' at_').
Hypothesis W : zoomed_winners k cs cs'.
Hypothesis HP : zoomed_parent k p p'.
Hypothesis HN : no_default_length cs p s.
Notation P := (parent_or_initial p).
Notation P' := (parent_or_initial p').

Lemma zv_parent l : plain l -> sv P' l = zoom_value k l (sv P l).
Proof.
  intros Hl. destruct p as [q|], p' as [q'|]; cbn in HP; try contradiction; cbn [parent_or_initial].
  - apply HP.
  - cbn [initial_style sv]. symmetry. apply zv_initial, Hl.
Qed.
Lemma undeclared_raw {se} (sp0 : se -> N) m0 u0 a0 t0 p0 s0 : element_style ct sp0 m0 u0 a0 t0 p0 s0 ->
  forall l, undeclared (candidates ct sp0 m0 u0 a0 t0) l -> sv s0 l = adjusted s0 l (default_value (parent_or_initial p0) l).
Proof.
  intros H0 l U. unfold default_value. destruct (in_dec longhand_eq_dec l css_inherited) as [I|I].
  - rewrite (inherits ct sp0 m0 u0 a0 t0 p0 s0 H0 l I U). destruct l; try reflexivity; exfalso; revert I; clear; cbn; intros I; decompose [or] I; try discriminate; assumption.
  - exact (C10_other_property_without_declaration _ ct sp0 m0 u0 a0 t0 p0 s0 H0 l I U).
Qed.
Lemma zv_font : sv s' Lfont_size = k * sv s Lfont_size.
Proof.
  destruct HN as [[(c & v & Wc & Ec)|[Np Nc]] _].
  - destruct (W Lfont_size) as [[U _]|(c1 & c2 & W1 & W2 & E & E1)].
    + exfalso. apply (U c (proj1 Wc)). rewrite Ec. reflexivity.
    + assert (c = c1). { apply (wins_unique _ c c1 Wc W1). rewrite Ec, E1. reflexivity. } subst c1.
      pose proof (C09_winner_takes_effect _ _ _ _ _ _ _ _ _ H c W1) as V. rewrite Ec in V, E. cbn in V.
      pose proof (C09_winner_takes_effect _ _ _ _ _ _ _ _ _ H' c2 W2) as V'. rewrite E in V'. cbn in V'. rewrite V, V'. reflexivity.
  - destruct p as [q|]; [|contradiction]. destruct p' as [q'|]; cbn in HP; [|contradiction].
    assert (Q : sv q' Lfont_size = k * sv q Lfont_size) by (apply (proj1 HP Lfont_size)).
    destruct (W Lfont_size) as [[U U']|(c1 & c2 & W1 & W2 & E & E1)].
    + rewrite (undeclared_raw _ _ _ _ _ _ _ H _ U), (undeclared_raw _ _ _ _ _ _ _ H' _ U'). exact Q.
    + pose proof (C09_winner_takes_effect _ _ _ _ _ _ _ _ _ H c1 W1) as V.
      pose proof (C09_winner_takes_effect _ _ _ _ _ _ _ _ _ H' c2 W2) as V'. rewrite E in V'.
      pose proof (Nc c1 W1) as N1. destruct (c_decl c1) as [l v|l w]; cbn [decl_longhand zoom_decl] in *; subst l; rewrite V, V'; cbn [adjusted decl_value].
      * cbn [computed zoom_specified]. cbn [parent_or_initial]. rewrite Q. apply zv_px.
      * destruct w; [exact Q|contradiction|]. exact Q.
Qed.
(** the value before the final adjustments *)
Lemma zv_raw l : l <> Lfont_size -> exists v v', sv s l = adjusted s l v /\ sv s' l = adjusted s' l v' /\
  ((governing_style s l = None \/ exists st, governing_style s l = Some st /\ st <> LSNone) -> v' = zoom_value k l v).
Proof.
  intros Nf. pose proof zv_font as F.
  assert (G : (governing_style s l = None \/ exists st, governing_style s l = Some st /\ st <> LSNone) ->
    plain l \/ exists c v, wins cs c /\ c_decl c = DVal l v).
  { intros [G|(st & G & Ns)]; [|right; exact (proj2 HN l st G Ns)]. left. destruct l; cbn in *; try discriminate; try contradiction; exact I. }
  destruct (W l) as [[U U']|(c1 & c2 & W1 & W2 & E & E1)].
  - exists (default_value P l), (default_value P' l). split; [exact (undeclared_raw _ _ _ _ _ _ _ H _ U)|]. split; [exact (undeclared_raw _ _ _ _ _ _ _ H' _ U')|].
    intros X. destruct (G X) as [Pl|(c & v & Wc & Ec)]; [|exfalso; apply (U c (proj1 Wc)); rewrite Ec; reflexivity].
    unfold default_value. destruct (in_dec _ _ _); [exact (zv_parent l Pl)|symmetry; apply zv_initial, Pl].
  - pose proof (C09_winner_takes_effect _ _ _ _ _ _ _ _ _ H c1 W1) as V.
    pose proof (C09_winner_takes_effect _ _ _ _ _ _ _ _ _ H' c2 W2) as V'. rewrite E in V'.
    assert (GG : (governing_style s l = None \/ exists st, governing_style s l = Some st /\ st <> LSNone) -> plain l \/ exists v, c_decl c1 = DVal l v).
    { intros X. destruct (G X) as [Pl|(c & v & Wc & Ec)]; [auto|]. right. exists v. rewrite <- Ec. f_equal. apply (wins_unique _ c1 c W1 Wc). rewrite E1, Ec. reflexivity. }
    destruct (c_decl c1) as [l1 v|l1 w]; cbn [decl_longhand zoom_decl] in *; subst l1; eexists _, _; (split; [exact V|]; split; [exact V'|]); intros X; cbn [decl_value].
    + rewrite F. apply zv_computed; [exact Nf|]. exact (zv_parent Lcolor I).
    + destruct (GG X) as [Pl|(v & Ev)]; [|discriminate Ev].
      destruct w; [exact (zv_parent l Pl)|symmetry; apply zv_initial, Pl|].
      unfold default_value. destruct (in_dec _ _ _); [exact (zv_parent l Pl)|symmetry; apply zv_initial, Pl].
Qed.
Lemma zv_plain l : plain l -> l <> Ldisplay -> sv s' l = zoom_value k l (sv s l).
Proof.
  intros Pl Nd. destruct (zv_raw l) as (v & v' & V & V' & E); [intros ->; exact Pl|].
  rewrite V, V', E by (left; destruct l; cbn in *; try contradiction; reflexivity). destruct l; try contradiction; reflexivity.
Qed.
Lemma zv_width l : governing_style s l <> None -> sv s' l = zoom_value k l (sv s l).
Proof.
  intros Gl. assert (Z : k * l0 = l0) by ring.
  destruct (zv_raw l) as (v & v' & V & V' & E); [intros ->; apply Gl; reflexivity|]. rewrite V, V'.
  destruct l; try (exfalso; apply Gl; reflexivity); cbn [adjusted governing_style zoom_value] in *.
  1: rewrite (zv_plain Lborder_top_style I) by discriminate. 2: rewrite (zv_plain Lborder_right_style I) by discriminate.
  3: rewrite (zv_plain Lborder_bottom_style I) by discriminate. 4: rewrite (zv_plain Lborder_left_style I) by discriminate.
  all: cbn [zoom_value].
  1: destruct (sv s Lborder_top_style) eqn:X. 5: destruct (sv s Lborder_right_style) eqn:X. 9: destruct (sv s Lborder_bottom_style) eqn:X.
  13: destruct (sv s Lborder_left_style) eqn:X.
  all: cbn [width_if zoom_lp]; first [rewrite Z; reflexivity | apply E; right; eexists; split; [reflexivity|discriminate]].
Qed.
Lemma zv_style : zoomed_style k s s'.
Proof.
  split.
  - intros l. destruct (longhand_eq_dec l Lfont_size) as [->|Nf]; [exact zv_font|].
    destruct (longhand_eq_dec l Ldisplay) as [->|Nd].
    + destruct (zv_raw Ldisplay Nf) as (v & v' & V & V' & E). rewrite V, V', (E (or_introl eq_refl)). cbn [adjusted zoom_value].
      assert (O : out_of_flow s <-> out_of_flow s').
      { unfold out_of_flow. rewrite (zv_plain Lposition I), (zv_plain Lfloat I) by discriminate. reflexivity. }
      destruct (out_of_flow_dec s), (out_of_flow_dec s'); tauto || reflexivity.
    + assert (D : plain l \/ governing_style s l <> None) by (destruct l; cbn; try (left; exact I); try contradiction; right; discriminate).
      destruct D as [Pl|G]; [exact (zv_plain l Pl Nd)|exact (zv_width l G)].
  - destruct (C13_specified_display_is_remembered _ _ _ _ _ _ _ _ _ H) as [D1 D2].
    destruct (C13_specified_display_is_remembered _ _ _ _ _ _ _ _ _ H') as [D1' D2'].
    destruct (W Ldisplay) as [[U U']|(c1 & c2 & W1 & W2 & E & E1)]; [rewrite (D2 U), (D2' U'); reflexivity|].
    pose proof (D1 c1) as A. pose proof (D1' c2) as B. rewrite E in B.
    destruct (c_decl c1) as [l1 v|l1 w]; cbn [decl_longhand zoom_decl] in *; subst l1; cbn [declared_display zoom_specified] in *.
    + rewrite (A v W1 eq_refl), (B v W2 eq_refl). reflexivity.
    + destruct w; rewrite (A _ W1 eq_refl), (B _ W2 eq_refl); try reflexivity. exact (zv_parent Ldisplay I).
Qed.
End Element.
End Zoom.
