(** Taking away elements with display: contents that only inherit: the boxes (C98). *)
From Verif Require Import Base Len StyleModel StyleSpec InlineModel BlockModel TreeModel TreeSpec TreeFacts TreeProofs WrapSpec WrapInline WrapBlock WrapTree ContentsSpec.
Local Open Scope outcome_scope.

(** [more]: something follows the nodes *)
Fixpoint trav (more : bool) (h : snode -> bool -> builder -> outcome builder) (kids : list snode) (b : builder) : outcome builder :=
  match kids with
  | [] => Done b
  | n :: rest => run b <- h n (match rest with [] => more | _ => true end) b; trav more h rest b
  end.
Lemma trav_traverse h kids : forall b, trav false h kids b = traverse_with h kids b.
Proof.
  induction kids as [|n kids IH]; intros b; cbn [trav traverse_with]; [reflexivity|].
  destruct (h n _ b); cbn [obind]; [apply IH|reflexivity..].
Qed.
Lemma trav_app more h a c : forall b, trav more h (a ++ c) b =
  obind (trav (match c with [] => more | _ => true end) h a b) (trav more h c).
Proof.
  induction a as [|n a IH]; intros b; cbn [app trav obind]; [reflexivity|].
  replace (match a ++ c with [] => more | _ => true end) with (match a with [] => match c with [] => more | _ => true end | _ => true end) by (destruct a, c; reflexivity).
  destruct (h n _ b); cbn [obind]; [apply IH|reflexivity..].
Qed.
Lemma shown_trav st kids b : shown_last kids -> forall more more', trav more (handle_node st) kids b = trav more' (handle_node st) kids b.
Proof.
  intros (front & n & -> & H) more more'. rewrite !trav_app. destruct (trav true (handle_node st) front b) as [c| |]; cbn [obind trav]; try reflexivity.
  replace (handle_node st n more c) with (handle_node st n more' c); [reflexivity|].
  destruct n as [t| |[] s ks]; try reflexivity. cbn [handle_node]. destruct (sv s Ldisplay); [contradiction|reflexivity..].
Qed.
Scheme opened_mind := Induction for opened Sort Prop with opened_node_mind := Induction for opened_node Sort Prop.
Lemma opened_nils parent kids kids' : opened parent kids kids' -> nils kids kids'.
Proof.
  induction 1 as [|? n n' kids kids' Hn H IH|? st inner inner' kids kids' O (front & n & -> & _) I IHi K IHk]; [split; reflexivity|split; discriminate|].
  split; [discriminate|]. intros E. apply app_eq_nil in E as [E _]. apply IHi in E. destruct front; discriminate.
Qed.
Definition kids_open (parent : style) (kids kids' : list snode) : Prop := forall parent' b b' more, same_inherited parent parent' -> zbuilder b b' -> tails b b' ->
  zout (step b) (trav more (handle_node parent) kids b) (trav more (handle_node parent') kids' b').
Lemma after parent kids kids' parent' more b c c' : kids_open parent kids kids' -> same_inherited parent parent' -> step b c c' ->
  zout (step b) (trav more (handle_node parent) kids c) (trav more (handle_node parent') kids' c').
Proof.
  intros K S H. pose proof H as (C & T & _). eapply zout_impl; [|exact (K parent' c c' more S C T)]. intros d d' D. exact (step_trans _ _ _ _ _ H D).
Qed.
Lemma o_all parent kids kids' (H : opened parent kids kids') : kids_open parent kids kids'.
Proof.
  revert parent kids kids' H.
  apply (opened_mind (fun parent kids kids' _ => kids_open parent kids kids') (fun n n' _ => one_ok n n')).
  - intros parent parent' b b' more S B T. cbn. split; [exact B|split; [exact T|reflexivity]].
  - intros parent n n' kids kids' Hn IHn Hk IHk parent' b b' more S B T. cbn [trav].
    replace (match kids' with [] => more | _ => true end) with (match kids with [] => more | _ => true end)
      by (destruct (opened_nils _ _ _ Hk) as [X Y]; destruct kids, kids'; try reflexivity; [discriminate (X eq_refl)|discriminate (Y eq_refl)]).
    eapply zout_bind; [exact (IHn parent parent' _ b b' S B (or_introl T))|]. intros c c' C. exact (after _ _ _ _ _ _ _ _ IHk S C).
  - intros parent st inner inner' kids kids' [D Si] Sl Hi IHi Hk IHk parent' b b' more S B T. rewrite trav_app. cbn [trav handle_node]. rewrite D.
    rewrite <- trav_traverse, (shown_trav _ _ _ Sl false (match kids' with [] => more | _ => true end)).
    eapply zout_bind; [exact (IHi parent' b b' _ (inh_trans _ _ _ (inh_sym _ _ Si) S) B T)|]. intros c c' C. exact (after _ _ _ _ _ _ _ _ IHk S C).
  - intros n n' H. exact (z_same n n' H).
  - intros br st st' kids kids' Hs U IH p p' nx b b' _ B X. apply z_element; [exact Hs| | |exact B|exact X].
    + intros -> D. rewrite <- !trav_traverse. apply IH; [apply same_inh_of, Hs|exact B|]. destruct X as [X|(_ & o & i & X)]; [exact X|congruence].
    + intros c c' C P N1 N2. rewrite <- !trav_traverse. eapply zout_impl; [|apply IH; [apply same_inh_of, Hs|exact C|unfold tails; rewrite N1, N2; reflexivity]].
      intros d d' (D1 & _ & D3). split; assumption.
Qed.
Lemma o_construct_root st st' kids kids' : same_style st st' -> opened st kids kids' -> zout zbfc (construct_root st kids) (construct_root st' kids').
Proof.
  intros Hs U. unfold construct_root. rewrite <- (proj1 Hs Ldisplay), <- (proj1 Hs Lposition), <- (proj1 Hs Lfloat).
  assert (K : zout zbfc (construct_bfc st kids) (construct_bfc st' kids')).
  { unfold construct_bfc, construct_container, traverse. rewrite <- !trav_traverse. eapply (zout_bind zcf).
    - eapply zout_bind.
      + apply (o_all _ _ _ U st' (builder_new st) (builder_new st') false (same_inh_of _ _ Hs)); [apply z_builder_new, same_inh_of, Hs|reflexivity].
      + intros c c' (C & _). apply z_finish_container, C.
    - intros [c fl] [c' fl'] [C E]. cbn in *. subst. constructor. exact C. }
  assert (G : zout zbfc
    (obind (construct_bfc st kids) (fun c => if is_absolutely_positioned (sv st Lposition) then Done (BFC false (BlockLevelBoxes [BAbspos st c]))
      else if is_floating (sv st Lfloat) then Done (BFC true (BlockLevelBoxes [BFloat st c])) else Done (BFC false (BlockLevelBoxes [Indep st c]))))
    (obind (construct_bfc st' kids') (fun c => if is_absolutely_positioned (sv st Lposition) then Done (BFC false (BlockLevelBoxes [BAbspos st' c]))
      else if is_floating (sv st Lfloat) then Done (BFC true (BlockLevelBoxes [BFloat st' c])) else Done (BFC false (BlockLevelBoxes [Indep st' c]))))).
  { eapply zout_bind; [exact K|]. intros c c' C.
    destruct (is_absolutely_positioned _); [|destruct (is_floating _)]; cbn; do 2 constructor; (constructor; [constructor; assumption|constructor]). }
  destruct (sv st Ldisplay); [do 3 constructor|exact G|exact G].
Qed.
