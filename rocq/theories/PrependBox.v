(** Putting something in front of a document: the boxes (C94). *)
From Verif Require Import StyleModel BlockModel BlockSpec TreeModel TreeSpec TreeFacts TreeProofs TreeInv AppendSpec AppendBox PrependSpec.
Local Open Scope outcome_scope.

(** The box tree afterwards.  [h]: the containing block has automatic height. *)
Inductive later : bool -> bcontainer -> bcontainer -> Prop :=
| P_more h pre l : later h (BlockLevelBoxes l) (BlockLevelBoxes (pre ++ l))
| P_inline st l pre : later true (InlineFC st l) (BlockLevelBoxes (pre ++ [SameFC (anonymous_inheriting_from (Some st)) (InlineFC st l)]))
| P_same h pre st c c' l : auto_height st = true -> later true c c' ->
    later h (BlockLevelBoxes (SameFC st c :: l)) (BlockLevelBoxes (pre ++ SameFC st c' :: l))
| P_indep h pre st fl fl' c c' l : auto_height st = true -> later true c c' ->
    later h (BlockLevelBoxes (Indep st (BFC fl c) :: l)) (BlockLevelBoxes (pre ++ Indep st (BFC fl' c') :: l)).

(** the same builder behind other boxes *)
Definition behind (p p' : list inter) (b b' : builder) : Prop :=
  b_style b' = b_style b /\ b_inlines b' = b_inlines b /\ b_stack b' = b_stack b /\
  exists ms, b_boxes b = p ++ ms /\ b_boxes b' = p' ++ ms.
Lemma behind_current p p' b b' : behind p p' b b' -> current b' = current b.
Proof. intros (_ & I & S & _). unfold current. rewrite S, I. reflexivity. Qed.
Lemma behind_set p p' b b' l : behind p p' b b' -> behind p p' (set_current b l) (set_current b' l).
Proof. intros (A & I & S & M). unfold set_current. rewrite S. destruct (b_stack b); repeat split; assumption. Qed.
Lemma behind_floats p p' b b' f f' : behind p p' b b' ->
  behind p p' (Builder (b_style b) (b_boxes b) (b_inlines b) (b_stack b) f) (Builder (b_style b') (b_boxes b') (b_inlines b') (b_stack b') f').
Proof. intros H. exact H. Qed.
Lemma behind_push p p' b b' m : behind p p' b b' -> behind p p' (push_box b m) (push_box b' m).
Proof. intros (A & I & S & ms & M & M'). repeat split; try assumption. exists (ms ++ [m]). unfold push_box. cbn. rewrite M, M', !app_assoc. split; reflexivity. Qed.
Lemma behind_ongoing p p' b b' : behind p p' b b' -> has_ongoing_ifc b' = has_ongoing_ifc b.
Proof. intros (_ & I & S & _). unfold has_ongoing_ifc. rewrite I, S. reflexivity. Qed.
Definition keeps_behind (h : builder -> outcome builder) : Prop :=
  forall p p' b b' b1, behind p p' b b' -> h b = Done b1 -> exists b1', h b' = Done b1' /\ behind p p' b1 b1'.
Lemma behind_text t ps : keeps_behind (handle_text t ps).
Proof.
  intros p p' b b' b1 B H. pose proof (handle_text_done _ _ _ _ H) as W. rewrite (handle_text_spec _ _ b W) in H. rewrite (handle_text_spec _ _ b' W). injection H as <-.
  eexists. split; [reflexivity|]. rewrite (behind_current _ _ _ _ B). unfold add_text. destruct (shown _ _ _); [exact B|].
  rewrite (behind_current _ _ _ _ B). apply behind_set, B.
Qed.
Lemma behind_traverse (h : snode -> bool -> builder -> outcome builder) kids :
  Forall (fun n => forall hn, keeps_behind (h n hn)) kids -> keeps_behind (traverse_with h kids).
Proof.
  induction 1 as [|n kids Hn _ IH]; intros p p' b b' b1 B H; cbn [traverse_with] in *; [injection H as <-; exists b'; split; [reflexivity|exact B]|].
  apply obind_done in H as (b2 & H1 & H2). destruct (Hn _ _ _ _ _ _ B H1) as (b2' & E & B2). rewrite E. exact (IH _ _ _ _ _ B2 H2).
Qed.
Lemma behind_node n : forall ps hn, keeps_behind (handle_node ps n hn).
Proof.
  induction n as [t| |br st kids IH] using snode_ind'; intros ps hn p p' b b' b1 B H.
  - exact (behind_text _ _ p p' b b' b1 B H).
  - injection H as <-; exists b'; split; [reflexivity|exact B].
  - assert (T : keeps_behind (traverse_with (handle_node st) kids)).
    { apply behind_traverse. revert IH. apply Forall_impl. intros n IH hn0. apply IH. }
    cbn [handle_node] in *. destruct br; [exact (behind_text _ _ p p' b b' b1 B H)|].
    destruct (sv st Ldisplay) as [| |[] i].
    + destruct hn; [injection H as <-; exists b'; split; [reflexivity|exact B]|discriminate].
    + exact (T _ _ _ _ _ B H).
    + destruct i; [|discriminate].
      apply with_slot_done, obind_done in H as (b2 & H1 & H2).
      assert (B0 : behind p p' (push_inline st b) (push_inline st b')).
      { destruct B as (A & I & S & M). unfold push_inline. repeat split; cbn; try assumption. rewrite S. reflexivity. }
      destruct (T _ _ _ _ _ B0 H1) as (b2' & -> & B2). cbn [obind].
      unfold pop_inline in *. destruct B2 as (A & I & S & M). rewrite S. destruct (b_stack b2) as [|o s]; [discriminate|]. injection H2 as <-.
      eexists. split; [reflexivity|].
      assert (B3 : behind p p' (Builder (b_style b2) (b_boxes b2) (b_inlines b2) s (b_floats b2)) (Builder (b_style b2') (b_boxes b2') (b_inlines b2') s (b_floats b2')))
        by (repeat split; assumption).
      rewrite (behind_current _ _ _ _ B3). apply behind_set, B3.
    + destruct (is_absolutely_positioned (sv st Lposition)).
      { unfold handle_abspos in *. rewrite (behind_ongoing _ _ _ _ B). destruct (has_ongoing_ifc b).
        - apply with_slot_done, obind_done in H as (c & E & H). rewrite E. injection H as <-. cbn. eexists. split; [reflexivity|].
          rewrite (behind_current _ _ _ _ B). apply behind_set, B.
        - injection H as <-. eexists. split; [reflexivity|]. apply behind_push, B. }
      destruct (is_floating (sv st Lfloat)).
      { unfold handle_float in *. cbv zeta in *. pose proof (behind_floats _ _ _ _ true true B) as B2. rewrite (behind_ongoing _ _ _ _ B2). destruct (has_ongoing_ifc _) in *.
        - apply with_slot_done, obind_done in H as (c & E & H). rewrite E. injection H as <-. cbn. eexists. split; [reflexivity|].
          rewrite (behind_current _ _ _ _ B2). apply behind_set, B2.
        - injection H as <-. eexists. split; [reflexivity|]. apply behind_push, B2. }
      apply with_slot_done in H. unfold handle_block in *. apply obind_done in H as (b2 & H1 & H2). injection H2 as <-.
      destruct B as (A & I & S & ms & M & M').
      assert (K : exists b2', end_ifc (fragment_inlines b') = Done b2' /\ behind p p' b2 b2').
      { unfold end_ifc, fragment_inlines in *. cbn in *. rewrite S, I, A. destruct (b_stack b); [|discriminate]. cbn in *. rewrite app_nil_r in *.
        destruct (b_inlines b) as [|x l]; injection H1 as <-; (eexists; split; [reflexivity|]).
        - repeat split; try assumption; exists ms; split; assumption.
        - repeat split; cbn; try assumption. exists (ms ++ [MAnon (anonymous_inheriting_from (Some (b_style b))) (b_style b) (x :: l)]). rewrite M, M', !app_assoc. split; reflexivity. }
      destruct K as (b2' & -> & K). cbn. eexists. split; [reflexivity|]. apply behind_push, K.
Qed.
Lemma behind_kids st kids : keeps_behind (traverse_with (handle_node st) kids).
Proof. apply behind_traverse, Forall_forall. intros n _ hn. apply behind_node. Qed.

(** finishing *)
Lemma finish_later h p' b b' c fl c' fl' : behind [] p' b b' -> b_stack b = [] -> (p' <> [] \/ b_boxes b <> []) ->
  (b_boxes b = [] -> h = true) ->
  finish_container b = Done (c, fl) -> finish_container b' = Done (c', fl') -> later h c c'.
Proof.
  intros (A & I & S & ms & M & M') Hs Hp Hh H H'. cbn [app] in M. subst ms. rewrite Hs in S.
  destruct (finish_blocks _ _ _ S H') as [(x & l & _ & N & _)|(xs' & f' & F' & ->)].
  { rewrite N in M'. destruct p'; [|discriminate]. destruct Hp as [Hp|Hp]; [contradiction|]. destruct (b_boxes b); [contradiction|discriminate]. }
  unfold flushed in F'. rewrite I, M', A in F'.
  destruct (finish_blocks _ _ _ Hs H) as [(x & l & Ei & N & ->)|(xs & f & F & ->)].
  - rewrite N, Ei, app_nil_r in F'. destruct (finish_all_app _ _ _ _ _ F') as (xs1 & xs2 & f1 & G1 & G2 & ->).
    cbn [finish_all finish_one obind] in G2. injection G2 as <- _. rewrite (Hh N), Ei. apply P_inline.
  - unfold flushed in F. rewrite <- app_assoc in F'. destruct (finish_all_app _ _ _ _ _ F') as (xs1 & xs2 & f1 & G1 & G2 & ->).
    rewrite (finish_all_flag _ _ _ _ _ _ _ F G2). apply P_more.
Qed.

Lemma boxless_front st front n rest : Forall makes_no_box front -> forall b,
  traverse_with (handle_node st) (front ++ n :: rest) b = traverse_with (handle_node st) (n :: rest) b.
Proof.
  induction 1 as [|x front Hx _ IH]; intros b; [reflexivity|].
  change (obind (handle_node st x (match front ++ n :: rest with [] => false | _ => true end) b)
            (traverse_with (handle_node st) (front ++ n :: rest)) = traverse_with (handle_node st) (n :: rest) b).
  replace (match front ++ n :: rest with [] => false | _ => true end) with true by (destruct front; reflexivity).
  destruct x as [t| |br st0 ks]; [destruct Hx|apply IH|]. destruct Hx as [-> D]. cbn [handle_node]. rewrite D. apply IH.
Qed.
Lemma one_block st st' ks hn b : in_flow_block st' -> b_stack b = [] ->
  exists m, handle_node st (SElem false st' ks) hn b = Done (Builder (b_style b) (b_boxes b ++ flushed b ++ [m]) [] [] (b_floats b)) /\
    m = match sv st' Ldisplay with
        | DispBox _ IFlow => MDeferred st' (construct_container st' ks)
        | _ => MIndep st' (run (c, fl) <- construct_container st' ks; Done (BFC fl c))
        end.
Proof.
  intros ((i & D) & A & F) Hs. cbn [handle_node]. rewrite D, A, F. unfold handle_block, end_ifc, fragment_inlines. cbn. rewrite Hs. cbn. rewrite app_nil_r.
  unfold flushed. eexists. split; [|reflexivity]. destruct (b_inlines b); cbn; unfold push_box; cbn; rewrite <- ?app_assoc; destruct i; reflexivity.
Qed.
Lemma stack_after st kids n rest b1 c : traverse st (kids ++ n :: rest) (builder_new st) = Done c ->
  traverse_with (fun n hn => handle_node st n true) kids (builder_new st) = Done b1 -> block_element n -> b_stack b1 = [].
Proof.
  intros H H1 B. unfold traverse in H. apply traverse_split in H as (b2 & E & H). assert (b2 = b1) as -> by congruence.
  cbn [traverse_with] in H. apply obind_done in H as (b3 & H3 & _). destruct n as [t| |br st' ks]; try contradiction. destruct B as [-> B].
  exact (proj1 (block_handled _ _ _ _ _ _ B H3)).
Qed.
Lemma blocks_kept st kids b b1 : Exists block_element kids -> traverse_with (handle_node st) kids b = Done b1 -> b_boxes b1 <> [].
Proof.
  intros E H. apply Exists_exists in E as (n & Hn & B). apply in_split in Hn as (k1 & k2 & ->).
  apply traverse_split in H as (b2 & _ & H). cbn [traverse_with] in H. apply obind_done in H as (b3 & H1 & H2).
  destruct n as [t| |br st' ks]; try contradiction. destruct B as [-> B].
  destruct (block_handled _ _ _ _ _ _ B H1) as (_ & m & -> & _). apply trav_grows in H2 as [ms E]. cbn [b_boxes] in E. rewrite E.
  destruct (b_boxes b2), (flushed b2); discriminate.
Qed.
Lemma true_style st kids : forall b b1, traverse_with (fun n hn => handle_node st n true) kids b = Done b1 -> b_style b1 = b_style b.
Proof.
  induction kids as [|n kids IH]; intros b b1 H; cbn [traverse_with] in H; [injection H as <-; reflexivity|].
  apply obind_done in H as (b2 & H1 & H2). rewrite (IH _ _ H2). exact (proj1 (handle_frame _ _ _ _ _ H1)).
Qed.

Theorem later_boxes st kids kids' : prepended st kids kids' -> forall c fl c' fl',
  construct_container st kids = Done (c, fl) -> construct_container st kids' = Done (c', fl') -> later (auto_height st) c c'.
Proof.
  induction 1 as [st more n kids B Al | st front more st' ks ks' kids Fr B Ah P IH]; intros c fl c' fl' H H';
    unfold construct_container in H, H'; apply obind_done in H as (b & T & H); apply obind_done in H' as (b' & T' & H');
    pose proof (traverse_stack _ _ _ T) as Hs; pose proof (traverse_stack _ _ _ T') as Hs'.
  - assert (Hh : b_boxes b = [] -> auto_height st = true).
    { intros N. destruct Al as [Al|Al]; [destruct (blocks_kept _ _ _ _ Al T N)|]. unfold auto_height. rewrite Al. reflexivity. }
    unfold traverse in T'. pose proof T' as T0. apply traverse_split in T' as (b1 & E1 & E2).
    pose proof (true_style _ _ _ _ E1) as S1.
    destruct B as [(more' & x & -> & B)|B].
    + assert (K : b_inlines b1 = [] /\ b_stack b1 = [] /\ b_boxes b1 <> []).
      { clear - E1 B. revert E1. generalize (builder_new st). induction more' as [|y more' IH]; intros b0 E; cbn [app traverse_with] in E.
        - apply obind_done in E as (b2 & E & E2). injection E2 as ->. destruct x as [t| |br st' ks]; try contradiction. destruct B as [-> B].
          destruct (block_handled _ _ _ _ _ _ B E) as (_ & m & -> & _). repeat split. cbn. destruct (b_boxes b0), (flushed b0); discriminate.
        - apply obind_done in E as (b2 & _ & E2). exact (IH _ E2). }
      destruct K as (K1 & K2 & K3).
      assert (Bh : behind [] (b_boxes b1) (builder_new st) b1) by (repeat split; try assumption; exists []; split; [reflexivity|rewrite app_nil_r; reflexivity]).
      destruct (behind_kids st (n :: kids) _ _ _ _ _ Bh T) as (b2 & E & Bh2). assert (b2 = b') as -> by congruence.
      exact (finish_later _ _ _ _ _ _ _ _ Bh2 Hs (or_introl K3) Hh H H').
    + pose proof (stack_after _ _ _ _ _ _ T0 E1 B) as Hs1. destruct n as [t| |br st' ks]; try contradiction. destruct B as [-> B].
      unfold traverse in T. cbn [traverse_with] in T, E2.
      destruct (one_block st st' ks (match kids with [] => false | _ => true end) (builder_new st) B eq_refl) as (m & X & Em).
      destruct (one_block st st' ks (match kids with [] => false | _ => true end) b1 B Hs1) as (m' & X' & Em'). rewrite <- Em in Em'. subst m'.
      rewrite X in T. rewrite X' in E2. cbn [obind flushed builder_new b_inlines b_style b_boxes b_floats app] in T, E2.
      match type of T with traverse_with _ _ ?b0 = _ => match type of E2 with traverse_with _ _ ?b0' = _ =>
        assert (Bh : behind [] (b_boxes b1 ++ flushed b1) b0 b0') by (repeat split; cbn; [exact S1|exists [m]; split; [reflexivity|rewrite app_assoc; reflexivity]]) end end.
      destruct (behind_kids st kids _ _ _ _ _ Bh T) as (b2 & E & Bh2). assert (b2 = b') as -> by congruence.
      apply trav_grows in T as [ms Eb]. cbn [b_boxes] in Eb.
      assert (Nb : b_boxes b <> []) by (rewrite Eb; discriminate).
      exact (finish_later _ _ _ _ _ _ _ _ Bh2 Hs (or_intror Nb) Hh H H').
  - unfold traverse in T, T'. rewrite boxless_front in T by exact Fr. pose proof T' as T0. apply traverse_split in T' as (b1 & E1 & E2).
    pose proof (true_style _ _ _ _ E1) as S1.
    pose proof (stack_after _ _ _ _ _ _ T0 E1 (conj eq_refl B)) as Hs1.
    cbn [traverse_with] in T, E2.
    destruct (one_block st st' ks (match kids with [] => false | _ => true end) (builder_new st) B eq_refl) as (m & X & Em).
    destruct (one_block st st' ks' (match kids with [] => false | _ => true end) b1 B Hs1) as (m' & X' & Em').
    rewrite X in T. rewrite X' in E2. cbn [obind flushed builder_new b_inlines b_style b_boxes b_floats app] in T, E2.
    match type of T with traverse_with _ _ ?b0 = _ => match type of E2 with traverse_with _ _ ?b0' = _ =>
      assert (Bh : behind [m] (b_boxes b1 ++ flushed b1 ++ [m']) b0 b0') by (repeat split; cbn; [exact S1|exists []; rewrite !app_nil_r; split; reflexivity]) end end.
    destruct (behind_kids st kids _ _ _ _ _ Bh T) as (b2 & E & (A & I & S & ms & M & M')). assert (b2 = b') as -> by congruence.
    destruct (finish_blocks _ _ _ Hs H) as [(x & l & Ei & N & _)|(xs & f & F & ->)]; [rewrite M in N; discriminate|].
    destruct (finish_blocks _ _ _ Hs' H') as [(x & l & Ei & N & _)|(xs' & f' & F' & ->)].
    { rewrite M' in N. destruct (b_boxes b1), (flushed b1); discriminate. }
    unfold flushed in F, F'. rewrite M in F. rewrite I, A, M', <- !app_assoc in F'.
    rewrite app_assoc in F'. destruct (finish_all_app _ _ _ _ _ F') as (ys1 & ys2 & g1 & K1 & K2 & ->).
    cbn [app finish_all] in F, K2.
    apply obind_done in F as ([x fx] & X1 & F). apply obind_done in F as ([zs fz] & F & Y). injection Y as <- _.
    apply obind_done in K2 as ([x' fx'] & X1' & K2). apply obind_done in K2 as ([zs' fz'] & K2 & Y). injection Y as <- _.
    rewrite (finish_all_flag _ _ _ _ _ _ _ F K2).
    assert (Ha : auto_height st' = true) by (unfold auto_height; rewrite Ah; reflexivity).
    destruct B as ((i & D) & _). rewrite D in Em, Em'. subst m m'. destruct i; cbn [finish_one] in X1, X1'.
    + apply with_slot_done, obind_done in X1 as ([d fd] & Xd & X1). injection X1 as <- _.
      apply with_slot_done, obind_done in X1' as ([d' fd'] & Xd' & X1'). injection X1' as <- _.
      apply P_same; [exact Ha|]. rewrite <- Ha. exact (IH _ _ _ _ Xd Xd').
    + apply with_slot_done, obind_done in X1 as (d0 & Xd & X1). injection X1 as <- _. apply obind_done in Xd as ([d fd] & Xd & X1). injection X1 as <-.
      apply with_slot_done, obind_done in X1' as (d0' & Xd' & X1'). injection X1' as <- _. apply obind_done in Xd' as ([d' fd'] & Xd' & X1'). injection X1' as <-.
      apply P_indep; [exact Ha|]. rewrite <- Ha. exact (IH _ _ _ _ Xd Xd').
Qed.
