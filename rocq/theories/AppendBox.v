(** Appending to a document: the boxes (C88). *)
From Verif Require Import StyleModel BlockModel BlockSpec TreeModel TreeSpec TreeFacts TreeProofs TreeInv AppendSpec.
Local Open Scope outcome_scope.

Section Any.
Context {ar : Arith}.

Definition auto_height (st : style) : bool := match sv st Lheight with LPAAuto => true | _ => false end.
(** The box tree after appending.  [h]: the containing block has automatic height. *)
Inductive longer (allow : Prop) : bool -> bcontainer -> bcontainer -> Prop :=
| L_more h l more : longer allow h (BlockLevelBoxes l) (BlockLevelBoxes (l ++ more))
| L_inline st l more : allow ->
    longer allow true (InlineFC st l) (BlockLevelBoxes (SameFC (anonymous_inheriting_from (Some st)) (InlineFC st l) :: more))
| L_same h l st c c' more : longer allow (auto_height st) c c' ->
    longer allow h (BlockLevelBoxes (l ++ [SameFC st c])) (BlockLevelBoxes (l ++ SameFC st c' :: more))
| L_indep h l st fl fl' c c' more : longer allow (auto_height st) c c' ->
    longer allow h (BlockLevelBoxes (l ++ [Indep st (BFC fl c)])) (BlockLevelBoxes (l ++ Indep st (BFC fl' c') :: more)).

(** No absolutely positioned boxes *)
Fixpoint af_blb (b : blb) : Prop :=
  match b with SameFC _ c => af_container c | BAbspos _ _ => False | BFloat _ _ => True | Indep _ c => af_bfc c end
with af_container (c : bcontainer) : Prop :=
  match c with
  | BlockLevelBoxes l => fold_right (fun x Q => af_blb x /\ Q) True l
  | InlineFC _ l => fold_right (fun x Q => ilb_every (fun _ _ => False) x /\ Q) True l
  end
with af_bfc (c : bfc) : Prop := match c with BFC _ c' => af_container c' end.

Lemma af_built st kids c fl : Forall no_absolute kids -> construct_container st kids = Done (c, fl) -> af_container c.
Proof.
  intros S H.
  refine (proj2 (container_keeps (fun st => is_absolutely_positioned (sv st Lposition) = false) (ilb_every (fun _ _ => False)) af_blb
           (fun c fl => fl = container_has_float c /\ af_container c) _ _ _ _ _ _ _ _ _ _ _ _ st kids c fl S H)).
  - intros; exact I.
  - intros. apply ilb_every_eq. assumption.
  - intros; congruence.
  - intros; exact I.
  - intros st0 ps l _ Hl. apply fold_forall. exact Hl.
  - intros st0 c0 fl0 _ [A B]. exact B.
  - intros st0 c0 fl0 _ [A B]. exact B.
  - intros; congruence.
  - intros; exact I.
  - intros st0 l _ Hl. split; [reflexivity|]. apply fold_forall. exact Hl.
  - intros l Hl. split; [reflexivity|]. apply fold_forall. exact Hl.
  - intros c0 fl0 [A _]. exact A.
Qed.

(* ------------------------------------------------------------------ *)
(** * Handling more nodes *)

Lemma handle_next ps n b b' : handle_node ps n false b = Done b' -> forall hn, handle_node ps n hn b = Done b'.
Proof.
  intros H hn. destruct n as [t| |br st kids]; cbn [handle_node] in *; try exact H. destruct br; [exact H|].
  destruct (sv st Ldisplay) as [| |o i]; [discriminate|exact H..].
Qed.
Lemma traverse_app st kids : forall b b1 n rest, traverse_with (handle_node st) kids b = Done b1 ->
  traverse_with (handle_node st) (kids ++ n :: rest) b = traverse_with (handle_node st) (n :: rest) b1.
Proof.
  induction kids as [|k kids IH]; intros b b1 n rest H; [injection H as <-; reflexivity|].
  cbn [traverse_with] in H. apply obind_done in H as (b2 & H1 & H2).
  change (obind (handle_node st k (match kids ++ n :: rest with [] => false | _ => true end) b)
            (traverse_with (handle_node st) (kids ++ n :: rest)) = traverse_with (handle_node st) (n :: rest) b1).
  replace (handle_node st k (match kids ++ n :: rest with [] => false | _ => true end) b) with (@Done builder b2).
  - cbn [obind]. apply IH. exact H2.
  - symmetry. destruct kids as [|k2 kids]; [apply handle_next; exact H1|exact H1].
Qed.
Lemma traverse_split st kids : forall b b' n rest, traverse_with (handle_node st) (kids ++ n :: rest) b = Done b' ->
  exists b1, traverse_with (fun n hn => handle_node st n true) kids b = Done b1 /\ traverse_with (handle_node st) (n :: rest) b1 = Done b'.
Proof.
  induction kids as [|k kids IH]; intros b b' n rest H; [exists b; split; [reflexivity|exact H]|].
  change (obind (handle_node st k (match kids ++ n :: rest with [] => false | _ => true end) b)
            (traverse_with (handle_node st) (kids ++ n :: rest)) = Done b') in H.
  replace (match kids ++ n :: rest with [] => false | _ => true end) with true in H by (destruct kids; reflexivity).
  apply obind_done in H as (b2 & H1 & H2). destruct (IH _ _ _ _ H2) as (b1 & E1 & E2). exists b1.
  cbn [traverse_with]. rewrite H1. split; [exact E1|exact E2].
Qed.

(** boxes only come after those there are *)
Definition grows (b b' : builder) : Prop := exists ms, b_boxes b' = b_boxes b ++ ms.
Lemma grows_refl b : grows b b. Proof. exists []. rewrite app_nil_r. reflexivity. Qed.
Lemma grows_trans a b c : grows a b -> grows b c -> grows a c.
Proof. intros [x E] [y F]. exists (x ++ y). rewrite F, E, app_assoc. reflexivity. Qed.
Lemma grows_same b b' : b_boxes b' = b_boxes b -> grows b b'.
Proof. intros E. exists []. rewrite app_nil_r. exact E. Qed.
Lemma boxes_set_current b l : b_boxes (set_current b l) = b_boxes b.
Proof. unfold set_current. destruct (b_stack b); reflexivity. Qed.
Lemma boxes_text t ps b b' : handle_text t ps b = Done b' -> grows b b'.
Proof.
  intros H. pose proof (handle_text_done _ _ _ _ H) as W. rewrite (handle_text_spec _ _ _ W) in H. injection H as <-.
  unfold add_text. destruct (shown _ _ _); [apply grows_refl|]. apply grows_same, boxes_set_current.
Qed.
Lemma traverse_grows (h : snode -> bool -> builder -> outcome builder) kids :
  Forall (fun n => forall hn b b', h n hn b = Done b' -> grows b b') kids ->
  forall b b', traverse_with h kids b = Done b' -> grows b b'.
Proof.
  intros F. induction F as [|n kids Hn F IH]; cbn; intros b b' H; [injection H as <-; apply grows_refl|].
  apply obind_done in H as (b1 & H1 & H2). exact (grows_trans _ _ _ (Hn _ _ _ H1) (IH _ _ H2)).
Qed.
Lemma handle_grows n : forall ps hn b b', handle_node ps n hn b = Done b' -> grows b b'.
Proof.
  induction n as [t| |br st kids IH] using snode_ind'; intros ps hn b b' H.
  - exact (boxes_text _ _ _ _ H).
  - injection H as <-. apply grows_refl.
  - assert (T : forall b b', traverse_with (handle_node st) kids b = Done b' -> grows b b').
    { apply traverse_grows. revert IH. apply Forall_impl. intros n IH hn0 b0 b0'. apply IH. }
    cbn [handle_node] in H. destruct br; [exact (boxes_text _ _ _ _ H)|].
    destruct (sv st Ldisplay) as [| |[] i].
    + destruct hn; [injection H as <-; apply grows_refl|discriminate].
    + exact (T _ _ H).
    + destruct i; [|discriminate].
      apply with_slot_done, obind_done in H as (b1 & H1 & H2). apply T in H1 as [ms E]. exists ms.
      unfold pop_inline in H2. destruct (b_stack b1); [discriminate|]. injection H2 as <-. rewrite boxes_set_current. exact E.
    + destruct (is_absolutely_positioned (sv st Lposition)).
      { unfold handle_abspos in H. destruct (has_ongoing_ifc b).
        - apply with_slot_done, obind_done in H as (c & _ & H). injection H as <-. apply grows_same, boxes_set_current.
        - injection H as <-. eexists. reflexivity. }
      destruct (is_floating (sv st Lfloat)).
      { unfold handle_float in H. cbv zeta in H. destruct (has_ongoing_ifc _) in H.
        - apply with_slot_done, obind_done in H as (c & _ & H). injection H as <-. apply grows_same. rewrite boxes_set_current. reflexivity.
        - injection H as <-. eexists. reflexivity. }
      apply with_slot_done, handle_block_done in H as [Hs ->]. eexists. reflexivity.
Qed.
Lemma trav_grows st kids b b' : traverse_with (handle_node st) kids b = Done b' -> grows b b'.
Proof. apply traverse_grows, Forall_forall. intros n _ hn b0 b0'. apply handle_grows. Qed.

(* ------------------------------------------------------------------ *)
(** * Finishing *)

Lemma finish_all_app l1 : forall l2 fl xs fl', finish_all (l1 ++ l2) fl = Done (xs, fl') ->
  exists xs1 xs2 f1, finish_all l1 fl = Done (xs1, f1) /\ finish_all l2 f1 = Done (xs2, fl') /\ xs = xs1 ++ xs2.
Proof.
  induction l1 as [|m l1 IH]; intros l2 fl xs fl' H; [exists [], xs, fl; split; [reflexivity|split; [exact H|reflexivity]]|].
  cbn [app finish_all] in H. apply obind_done in H as ([x f] & Hx & H). apply obind_done in H as ([ys g] & Hy & H). injection H as <- <-.
  destruct (IH _ _ _ _ Hy) as (xs1 & xs2 & f1 & E1 & E2 & ->). exists (x :: xs1), xs2, f1.
  cbn [finish_all]. rewrite Hx. cbn [obind]. rewrite E1. cbn [obind]. split; [reflexivity|split; [exact E2|reflexivity]].
Qed.
Lemma finish_all_flag l : forall fl fl2 xs f ys g, finish_all l fl = Done (xs, f) -> finish_all l fl2 = Done (ys, g) -> xs = ys.
Proof.
  induction l as [|m l IH]; intros fl fl2 xs f ys g H K; cbn [finish_all] in *; [congruence|].
  apply obind_done in H as ([x f1] & Hx & H). apply obind_done in H as ([xs' f2] & Hy & H). injection H as <- <-.
  apply obind_done in K as ([x2 g1] & Kx & K). apply obind_done in K as ([ys' g2] & Ky & K). injection K as <- <-.
  assert (x2 = x /\ g1 = f1) as [-> ->] by (split; congruence). f_equal. exact (IH _ _ _ _ _ _ Hy Ky).
Qed.
(** the inline content before a block *)
Definition flushed (b : builder) : list inter :=
  match b_inlines b with [] => [] | l => [MAnon (anonymous_inheriting_from (Some (b_style b))) (b_style b) l] end.
Lemma finish_blocks b c fl : b_stack b = [] -> finish_container b = Done (c, fl) ->
  (exists x l, b_inlines b = x :: l /\ b_boxes b = [] /\ c = InlineFC (b_style b) (b_inlines b)) \/
  (exists xs f, finish_all (b_boxes b ++ flushed b) f = Done (xs, fl) /\ c = BlockLevelBoxes xs).
Proof.
  intros Hs H. unfold finish_container, flushed in *. destruct (b_inlines b) as [|x l] eqn:Ei.
  - right. cbn in H. apply obind_done in H as ([xs f] & Hf & H). injection H as <- <-. rewrite app_nil_r. eauto.
  - destruct (b_boxes b) as [|m ms] eqn:Eb.
    + injection H as <- <-. left. exists x, l. auto.
    + apply obind_done in H as (b1 & Hb & H). apply end_ifc_done in Hb as [_ ->]. rewrite Ei, Eb in H.
      apply obind_done in H as ([xs f] & Hf & H). injection H as <- <-. right. cbn [b_boxes b_floats] in Hf. eauto.
Qed.

Lemma block_handled st st' ks hn b b' : in_flow_block st' -> handle_node st (SElem false st' ks) hn b = Done b' ->
  b_stack b = [] /\ exists m, b' = Builder (b_style b) (b_boxes b ++ flushed b ++ [m]) [] [] (b_floats b) /\
    ((m = MDeferred st' (construct_container st' ks)) \/
     (m = MIndep st' (run (c, fl) <- construct_container st' ks; Done (BFC fl c)))).
Proof.
  intros ((i & D) & A & F) H. cbn [handle_node] in H. rewrite D, A, F in H. apply with_slot_done, handle_block_done in H as [Hs ->].
  split; [exact Hs|]. eexists. split; [unfold flushed; reflexivity|]. destruct i; [left|right]; reflexivity.
Qed.
(** the kind of box does not depend on the contents *)
Lemma block_handled2 st st' ks ks' hn hn' b b' b2 : in_flow_block st' ->
  handle_node st (SElem false st' ks) hn b = Done b' -> handle_node st (SElem false st' ks') hn' b = Done b2 ->
  exists m m', b' = Builder (b_style b) (b_boxes b ++ flushed b ++ [m]) [] [] (b_floats b) /\
    b2 = Builder (b_style b) (b_boxes b ++ flushed b ++ [m']) [] [] (b_floats b) /\
    ((m = MDeferred st' (construct_container st' ks) /\ m' = MDeferred st' (construct_container st' ks')) \/
     (m = MIndep st' (run (c, fl) <- construct_container st' ks; Done (BFC fl c)) /\
      m' = MIndep st' (run (c, fl) <- construct_container st' ks'; Done (BFC fl c)))).
Proof.
  intros ((i & D) & A & F) H H'. cbn [handle_node] in H, H'. rewrite D, A, F in H, H'.
  apply with_slot_done, handle_block_done in H as [Hs ->]. apply with_slot_done, handle_block_done in H' as [_ ->].
  eexists _, _. split; [unfold flushed; reflexivity|]. split; [unfold flushed; reflexivity|]. destruct i; [left|right]; split; reflexivity.
Qed.
Lemma blocks_there st kids b : Exists block_element kids -> traverse st kids (builder_new st) = Done b -> b_boxes b <> [].
Proof.
  intros E H. apply Exists_exists in E as (n & Hn & B). apply in_split in Hn as (k1 & k2 & ->).
  unfold traverse in H. apply traverse_split in H as (b1 & _ & H). cbn [traverse_with] in H. apply obind_done in H as (b2 & H1 & H2).
  destruct n as [t| |br st' ks]; try contradiction. destruct B as [-> B].
  destruct (block_handled _ _ _ _ _ _ B H1) as (_ & m & -> & _). apply trav_grows in H2 as [ms E]. cbn [b_boxes] in E. rewrite E.
  destruct (b_boxes b1), (flushed b1); discriminate.
Qed.
Lemma style_kept st kids b : traverse st kids (builder_new st) = Done b -> b_style b = st.
Proof.
  intros H. assert (F : frame (builder_new st) b).
  { revert H. apply traverse_frame. apply Forall_forall. intros n _ hn b0 b1. apply handle_frame. }
  destruct F as [F _]. exact F.
Qed.

Theorem longer_boxes allow st kids kids' : appended allow st kids kids' -> forall c fl c' fl',
  construct_container st kids = Done (c, fl) -> construct_container st kids' = Done (c', fl') -> longer allow (auto_height st) c c'.
Proof.
  induction 1 as [st kids n more B Al | st kids st' ks ks' more B A IH]; intros c fl c' fl' H H'.
  - unfold construct_container in H, H'. apply obind_done in H as (b & T & H).
    assert (T' : traverse st (kids ++ n :: more) (builder_new st) = traverse_with (handle_node st) (n :: more) b) by (apply traverse_app; exact T).
    rewrite T' in H'. apply obind_done in H' as (b' & T2 & H'). cbn [traverse_with] in T2. apply obind_done in T2 as (b2 & E1 & E2).
    pose proof (traverse_stack _ _ _ T) as Hs.
    assert (Hs' : b_stack b' = []) by (rewrite T2' || (apply (traverse_stack st (kids ++ n :: more)); rewrite T'; cbn [traverse_with]; rewrite E1; exact E2)).
    destruct n as [t| |br st' ks]; try contradiction. destruct B as [-> B].
    destruct (block_handled _ _ _ _ _ _ B E1) as (_ & m & -> & _). apply trav_grows in E2 as [ms E2]. cbn [b_boxes] in E2.
    pose proof (style_kept _ _ _ T) as Sb.
    destruct (finish_blocks _ _ _ Hs' H') as [(x & l & _ & N & _)|(xs' & f' & F' & ->)].
    { rewrite E2 in N. destruct (b_boxes b), (flushed b); discriminate. }
    rewrite E2, <- !app_assoc in F'.
    destruct (finish_blocks _ _ _ Hs H) as [(x & l & Ei & N & ->)|(xs & f & F & ->)].
    + destruct Al as [Al|[Al Ah]]; [destruct (blocks_there _ _ _ Al T N)|]. unfold auto_height. rewrite Ah.
      rewrite N in F'. unfold flushed in F'. rewrite Ei in F'. cbn [app] in F'. cbn [finish_all finish_one obind] in F'.
      apply obind_done in F' as ([ys g] & _ & F'). injection F' as <- _. rewrite Ei, Sb. apply L_inline. exact Al.
    + rewrite app_assoc in F'. destruct (finish_all_app _ _ _ _ _ F') as (xs1 & xs2 & f1 & G1 & G2 & ->).
      rewrite (finish_all_flag _ _ _ _ _ _ _ F G1). apply L_more.
  - unfold construct_container in H, H'. apply obind_done in H as (b & T & H). apply obind_done in H' as (b' & T' & H').
    pose proof (traverse_stack _ _ _ T) as Hs. pose proof (traverse_stack _ _ _ T') as Hs'.
    unfold traverse in T, T'. apply traverse_split in T as (b1 & T1 & T). apply traverse_split in T' as (b1' & T1' & T').
    assert (b1' = b1) as -> by congruence.
    cbn [traverse_with] in T, T'. apply obind_done in T as (b2 & E1 & T). injection T as ->.
    apply obind_done in T' as (b2' & E1' & T').
    destruct (block_handled2 _ _ _ _ _ _ _ _ _ B E1 E1') as (m & m' & -> & -> & M). apply trav_grows in T' as [ms E2]. cbn [b_boxes] in E2.
    destruct (finish_blocks _ _ _ Hs H) as [(x & l & Ei & N & _)|(xs & f & F & ->)]; [discriminate|].
    destruct (finish_blocks _ _ _ Hs' H') as [(x & l & Ei & N & _)|(xs' & f' & F' & ->)].
    { rewrite E2 in N. destruct (b_boxes b1), (flushed b1); discriminate. }
    rewrite E2, <- !app_assoc in F'. unfold flushed at 2 in F. cbn [b_boxes b_inlines] in F. rewrite app_nil_r, app_assoc in F. rewrite app_assoc in F'.
    destruct (finish_all_app _ _ _ _ _ F) as (xs1 & xs2 & f1 & G1 & G2 & ->).
    destruct (finish_all_app _ _ _ _ _ F') as (ys1 & ys2 & g1 & K1 & K2 & ->).
    rewrite (finish_all_flag _ _ _ _ _ _ _ G1 K1). cbn [app finish_all] in G2, K2.
    apply obind_done in G2 as ([x fx] & X & G2). injection G2 as <- _.
    apply obind_done in K2 as ([x' fx'] & X' & K2). apply obind_done in K2 as ([zs fz] & _ & K2). injection K2 as <- _.
    destruct M as [[-> ->]|[-> ->]]; cbn [finish_one] in X, X'.
    + apply with_slot_done, obind_done in X as ([d fd] & Xd & X). injection X as <- _.
      apply with_slot_done, obind_done in X' as ([d' fd'] & Xd' & X'). injection X' as <- _.
      apply L_same. exact (IH _ _ _ _ Xd Xd').
    + apply with_slot_done, obind_done in X as (d0 & Xd & X). injection X as <- _. apply obind_done in Xd as ([d fd] & Xd & X). injection X as <-.
      apply with_slot_done, obind_done in X' as (d0' & Xd' & X'). injection X' as <- _. apply obind_done in Xd' as ([d' fd'] & Xd' & X'). injection X' as <-.
      apply L_indep. exact (IH _ _ _ _ Xd Xd').
Qed.
End Any.
