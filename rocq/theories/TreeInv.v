(** Proofs about box construction: invariants of the box tree, floats, success and failure. *)
From Verif Require Import TreeModel TreeSpec TreeFacts TreeProofs BlockSpec.
Local Open Scope outcome_scope.

Section Any.
Context {ar : Arith}.

Lemma fold_forall {A} (P : A -> Prop) l : fold_right (fun x R => P x /\ R) True l <-> Forall P l.
Proof.
  induction l as [|x l IH]; cbn; split; intros H; [constructor|exact I| |].
  - constructor; [apply H|apply IH; apply H].
  - inversion H; subst. split; [assumption|apply IH; assumption].
Qed.

(* ------------------------------------------------------------------ *)
(** * A generic invariant *)

Section Generic.
  Context (G : style -> Prop) (I : ilb bfc -> Prop) (X : blb -> Prop) (K : bcontainer -> bool -> Prop).
  Context (I_text : forall st t f, I (TextRun st t f))
          (I_box : forall st f la l, G st -> Forall I l -> I (InlineBox st f la l))
          (I_abspos : forall st c fl, G st -> is_absolutely_positioned (sv st Lposition) = true -> K c fl -> I (IAbspos st (BFC fl c)))
          (I_float : forall st c fl, G st -> K c fl -> I (IFloat st (BFC fl c)))
          (X_anon : forall st ps l, l <> [] -> Forall I l -> X (SameFC st (InlineFC ps l)))
          (X_same : forall st c fl, G st -> K c fl -> X (SameFC st c))
          (X_indep : forall st c fl, G st -> K c fl -> X (Indep st (BFC fl c)))
          (X_abspos : forall st c fl, G st -> is_absolutely_positioned (sv st Lposition) = true -> K c fl -> X (BAbspos st (BFC fl c)))
          (X_float : forall st c fl, G st -> K c fl -> X (BFloat st (BFC fl c)))
          (K_inlines : forall st l, l <> [] -> Forall I l -> K (InlineFC st l) (existsb inline_has_float l))
          (K_blocks : forall l, Forall X l -> K (BlockLevelBoxes l) (existsb box_has_float l))
          (K_flag : forall c fl, K c fl -> fl = container_has_float c).

  Definition m_ok (m : inter) : Prop :=
    match m with
    | MAnon _ _ l => l <> [] /\ Forall I l
    | MDeferred st r => G st /\ forall c fl, r = Done (c, fl) -> K c fl
    | MIndep st r | MFloat st r => G st /\ forall c fl, r = Done (BFC fl c) -> K c fl
    | MAbspos st r => (G st /\ is_absolutely_positioned (sv st Lposition) = true) /\ forall c fl, r = Done (BFC fl c) -> K c fl
    end.
  Definition m_float (m : inter) : bool :=
    match m with MAnon _ _ l => existsb inline_has_float l | MFloat _ _ => true | _ => false end.
  Definition o_float (o : ongoing) : bool := existsb inline_has_float (og_children o).
  Definition ginv (b : builder) : Prop :=
    Forall m_ok (b_boxes b) /\ Forall I (b_inlines b) /\
    Forall (fun o => G (og_style o) /\ Forall I (og_children o)) (b_stack b) /\
    b_floats b = existsb m_float (b_boxes b) || existsb inline_has_float (b_inlines b) || existsb o_float (b_stack b).

  Lemma ginv_new st : ginv (builder_new st).
  Proof. repeat split; constructor. Qed.

  Lemma ginv_set_current b l : ginv b -> Forall I l ->
    existsb inline_has_float l = existsb inline_has_float (current b) -> ginv (set_current b l).
  Proof.
    intros (A & B & C & D) Hl Hf. unfold set_current, current in *.
    destruct b as [bs bb bi bk bf]; cbn in *. destruct bk as [|o s]; cbn in *.
    - repeat split; try assumption. cbn. rewrite D, Hf. reflexivity.
    - inversion C as [|? ? [Go _] Cs]; subst. repeat split; cbn; try assumption.
      + constructor; [split; assumption|assumption].
      + unfold o_float at 1. cbn. rewrite Hf. reflexivity.
  Qed.
  Lemma append_ok l out ps : Forall I l -> Forall I (append_text l out ps) /\
    existsb inline_has_float (append_text l out ps) = existsb inline_has_float l.
  Proof.
    intros H. destruct (append_text_cases l out ps) as [[_ ->]|(l' & st & t & font & -> & _ & ->)].
    - split; [apply Forall_app; split; [exact H|repeat constructor; apply I_text]|].
      rewrite existsb_app. cbn. apply orb_false_r.
    - apply Forall_app in H as [H1 H2]. split; [apply Forall_app; split; [exact H1|repeat constructor; apply I_text]|].
      rewrite !existsb_app. reflexivity.
  Qed.
  Lemma ginv_add_text b out ps : ginv b -> ginv (add_text b out ps).
  Proof.
    intros H. unfold add_text. destruct out; [exact H|].
    assert (Hc : Forall I (current b)).
    { destruct H as (_ & B & C & _). unfold current. destruct (b_stack b); [exact B|]. inversion C; tauto. }
    destruct (append_ok (current b) (c :: out) ps Hc) as [P Q]. apply ginv_set_current; assumption.
  Qed.
  Lemma ginv_current b : ginv b -> Forall I (current b).
  Proof. intros (_ & B & C & _). unfold current. destruct (b_stack b); [exact B|]. inversion C; tauto. Qed.

  Lemma finish_one_ok m x fl : m_ok m -> finish_one m = Done (x, fl) -> X x /\ (m_float m || fl) = box_has_float x.
  Proof.
    destruct m as [a ps l|st r|st r|st r|st r]; cbn; intros Hm H.
    - injection H as <- <-. split; [apply X_anon; tauto|]. cbn. apply orb_false_r.
    - destruct Hm as [Hg Hr]. apply with_slot_done, obind_done in H as ([c f] & -> & H). injection H as <- <-.
      specialize (Hr _ _ eq_refl). split; [eapply X_same; eassumption|]. cbn. apply K_flag; exact Hr.
    - destruct Hm as [Hg Hr]. apply with_slot_done, obind_done in H as ([f c] & -> & H). injection H as <- <-.
      split; [apply X_indep; auto|reflexivity].
    - destruct Hm as [Hg Hr]. apply with_slot_done, obind_done in H as ([f c] & -> & H). injection H as <- <-.
      destruct Hg as [Hg Ha]. split; [apply X_abspos; auto|reflexivity].
    - destruct Hm as [Hg Hr]. apply with_slot_done, obind_done in H as ([f c] & -> & H). injection H as <- <-.
      split; [apply X_float; auto|reflexivity].
  Qed.
  Lemma finish_all_ok l : forall fl xs fl', Forall m_ok l -> finish_all l fl = Done (xs, fl') ->
    Forall X xs /\ (existsb m_float l || fl') = (fl || existsb box_has_float xs).
  Proof.
    induction l as [|m l IH]; cbn; intros fl xs fl' F H.
    - injection H as <- <-. split; [constructor|]. rewrite orb_false_r. reflexivity.
    - apply Forall_cons_iff in F as [Fm Fl].
      apply obind_done in H as ([x f1] & Hx & H). apply obind_done in H as ([xs' f2] & Hxs & H).
      injection H as <- <-. destruct (finish_one_ok _ _ _ Fm Hx) as [A B]. destruct (IH _ _ _ Fl Hxs) as [C D].
      split; [constructor; assumption|]. cbn. rewrite <- B, <- orb_assoc, D.
      destruct (m_float m), fl, f1; reflexivity.
  Qed.
  Lemma finish_all_floats l : forall fl xs fl', finish_all l fl = Done (xs, fl') -> fl = true -> fl' = true.
  Proof.
    induction l as [|m l IH]; cbn; intros fl xs fl' H Hf; [congruence|].
    apply obind_done in H as ([x f1] & _ & H). apply obind_done in H as ([xs' f2] & H & H').
    injection H' as <- <-. eapply IH; [exact H|]. rewrite Hf. reflexivity.
  Qed.
  (** A box that is known to be or to hold a float ends up as one. *)
  Lemma finish_all_some l : forall fl xs fl', Forall m_ok l -> finish_all l fl = Done (xs, fl') ->
    existsb m_float l = false \/ existsb box_has_float xs = true.
  Proof.
    induction l as [|m l IH]; cbn; intros fl xs fl' F H; [left; reflexivity|].
    apply Forall_cons_iff in F as [Fm Fl].
    apply obind_done in H as ([x f1] & Hx & H). apply obind_done in H as ([xs' f2] & Hxs & H).
    injection H as <- <-. destruct (finish_one_ok _ _ _ Fm Hx) as [_ B]. cbn. rewrite <- B.
    destruct (m_float m); [right; reflexivity|]. destruct (IH _ _ _ Fl Hxs) as [N|N]; [left|right].
    - rewrite N. reflexivity.
    - rewrite N, orb_true_r. reflexivity.
  Qed.
  Lemma finish_ok b c fl : ginv b -> b_stack b = [] -> finish_container b = Done (c, fl) -> K c fl.
  Proof.
    intros (A & B & C & D) Hs H. rewrite Hs in D. cbn in D. rewrite orb_false_r in D.
    assert (Go : forall l xs fl0, Forall m_ok l -> b_floats b = existsb m_float l ->
              finish_all l (b_floats b) = Done (xs, fl0) -> K (BlockLevelBoxes xs) fl0).
    { intros l xs fl0 Fl Df Hf. destruct (finish_all_ok _ _ _ _ Fl Hf) as [P Q].
      replace fl0 with (existsb box_has_float xs); [apply K_blocks; exact P|].
      pose proof (finish_all_floats _ _ _ _ Hf) as M.
      rewrite Df in Q, M. destruct (existsb m_float l) eqn:Em; cbn in *.
      - rewrite M by reflexivity.
        destruct (existsb box_has_float xs) eqn:Ex; [reflexivity|].
        exfalso. destruct (finish_all_some _ _ _ _ Fl Hf) as [N|N]; congruence.
      - congruence. }
    unfold finish_container in H. destruct (b_inlines b) as [|x l] eqn:Ei.
    - cbn in H. apply obind_done in H as ([xs f] & Hf & H). injection H as <- <-.
      rewrite orb_false_r in D. eapply Go; eassumption.
    - destruct (b_boxes b) as [|m ms] eqn:Eb.
      + injection H as <- <-. cbn [existsb orb] in D. rewrite D. apply K_inlines; [discriminate|exact B].
      + apply obind_done in H as (b1 & Hb & H). apply end_ifc_done in Hb as [_ ->].
        apply obind_done in H as ([xs f] & Hf & H). injection H as <- <-.
        rewrite Ei, Eb in Hf. cbn [b_boxes b_floats] in Hf. eapply Go; [| |exact Hf].
        * apply Forall_app. split; [exact A|]. constructor; [split; [discriminate|exact B]|constructor].
        * rewrite existsb_app, D. cbn. rewrite orb_false_r. reflexivity.
  Qed.

  Definition keeps (n : snode) : Prop := forall ps hn b b', boxes_styled G n ->
    handle_node ps n hn b = Done b' -> ginv b -> ginv b'.
  Lemma traverse_keeps ps kids : Forall keeps kids -> forall b b', Forall (boxes_styled G) kids ->
    traverse_with (handle_node ps) kids b = Done b' -> ginv b -> ginv b'.
  Proof.
    intros F. induction F as [|n kids Hn F IH]; cbn; intros b b' S H Hi; [congruence|].
    apply Forall_cons_iff in S as [S1 S2]. apply obind_done in H as (b1 & H1 & H2).
    exact (IH _ _ S2 H2 (Hn _ _ _ _ S1 H1 Hi)).
  Qed.
  Lemma construct_keeps st kids c fl : Forall keeps kids -> Forall (boxes_styled G) kids ->
    obind (traverse_with (handle_node st) kids (builder_new st)) finish_container = Done (c, fl) -> K c fl.
  Proof.
    intros F S H. apply obind_done in H as (b & H1 & H2).
    eapply finish_ok; [|exact (traverse_stack _ _ _ H1)|exact H2].
    exact (traverse_keeps _ _ F _ _ S H1 (ginv_new st)).
  Qed.
  Lemma node_keeps n : keeps n.
  Proof.
    induction n as [t| |br st kids IH] using snode_ind'; intros ps hn b b' S H Hi.
    - cbn in H. pose proof (handle_text_done _ _ _ _ H) as W. rewrite (handle_text_spec _ _ _ W) in H.
      injection H as <-. apply ginv_add_text; exact Hi.
    - injection H as <-. exact Hi.
    - pose proof (traverse_keeps st kids IH) as T. pose proof (fun c fl => construct_keeps st kids c fl IH) as C.
      cbn [handle_node] in H. cbn [boxes_styled] in S. destruct br.
      { pose proof (handle_text_done _ _ _ _ H) as W. rewrite (handle_text_spec _ _ _ W) in H.
        injection H as <-. apply ginv_add_text; exact Hi. }
      destruct (sv st Ldisplay) as [| |o i].
      { destruct hn; [injection H as <-; exact Hi|discriminate]. }
      { apply fold_forall in S. exact (T _ _ S H Hi). }
      destruct S as [Hg S]. apply fold_forall in S. specialize (T).
      assert (C' : forall c fl, (run (c, fl) <- obind (traverse_with (handle_node st) kids (builder_new st)) finish_container;
                    Done (BFC fl c)) = Done (BFC fl c) -> K c fl).
      { intros c fl H0. apply obind_done in H0 as ([c1 f1] & H0 & H1). injection H1 as -> ->. exact (C _ _ S H0). }
      pose proof (ginv_current _ Hi) as Hcur.
      destruct o.
      + destruct i; [|discriminate].
        apply with_slot_done, obind_done in H as (b1 & H1 & H2).
        assert (Fr : frame (push_inline st b) b1).
        { revert H1. apply traverse_frame. apply Forall_forall. intros n _ hn0 b0 b0'. apply handle_frame. }
        destruct Fr as [S1 F1]. cbn in S1, F1. destruct F1 as (B1 & I1 & ch & K1).
        assert (Hp : ginv (push_inline st b)).
        { destruct Hi as (P & Q & R & D). repeat split; cbn; try assumption.
          constructor; [split; [exact Hg|constructor]|exact R]. }
        specialize (T _ _ S H1 Hp). destruct T as (P & Q & R & D). rewrite K1 in R, D.
        inversion R as [|? ? [_ Rch] Rs]; subst. cbn in Rch.
        unfold pop_inline in H2. rewrite K1 in H2. cbn [og_style og_first og_children] in H2. injection H2 as <-.
        assert (Hx : I (InlineBox st true true ch)) by (apply I_box; assumption).
        unfold set_current, current. cbn. cbn in D. unfold o_float at 1 in D. cbn in D.
        destruct (b_stack b) as [|o s]; cbn in *.
        * repeat split; cbn; try assumption.
          -- apply Forall_app. split; [assumption|constructor; [exact Hx|constructor]].
          -- rewrite D, existsb_app. cbn. rewrite !orb_false_r, orb_assoc. reflexivity.
        * inversion Rs as [|? ? [Go Ro] Rs']; subst. repeat split; cbn; try assumption.
          -- constructor; [|assumption]. split; [exact Go|]. cbn.
             apply Forall_app. split; [assumption|constructor; [exact Hx|constructor]].
          -- rewrite D, existsb_app. cbn. unfold o_float.
             destruct (existsb m_float (b_boxes b1)), (existsb inline_has_float (b_inlines b1)), (existsb inline_has_float ch),
               (existsb inline_has_float (og_children o)), (existsb (fun o => existsb inline_has_float (og_children o)) s); reflexivity.
      + destruct (is_absolutely_positioned (sv st Lposition)) eqn:Ea.
        { unfold handle_abspos in H. destruct (has_ongoing_ifc b) eqn:Eo.
          - apply with_slot_done, obind_done in H as ([fl c] & H0 & H). injection H as <-.
            apply ginv_set_current; [exact Hi| |].
            + apply Forall_app. split; [exact Hcur|]. repeat constructor. apply I_abspos; [exact Hg|exact Ea|]. exact (C' c fl H0).
            + rewrite existsb_app. cbn. apply orb_false_r.
          - injection H as <-. destruct Hi as (P & Q & R & D). repeat split; cbn; try assumption.
            + apply Forall_app. split; [exact P|]. constructor; [split; [split; [exact Hg|exact Ea]|exact C']|constructor].
            + rewrite existsb_app. cbn. rewrite orb_false_r. exact D. }
        destruct (is_floating (sv st Lfloat)).
        { unfold handle_float in H. cbv zeta in H. destruct Hi as (P & Q & R & D).
          destruct (has_ongoing_ifc _) eqn:Eo in H.
          - apply with_slot_done, obind_done in H as ([fl c] & H0 & H). injection H as <-.
            assert (Hx : I (IFloat st (BFC fl c))) by auto.
            unfold set_current, current in *. cbn. destruct (b_stack b) as [|o s]; cbn in *.
            + repeat split; cbn; try assumption.
              * apply Forall_app. split; [exact Q|constructor; [exact Hx|constructor]].
              * rewrite existsb_app. cbn. rewrite !orb_true_r. reflexivity.
            + inversion R as [|? ? [Go Ro] Rs']; subst. repeat split; cbn; try assumption.
              * constructor; [|assumption]. split; [exact Go|]. cbn. apply Forall_app. split; [assumption|constructor; [exact Hx|constructor]].
              * unfold o_float at 1. cbn. rewrite existsb_app. cbn. rewrite !orb_true_r. reflexivity.
          - injection H as <-. repeat split; cbn; try assumption.
            + apply Forall_app. split; [exact P|]. constructor; [split; [exact Hg|exact C']|constructor].
            + rewrite existsb_app. cbn. rewrite !orb_true_r. reflexivity. }
        apply with_slot_done, handle_block_done in H as [Hs ->]. destruct Hi as (P & Q & R & D).
        rewrite Hs in D. cbn in D. repeat split; cbn; [|constructor|constructor|].
        * apply Forall_app. split; [exact P|]. apply Forall_app. split.
          -- destruct (b_inlines b) as [|x l]; [constructor|]. constructor; [split; [discriminate|exact Q]|constructor].
          -- constructor; [|constructor]. destruct i; cbn; (split; [exact Hg|]); [exact (fun c fl => C c fl S)|exact C'].
        * rewrite D, !existsb_app, !orb_false_r. destruct i; cbn; rewrite ?orb_false_r;
            destruct (b_inlines b); cbn; rewrite ?orb_false_r; reflexivity.
  Qed.
  Theorem container_keeps st kids c fl : Forall (boxes_styled G) kids ->
    construct_container st kids = Done (c, fl) -> K c fl.
  Proof. apply construct_keeps. apply Forall_forall. intros n _. apply node_keeps. Qed.
End Generic.

(* ------------------------------------------------------------------ *)
(** * Floats, and well-formedness *)

Lemma any_style n : boxes_styled (fun _ => True) n.
Proof.
  induction n as [t| |br st kids IH] using snode_ind'; cbn; [exact I..|].
  destruct br; [exact I|]. apply fold_forall in IH.
  destruct (sv st Ldisplay); [exact I|exact IH|split; [exact I|exact IH]].
Qed.
Lemma contexts_inline_eq Q st f la l : contexts_inline Q (InlineBox st f la l) <-> Forall (contexts_inline Q) l.
Proof. exact (fold_forall (contexts_inline Q) l). Qed.
Lemma inline_has_float_eq st f la l : inline_has_float (InlineBox st f la l) = existsb inline_has_float l.
Proof. reflexivity. Qed.
Theorem flags_accurate st kids c fl : construct_container st kids = Done (c, fl) ->
  fl = container_has_float c /\ contexts_container flag_accurate c.
Proof.
  intros H.
  refine (container_keeps (fun _ => True) (contexts_inline (contexts_bfc flag_accurate)) (contexts_box flag_accurate)
           (fun c fl => fl = container_has_float c /\ contexts_container flag_accurate c) _ _ _ _ _ _ _ _ _ _ _ _ st kids c fl _ H).
  - intros; exact I.
  - intros. apply contexts_inline_eq. assumption.
  - intros st0 c0 fl0 _ _ [A B]. split; assumption.
  - intros st0 c0 fl0 _ [A B]. split; assumption.
  - intros st0 ps l _ Hl. apply fold_forall. exact Hl.
  - intros st0 c0 fl0 _ [A B]. exact B.
  - intros st0 c0 fl0 _ [A B]. split; assumption.
  - intros st0 c0 fl0 _ _ [A B]. split; assumption.
  - intros st0 c0 fl0 _ [A B]. split; assumption.
  - intros st0 l _ Hl. split; [reflexivity|]. apply fold_forall. exact Hl.
  - intros l Hl. split; [reflexivity|]. apply fold_forall. exact Hl.
  - intros c0 fl0 [A _]. exact A.
  - apply Forall_forall. intros n _. apply any_style.
Qed.

Lemma ilb_every_eq {C} (P : style -> C -> Prop) st f la l : ilb_every P (InlineBox st f la l) <-> Forall (ilb_every P) l.
Proof. exact (fold_forall (ilb_every P) l). Qed.
Theorem container_wf st kids c fl : Forall (boxes_styled generates_box) kids ->
  construct_container st kids = Done (c, fl) -> wf_container c.
Proof.
  intros S H.
  refine (proj2 (container_keeps generates_box (ilb_every (fun st c => generates_box st /\ wf_bfc c)) wf_blb
           (fun c fl => fl = container_has_float c /\ wf_container c) _ _ _ _ _ _ _ _ _ _ _ _ st kids c fl S H)).
  - intros; exact I.
  - intros. apply ilb_every_eq. assumption.
  - intros st0 c0 fl0 G _ [A B]. split; assumption.
  - intros st0 c0 fl0 _ [A B]. exact I.
  - intros st0 ps l _ Hl. apply fold_forall. exact Hl.
  - intros st0 c0 fl0 _ [A B]. exact B.
  - intros st0 c0 fl0 _ [A B]. exact B.
  - intros st0 c0 fl0 _ _ [A B]. exact B.
  - intros st0 c0 fl0 _ [A B]. exact I.
  - intros st0 l _ Hl. split; [reflexivity|]. apply fold_forall. exact Hl.
  - intros l Hl. split; [reflexivity|]. apply fold_forall. exact Hl.
  - intros c0 fl0 [A _]. exact A.
Qed.

(* ------------------------------------------------------------------ *)
(** * Success *)

Definition is_done {A} (r : outcome A) : Prop := exists a, r = Done a.
Lemma is_done_bind {A B} (r : outcome A) (k : A -> B) : is_done (run x <- r; Done (k x)) <-> is_done r.
Proof.
  split; intros [a H].
  - apply obind_done in H as (x & -> & _). exists x. reflexivity.
  - exists (k a). rewrite H. reflexivity.
Qed.
Lemma is_done_slot {A} (r : outcome A) : is_done (with_slot r) <-> is_done r.
Proof. split; intros [a H]; exists a; [apply with_slot_done; exact H|rewrite H; reflexivity]. Qed.

Definition m_done (m : inter) : Prop :=
  match m with
  | MAnon _ _ _ => True
  | MDeferred _ r => is_done r
  | MIndep _ r | MAbspos _ r | MFloat _ r => is_done r
  end.
Definition all_done (b : builder) : Prop := Forall m_done (b_boxes b).
Definition in_inline (b : builder) : bool := match b_stack b with [] => false | _ => true end.

Lemma finish_one_done m : is_done (finish_one m) <-> m_done m.
Proof.
  destruct m as [a ps l|st r|st r|st r|st r]; cbn.
  - split; [exact (fun _ => I)|]. intros _. eexists; reflexivity.
  - rewrite is_done_slot. split; intros [x H].
    + apply obind_done in H as ([c f] & -> & _). eexists; reflexivity.
    + rewrite H. destruct x. eexists; reflexivity.
  - rewrite is_done_slot. apply (is_done_bind r (fun c => (Indep st c, false))).
  - rewrite is_done_slot. apply (is_done_bind r (fun c => (BAbspos st c, false))).
  - rewrite is_done_slot. apply (is_done_bind r (fun c => (BFloat st c, true))).
Qed.
Lemma finish_all_done l : forall fl, is_done (finish_all l fl) <-> Forall m_done l.
Proof.
  induction l as [|m l IH]; cbn; intros fl.
  - split; [constructor|]. intros _. eexists; reflexivity.
  - rewrite Forall_cons_iff, <- (finish_one_done m). split.
    + intros [[xs f] H]. apply obind_done in H as ([x f1] & Hx & H). apply obind_done in H as ([xs' f2] & Hxs & H).
      split; [eexists; exact Hx|]. apply (IH (fl || f1)). eexists; exact Hxs.
    + intros [[[x f1] Hx] F]. apply (IH (fl || f1)) in F as [[xs f2] Hxs]. rewrite Hx. cbn. rewrite Hxs. cbn. eexists; reflexivity.
Qed.
Lemma finish_container_done b : b_stack b = [] -> (is_done (finish_container b) <-> all_done b).
Proof.
  intros Hs. unfold finish_container, all_done. destruct (b_inlines b) as [|x l] eqn:Ei.
  - cbn. rewrite <- (finish_all_done _ (b_floats b)). split.
    + intros [y H]. apply obind_done in H as (z & Hz & _). eexists; exact Hz.
    + intros [[xs f] H]. rewrite H. cbn. eexists; reflexivity.
  - destruct (b_boxes b) as [|m ms] eqn:Eb.
    + split; [constructor|]. intros _. eexists; reflexivity.
    + unfold end_ifc. rewrite Hs, Ei. cbn [obind b_boxes b_floats].
      assert (E : Forall m_done (m :: ms) <->
                  is_done (finish_all (b_boxes b ++ [MAnon (anonymous_inheriting_from (Some (b_style b))) (b_style b) (x :: l)]) (b_floats b))).
      { rewrite finish_all_done, Eb, Forall_app. split; [intros H; split; [exact H|repeat constructor]|tauto]. }
      rewrite E. split.
      * intros [y H]. apply obind_done in H as (z & Hz & _). eexists; exact Hz.
      * intros [[xs f] H]. rewrite H. cbn. eexists; reflexivity.
Qed.

Lemma all_done_set_current b l : all_done (set_current b l) <-> all_done b.
Proof. unfold all_done, set_current. destruct (b_stack b); reflexivity. Qed.
Lemma all_done_add_text b out ps : all_done (add_text b out ps) <-> all_done b.
Proof. unfold add_text. destruct out; [reflexivity|apply all_done_set_current]. Qed.
Lemma frame_in_inline b b' : frame b b' -> in_inline b' = in_inline b.
Proof.
  intros [_ F]. unfold in_inline. destruct (b_stack b); [rewrite F; reflexivity|].
  destruct F as (_ & _ & ch & ->). reflexivity.
Qed.

Definition succeeds (n : snode) : Prop := forall ps hn b,
  (exists b', handle_node ps n hn b = Done b' /\ all_done b') <-> (all_done b /\ supported ps (in_inline b) hn n).
Lemma traverse_succeeds ps kids : Forall succeeds kids -> forall b,
  (exists b', traverse_with (handle_node ps) kids b = Done b' /\ all_done b') <->
  (all_done b /\ supported_with (supported ps (in_inline b)) kids).
Proof.
  intros F. induction F as [|n kids Hn F IH]; cbn; intros b.
  - split; [intros (b' & [= <-] & H); auto|]. intros [H _]. exists b. auto.
  - split.
    + intros (b' & H & Hd). apply obind_done in H as (b1 & H1 & H2).
      assert (Hb1 : all_done b1 /\ supported_with (supported ps (in_inline b1)) kids) by (apply IH; eauto).
      rewrite (frame_in_inline _ _ (handle_frame _ _ _ _ _ H1)) in Hb1. destruct Hb1 as [Hd1 Hk].
      assert (Hb : all_done b /\ supported ps (in_inline b) (match kids with [] => false | _ => true end) n)
        by (apply Hn; eauto). tauto.
    + intros (Hd & Hsn & Hk). destruct (proj2 (Hn ps _ b) (conj Hd Hsn)) as (b1 & H1 & Hd1).
      rewrite <- (frame_in_inline _ _ (handle_frame _ _ _ _ _ H1)) in Hk.
      destruct (proj2 (IH b1) (conj Hd1 Hk)) as (b2 & H2 & Hd2).
      exists b2. rewrite H1. split; assumption.
Qed.
Lemma construct_succeeds st kids : Forall succeeds kids ->
  (is_done (obind (traverse_with (handle_node st) kids (builder_new st)) finish_container) <-> supported_contents st kids).
Proof.
  intros F. pose proof (traverse_succeeds st kids F (builder_new st)) as T. cbn in T. split.
  - intros [x H]. apply obind_done in H as (b & H1 & H2). apply T. exists b. split; [exact H1|].
    apply finish_container_done; [exact (traverse_stack _ _ _ H1)|]. eexists; exact H2.
  - intros H. destruct (proj2 T) as (b & H1 & Hd); [split; [constructor|exact H]|]. rewrite H1. cbn.
    apply finish_container_done; [exact (traverse_stack _ _ _ H1)|exact Hd].
Qed.
Lemma text_succeeds t ps b :
  (exists b', handle_text t ps b = Done b' /\ all_done b') <-> (all_done b /\ white_space_supported ps).
Proof.
  split.
  - intros (b' & H & Hd). pose proof (handle_text_done _ _ _ _ H) as W. rewrite (handle_text_spec _ _ _ W) in H.
    injection H as <-. apply all_done_add_text in Hd. tauto.
  - intros [Hd W]. eexists. rewrite (handle_text_spec _ _ _ W). split; [reflexivity|]. apply all_done_add_text. exact Hd.
Qed.
Lemma push_box_done b m : all_done (push_box b m) <-> all_done b /\ m_done m.
Proof.
  unfold all_done, push_box. cbn. rewrite Forall_app. split; intros [A B]; (split; [exact A|]).
  - inversion B; assumption.
  - constructor; [exact B|constructor].
Qed.
Lemma node_succeeds n : succeeds n.
Proof.
  induction n as [t| |br st kids IH] using snode_ind'; intros ps hn b.
  - apply text_succeeds.
  - cbn. split; [intros (b' & [= <-] & H); auto|]. intros [H _]. exists b. auto.
  - pose proof (traverse_succeeds st kids IH) as T. pose proof (construct_succeeds st kids IH) as C.
    cbn [handle_node supported]. destruct br; [apply text_succeeds|].
    set (k := obind (traverse_with (handle_node st) kids (builder_new st)) finish_container) in *.
    set (k' := obind k (fun '(c, fl) => Done (BFC fl c))).
    assert (C' : is_done k' <-> supported_contents st kids).
    { rewrite <- C. unfold k'. split; intros [x H].
      - apply obind_done in H as (y & -> & _). eexists; reflexivity.
      - rewrite H. destruct x. eexists; reflexivity. }
    destruct (sv st Ldisplay) as [| |[] i].
    + destruct hn; split.
      * intros (b' & [= <-] & H); auto.
      * intros [H _]. exists b. auto.
      * intros (b' & [=] & _).
      * intros [_ [=]].
    + apply T.
    + destruct i; [|split; [intros (b' & [=] & _)|intros [_ []]]].
      pose proof (T (push_inline st b)) as T'. cbn in T'. split.
      * intros (b' & H & Hd). apply with_slot_done, obind_done in H as (b1 & H1 & H2).
        assert (Hb : all_done (push_inline st b) /\ supported_with (supported st true) kids).
        { apply T'. exists b1. split; [exact H1|]. unfold pop_inline in H2. destruct (b_stack b1); [discriminate|].
          injection H2 as <-. apply all_done_set_current in Hd. exact Hd. }
        exact Hb.
      * intros Hb. destruct (proj2 T' Hb) as (b1 & H1 & Hd). rewrite H1. cbn.
        assert (Fr : frame (push_inline st b) b1).
        { revert H1. apply traverse_frame. apply Forall_forall. intros n _ hn0 b0 b0'. apply handle_frame. }
        destruct Fr as [_ F1]. cbn in F1. destruct F1 as (_ & _ & ch & K1).
        unfold pop_inline. rewrite K1. cbn. eexists. split; [reflexivity|]. apply all_done_set_current. exact Hd.
    + destruct (is_absolutely_positioned (sv st Lposition)); cbn [orb].
      { fold (supported_contents st kids). rewrite <- C'. unfold handle_abspos. destruct (has_ongoing_ifc b).
        - split.
          + intros (b' & H & Hd). apply with_slot_done, obind_done in H as (c & Hc & H). injection H as <-.
            apply all_done_set_current in Hd. split; [exact Hd|]. eexists; exact Hc.
          + intros [Hd [c Hc]]. rewrite Hc. cbn. eexists. split; [reflexivity|]. apply all_done_set_current. exact Hd.
        - split.
          + intros (b' & [= <-] & Hd). apply push_box_done in Hd. exact Hd.
          + intros H. eexists. split; [reflexivity|]. apply push_box_done. exact H. }
      destruct (is_floating (sv st Lfloat)).
      { fold (supported_contents st kids). rewrite <- C'. unfold handle_float. cbv zeta. destruct (has_ongoing_ifc _).
        - split.
          + intros (b' & H & Hd). apply with_slot_done, obind_done in H as (c & Hc & H). injection H as <-.
            apply all_done_set_current in Hd. split; [exact Hd|]. eexists; exact Hc.
          + intros [Hd [c Hc]]. rewrite Hc. cbn. eexists. split; [reflexivity|]. apply all_done_set_current. exact Hd.
        - split.
          + intros (b' & [= <-] & Hd). apply push_box_done in Hd. exact Hd.
          + intros H. eexists. split; [reflexivity|]. apply push_box_done. exact H. }
      fold (supported_contents st kids). split.
      * intros (b' & H & Hd). apply with_slot_done, handle_block_done in H as [Hs ->].
        unfold all_done in Hd. cbn in Hd. apply Forall_app in Hd as [Hd1 Hd2]. apply Forall_app in Hd2 as [_ Hd2].
        split; [exact Hd1|]. unfold in_inline. rewrite Hs. split; [reflexivity|].
        inversion Hd2; subst. destruct i; [apply C|apply C']; assumption.
      * intros (Hd & Hi & Hk). unfold in_inline in Hi. destruct (b_stack b) eqn:Hs; [|discriminate].
        unfold handle_block, end_ifc, fragment_inlines. rewrite Hs. cbn.
        assert (Hm : m_done match i with IFlow => MDeferred st k | IFlowRoot => MIndep st k' end).
        { destruct i; [apply C|apply C']; assumption. }
        destruct (b_inlines b ++ []) as [|x l]; cbn; (eexists; split; [reflexivity|]).
        -- apply push_box_done. split; [exact Hd|exact Hm].
        -- apply push_box_done. split; [|exact Hm]. unfold all_done. cbn. apply Forall_app. split; [exact Hd|repeat constructor].
Qed.
Theorem container_succeeds st kids : is_done (construct_container st kids) <-> supported_contents st kids.
Proof. apply construct_succeeds. apply Forall_forall. intros n _. apply node_succeeds. Qed.

(* ------------------------------------------------------------------ *)
(** * Failure *)

Lemma with_slot_no_panic {A} (r : outcome A) : with_slot r <> Panics.
Proof. destruct r; discriminate. Qed.
Lemma finish_all_no_panic l : forall fl, finish_all l fl <> Panics.
Proof.
  induction l as [|m l IH]; cbn; intros fl; [discriminate|].
  assert (H1 : finish_one m <> Panics) by (destruct m; cbn; [discriminate|apply with_slot_no_panic..]).
  destruct (finish_one m) as [[x f]| |]; [|contradiction|discriminate]. cbn.
  specialize (IH (fl || f)). destruct (finish_all l (fl || f)) as [[xs g]| |]; [discriminate|contradiction|discriminate].
Qed.
Lemma finish_container_no_panic b : b_stack b = [] -> finish_container b <> Panics.
Proof.
  intros Hs. unfold finish_container, end_ifc. rewrite Hs.
  destruct (b_inlines b); cbn.
  - pose proof (finish_all_no_panic (b_boxes b) (b_floats b)). destruct (finish_all _ _) as [[xs g]| |]; [discriminate|contradiction|discriminate].
  - destruct (b_boxes b); [discriminate|]. cbn [obind b_boxes b_floats].
    match goal with |- context [finish_all ?l ?f] => pose proof (finish_all_no_panic l f); destruct (finish_all l f) as [[xs g]| |] end;
      [discriminate|contradiction|discriminate].
Qed.
(** Only text that belongs directly to the container can fail with a panic that can be caught. *)
Definition catchable (ps : style) (n : snode) : Prop :=
  match n with
  | SText _ => ~ white_space_supported ps
  | SOther => False
  | SElem br st _ => br = true \/ sv st Ldisplay = DispContents
  end.
Lemma handle_node_panics ps n hn b : handle_node ps n hn b = Panics -> catchable ps n.
Proof.
  destruct n as [t| |br st kids]; cbn [handle_node catchable]; intros H.
  - intros W. rewrite (handle_text_spec _ _ _ W) in H. discriminate.
  - discriminate.
  - destruct br; [left; reflexivity|]. right. destruct (sv st Ldisplay) as [| |[] i]; [|reflexivity|exfalso..].
    + destruct hn; discriminate.
    + destruct i; [exact (with_slot_no_panic _ H)|discriminate].
    + destruct (is_absolutely_positioned (sv st Lposition)).
      { unfold handle_abspos in H. destruct (has_ongoing_ifc b); [exact (with_slot_no_panic _ H)|discriminate]. }
      destruct (is_floating (sv st Lfloat)).
      { unfold handle_float in H. cbv zeta in H. destruct (has_ongoing_ifc _); [exact (with_slot_no_panic _ H)|discriminate]. }
      exact (with_slot_no_panic _ H).
Qed.
Lemma traverse_panics ps kids : forall b, traverse_with (handle_node ps) kids b = Panics -> Exists (catchable ps) kids.
Proof.
  induction kids as [|n kids IH]; cbn; intros b H; [discriminate|].
  destruct (handle_node ps n _ b) as [b1| |] eqn:E; cbn in H.
  - right. exact (IH _ H).
  - left. exact (handle_node_panics _ _ _ _ E).
  - discriminate.
Qed.
Theorem container_fatal st kids : ~ supported_contents st kids -> ~ Exists (catchable st) kids ->
  construct_container st kids = Fatal.
Proof.
  intros Hs Hc. destruct (construct_container st kids) eqn:E.
  - exfalso. apply Hs, container_succeeds. eexists; exact E.
  - exfalso. unfold construct_container in E. destruct (traverse st kids (builder_new st)) as [b| |] eqn:T; cbn in E.
    + exact (finish_container_no_panic _ (traverse_stack _ _ _ T) E).
    + apply Hc. exact (traverse_panics _ _ _ T).
    + discriminate.
  - reflexivity.
Qed.

(* ------------------------------------------------------------------ *)
(** * Styles of text *)

Definition own_style (n : snode) : Prop := forall ps s r, no_br_no_contents n -> r = None \/ r = Some ps ->
  exists r', (r' = None \/ r' = Some ps) /\
    xnode ps (s, r) n = (fst (node_events ps s n), (snd (node_events ps s n), r')).
Lemma own_list ps kids : Forall own_style kids -> forall s r, Forall no_br_no_contents kids -> r = None \/ r = Some ps ->
  exists r', (r' = None \/ r' = Some ps) /\
    xevents_with (xnode ps) (s, r) kids =
    (fst (events_with (node_events ps) s kids), (snd (events_with (node_events ps) s kids), r')).
Proof.
  intros F. induction F as [|n kids Hn F IH]; cbn; intros s r N Hr.
  - exists r. split; [exact Hr|reflexivity].
  - apply Forall_cons_iff in N as [N1 N2]. destruct (Hn ps s r N1 Hr) as (r1 & Hr1 & ->).
    destruct (node_events ps s n) as [e1 s1]. cbn. destruct (IH s1 r1 N2 Hr1) as (r2 & Hr2 & ->).
    destruct (events_with (node_events ps) s1 kids) as [e2 s2]. exists r2. split; [exact Hr2|reflexivity].
Qed.
Lemma node_own_style n : own_style n.
Proof.
  induction n as [t| |br st kids IH] using snode_ind'; intros ps s r N Hr.
  - cbn [xnode node_events]. unfold xtext, shown_events. cbn [fst snd].
    assert (Hu : match r with Some u => u | None => ps end = ps) by (destruct Hr as [-> | ->]; reflexivity).
    rewrite Hu. destruct (shown _ s t); [exists r|exists (Some ps)]; (split; [tauto|reflexivity]).
  - exists r. split; [exact Hr|reflexivity].
  - cbn [no_br_no_contents] in N. destruct N as [-> N]. cbn [xnode node_events].
    destruct (sv st Ldisplay) as [| |o i].
    + exists r. split; [exact Hr|reflexivity].
    + contradiction.
    + apply fold_forall in N. destruct (own_list st kids IH None None N (or_introl eq_refl)) as (r1 & Hr1 & E).
      change (xevents_with (xnode st) xstart kids =
        (fst (events_with (node_events st) None kids), (snd (events_with (node_events st) None kids), r1))) in E.
      rewrite E. destruct (events_with (node_events st) None kids) as [e s']. cbn [fst snd]. destruct o.
      * exists None. split; [tauto|reflexivity].
      * destruct (is_absolutely_positioned _); [exists None; split; [tauto|reflexivity]|].
        destruct (is_floating _); (exists None; split; [tauto|reflexivity]).
Qed.
Lemma document_own_style st kids : Forall no_br_no_contents kids -> xdocument st kids = document_events st kids.
Proof.
  intros N. unfold xdocument, document_events.
  destruct (own_list st kids) with (s := @None bool) (r := @None style) as (r & _ & E); [|exact N|tauto|].
  - apply Forall_forall. intros n _. apply node_own_style.
  - etransitivity; [exact (f_equal fst E)|reflexivity].
Qed.

(* ------------------------------------------------------------------ *)
(** * Everything that is rendered is supported *)

Lemma supported_at one a n b : supported_with one (a ++ n :: b) -> one (match b with [] => false | _ => true end) n.
Proof. induction a as [|x a IH]; cbn; intros [H1 H2]; [exact H1|exact (IH H2)]. Qed.
Lemma supported_below ps inl hn st kids : sv st Ldisplay <> DispNone -> supported ps inl hn (SElem false st kids) ->
  exists inl', (sv st Ldisplay = DispBox OInline IFlow -> inl' = true) /\ supported_with (supported st inl') kids.
Proof.
  intros D H. cbn [supported] in H. destruct (sv st Ldisplay) as [| |[] []]; [congruence|exists inl|exists true|destruct H|exists false|exists false];
    (split; [intros E; try discriminate E; reflexivity|]); [exact H..| |]; (destruct (_ || _); [exact H|apply H]).
Qed.
Lemma supported_rendered kids n : rendered kids n -> forall ps inl, supported_with (supported ps inl) kids ->
  exists ps' inl' hn, supported ps' inl' hn n.
Proof.
  induction 1 as [kids n Hn|kids st ks n Hn D _ IH]; intros ps inl S; apply in_split in Hn as (a & b & ->);
    apply supported_at in S.
  - eauto.
  - destruct (supported_below _ _ _ _ _ D S) as (inl' & _ & S'). exact (IH _ _ S').
Qed.
End Any.
