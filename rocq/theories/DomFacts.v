(** Arena-level facts about the document, derived from the forest refinement. *)
From Coq Require Import List Arith Lia Bool NArith String Relations.
From Verif Require Import Base DomModel DomSpec DomForest DomLists DomProofs DomTraverse.
Import ListNotations.
Local Open Scope nat_scope.
Local Open Scope result_scope.

Local Arguments without : simpl never.
Lemma without_drop c l : without c l = drop c l.
Proof.
  unfold without, drop. induction l as [|x l IH]; [reflexivity|]. cbn [filter remove].
  destruct (Nat.eqb_spec x c) as [->|Hne]; destruct (Nat.eq_dec c _); try congruence; cbn [negb]; rewrite <- IH; reflexivity.
Qed.

Lemma drop_notin c l : ~ In c l -> drop c l = l.
Proof. intros H. apply notin_remove. exact H. Qed.

(* ---------------- contract ---------------- *)
Lemma may_append_ok d s p c : good d s -> may_append d p c -> ok_append s p c.
Proof.
  intros [HR HW] [Hp Hc]. split; [apply (node_of_live d s p HR); exact Hp|]. destruct c as [k|t]; [|exact I].
  destruct Hc as (H1 & H2 & H3 & H4). rewrite (node_of_live d s k HR) in H1. rewrite (below_iff d s k p HR HW) in H4. auto.
Qed.

Lemma may_before_ok d s q c : good d s -> may_insert_before d q c -> ok_before s q c.
Proof.
  intros [HR HW] [(p & Hp) Hc]. apply (kid_iff d s p q HR HW) in Hp.
  split; [|split]; [destruct (wf_range _ HW _ _ Hp) as [_ H]; unfold live; lia|eauto|]. destruct c as [k|t]; [|exact I].
  destruct Hc as (H1 & H2 & H3 & H4). rewrite (node_of_live d s k HR) in H1. rewrite (below_iff d s k q HR HW) in H4. auto.
Qed.

Lemma allowed_admissible d s o : good d s -> allowed d o -> admissible s o.
Proof.
  intros HG Ha. pose proof HG as [HR HW].
  destruct o as [name attrs| | |p c|sib c|e p c| |t attrs|t|n p]; cbn [allowed admissible] in *; try exact I.
  - apply (may_append_ok d); assumption.
  - apply (may_before_ok d); assumption.
  - destruct Ha as (He & H1 & H2). split; [apply (node_of_live d s e HR); exact He|]. split.
    + intros (q & Hq). apply (may_before_ok d); [exact HG|]. apply H1. exists q. apply (kid_iff d s q e HR HW). exact Hq.
    + intros Hn. apply (may_append_ok d); [exact HG|]. apply H2. intros q Hq. apply (Hn q). apply (kid_iff d s q e HR HW). exact Hq.
  - destruct Ha as (e & He & Ht). apply (node_of_live d s t HR) in Ht. split; [exact Ht|]. exists e.
    rewrite (data_of_rep d s t HR (proj2 Ht)) in He. congruence.
  - apply (node_of_live d s t HR). exact Ha.
  - destruct Ha as (H1 & H2 & H3 & H4). rewrite (node_of_live d s n HR) in H1. rewrite (node_of_live d s p HR) in H2. rewrite (below_iff d s n p HR HW) in H4. auto.
Qed.

Lemma reach_good d : reach d -> exists s, good d s.
Proof.
  induction 1 as [|d o d' _ (s & HG) Ha Hs].
  - exists a_init. apply init_good.
  - destruct (step_refines d s o HG (allowed_admissible d s o HG Ha)) as (d1 & E & HG1).
    rewrite Hs in E. injection E as <-. eauto.
Qed.

Lemma reach_no_panic d o : reach d -> allowed d o -> exists d', step d o = Ok d' /\ reach d'.
Proof.
  intros Hd Ha. destruct (reach_good d Hd) as (s & HG).
  destruct (step_refines d s o HG (allowed_admissible d s o HG Ha)) as (d1 & E & HG1).
  exists d1. split; [exact E|]. eapply reach_step; eassumption.
Qed.

Lemma reach_links d : reach d -> links_consistent d.
Proof. intros H. destruct (reach_good d H) as (s & HG). eapply good_consistent; exact HG. Qed.

Lemma reach_acyclic d k : reach d -> ~ below d k k.
Proof.
  intros H Hb. destruct (reach_good d H) as (s & HR & HW). apply (below_iff d s k k HR HW) in Hb.
  exact (wf_acyclic _ HW _ Hb).
Qed.

Lemma reach_kids d p : reach d -> node_of d p ->
  exists l, kids d p l /\ NoDup l /\ (forall k, In k l <-> (node_of d k /\ parent_of d k = Some p)).
Proof.
  intros H Hp. destruct (reach_good d H) as (s & HR & HW). apply (node_of_live d s p HR) in Hp.
  exists (a_children s p). split; [apply kids_children; auto; apply Hp|]. split; [apply HW|]. intros k. split.
  - intros Hk. destruct (wf_range _ HW _ _ Hk) as [_ Hr]. split; [apply (node_of_live d s k HR); unfold live; lia|].
    rewrite (parent_of_rep d s k HR HW) by lia. apply a_parent_child; assumption.
  - intros [Hn Hpk]. apply (node_of_live d s k HR) in Hn. rewrite (parent_of_rep d s k HR HW) in Hpk by apply Hn.
    apply a_parent_Some in Hpk. exact Hpk.
Qed.

(* ---------------- edit effects ---------------- *)
Lemma append_node_effect d p c : reach d -> may_append d p (CNode c) ->
  exists d', sink_append d p (CNode c) = Ok d' /\
    (forall l, kids d p l -> kids d' p (drop c l ++ [c])) /\
    (forall q l, q <> p -> kids d q l -> kids d' q (drop c l)) /\
    (forall i, data_of d' i = data_of d i) /\ parent_of d' c = Some p.
Proof.
  intros Hd Ha. destruct (reach_good d Hd) as (s & HG). pose proof HG as [HR HW].
  destruct (sink_append_refines d s p (CNode c) HG (may_append_ok d s p _ HG Ha)) as (d' & E & HR' & HW').
  exists d'. cbn [a_sink_append] in *. split; [exact E|]. split; [|split; [|split]].
  - intros l Hl. apply (kids_iff d s p l HR HW) in Hl. destruct Hl as [Hp ->].
    apply (kids_iff d' _ p _ HR' HW'). split; [exact Hp|]. cbn. rewrite Nat.eqb_refl, without_drop. reflexivity.
  - intros q l Hq Hl. apply (kids_iff d s q l HR HW) in Hl. destruct Hl as [Hp ->].
    apply (kids_iff d' _ q _ HR' HW'). split; [exact Hp|]. cbn. destruct (Nat.eqb_spec q p); [congruence|]. rewrite without_drop. reflexivity.
  - intros i. destruct (Nat.lt_ge_cases i (a_count s)) as [Hi|Hi].
    + rewrite (data_of_rep d s i HR Hi), (data_of_rep d' _ i HR' Hi). reflexivity.
    + unfold data_of. rewrite (proj2 (nth_error_None (nodes d) i)) by (rewrite (rep_count _ _ HR); exact Hi).
      rewrite (proj2 (nth_error_None (nodes d') i)) by (rewrite (rep_count _ _ HR'); exact Hi). reflexivity.
  - destruct Ha as (Hp & Hc & _). apply (node_of_live d s c HR) in Hc.
    rewrite (parent_of_rep d' _ c HR' HW') by apply Hc. apply a_parent_child; [exact HW'|]. apply child_of_append. right. auto.
Qed.

Lemma insert_in_app sib c a b : ~ In sib a -> insert_in sib c (a ++ sib :: b) = a ++ c :: sib :: b.
Proof.
  induction a as [|x a IH]; intros Hn; cbn [app insert_in].
  - rewrite Nat.eqb_refl. reflexivity.
  - destruct (Nat.eqb_spec x sib) as [->|]; [exfalso; apply Hn; left; reflexivity|]. rewrite IH; [reflexivity|].
    intros H. apply Hn. right. exact H.
Qed.
Lemma insert_in_none sib c a : ~ In sib a -> insert_in sib c a = a.
Proof.
  induction a as [|x a IH]; intros Hn; cbn [insert_in]; [reflexivity|].
  destruct (Nat.eqb_spec x sib) as [->|]; [exfalso; apply Hn; left; reflexivity|]. rewrite IH; [reflexivity|].
  intros H. apply Hn. right. exact H.
Qed.

Lemma insert_node_effect d sib c : reach d -> may_insert_before d sib (CNode c) ->
  exists d', sink_append_before_sibling d sib (CNode c) = Ok d' /\
    (forall q a b, kids d q (a ++ sib :: b) -> kids d' q (drop c a ++ c :: sib :: drop c b)) /\
    (forall q l, kids d q l -> ~ In sib l -> kids d' q (drop c l)) /\
    (forall i, data_of d' i = data_of d i).
Proof.
  intros Hd Ha. destruct (reach_good d Hd) as (s & HG). pose proof HG as [HR HW].
  destruct (sink_before_refines d s sib (CNode c) HG (may_before_ok d s sib _ HG Ha)) as (d' & E & HR' & HW').
  exists d'. cbn [a_sink_before] in *. split; [exact E|]. destruct Ha as (_ & _ & _ & Hne & _). split; [|split].
  - intros q a b Hl. apply (kids_iff d s q _ HR HW) in Hl. destruct Hl as [Hp El].
    apply (kids_iff d' _ q _ HR' HW'). split; [exact Hp|]. cbn. rewrite <- El, without_drop. unfold drop.
    rewrite remove_app. cbn [remove]. destruct (Nat.eq_dec c sib); [congruence|]. rewrite insert_in_app; [reflexivity|].
    intros Hin. apply in_remove in Hin. pose proof (wf_nodup _ HW q) as Hnd. rewrite <- El in Hnd.
    apply NoDup_split_notin in Hnd. tauto.
  - intros q l Hl Hs. apply (kids_iff d s q l HR HW) in Hl. destruct Hl as [Hp ->].
    apply (kids_iff d' _ q _ HR' HW'). split; [exact Hp|]. cbn. rewrite without_drop. rewrite insert_in_none; [reflexivity|].
    intros Hin. apply in_remove in Hin. tauto.
  - intros i. destruct (Nat.lt_ge_cases i (a_count s)) as [Hi|Hi].
    + rewrite (data_of_rep d s i HR Hi), (data_of_rep d' _ i HR' Hi). reflexivity.
    + unfold data_of. rewrite (proj2 (nth_error_None (nodes d) i)) by (rewrite (rep_count _ _ HR); exact Hi).
      rewrite (proj2 (nth_error_None (nodes d') i)) by (rewrite (rep_count _ _ HR'); exact Hi). reflexivity.
Qed.

Lemma remove_effect d c : reach d -> node_of d c ->
  exists d', remove_from_parent d c = Ok d' /\
    (forall q l, kids d q l -> kids d' q (drop c l)) /\
    (forall i, data_of d' i = data_of d i) /\ parent_of d' c = None.
Proof.
  intros Hd Hc. destruct (reach_good d Hd) as (s & HR & HW). apply (node_of_live d s c HR) in Hc.
  destruct (detach_refines d s HR HW c Hc) as (d' & E & HR').
  pose proof (wf_remove s c HW) as HW'. exists d'. split; [exact E|]. split; [|split].
  - intros q l Hl. apply (kids_iff d s q l HR HW) in Hl. destruct Hl as [Hp ->].
    apply (kids_iff d' _ q _ HR' HW'). split; [exact Hp|]. cbn. rewrite without_drop. reflexivity.
  - intros i. destruct (Nat.lt_ge_cases i (a_count s)) as [Hi|Hi].
    + rewrite (data_of_rep d s i HR Hi), (data_of_rep d' _ i HR' Hi). reflexivity.
    + unfold data_of. rewrite (proj2 (nth_error_None (nodes d) i)) by (rewrite (rep_count _ _ HR); exact Hi).
      rewrite (proj2 (nth_error_None (nodes d') i)) by (rewrite (rep_count _ _ HR'); exact Hi). reflexivity.
  - rewrite (parent_of_rep d' _ c HR' HW') by apply Hc. destruct (a_parent (a_remove s c) c) as [q|] eqn:Eq; [|reflexivity].
    apply a_parent_Some in Eq. apply child_of_remove in Eq. tauto.
Qed.

(* ---------------- text ---------------- *)
(** [text_at d d' a b t]: the new state after putting text t between the sibling lists a and b. *)
Lemma own_text_data d d' i : data_of d' i = data_of d i -> own_text d' i = own_text d i.
Proof. unfold own_text. intros ->. reflexivity. Qed.

Lemma data_len d i dt : data_of d i = Some dt -> i < length (nodes d).
Proof. unfold data_of. destruct (nth_error (nodes d) i) eqn:E; [|discriminate]. intros _. apply nth_error_Some. congruence. Qed.

Lemma rep_data_ge d s i : Rep d s -> a_count s <= i -> data_of d i = None.
Proof. intros HR Hi. unfold data_of. rewrite (proj2 (nth_error_None (nodes d) i)) by (rewrite (rep_count _ _ HR); exact Hi). reflexivity. Qed.

Lemma append_text_effect d p t l : reach d -> node_of d p -> kids d p l ->
  exists d', sink_append d p (CText t) = Ok d' /\
  ((exists l0 k u, l = l0 ++ [k] /\ data_of d k = Some (DText u) /\
      data_of d' k = Some (DText (u ++ t)) /\ (forall i, i <> k -> data_of d' i = data_of d i) /\
      (forall q l', kids d q l' -> kids d' q l'))
   \/ ((forall l0 k u, l = l0 ++ [k] -> data_of d k <> Some (DText u)) /\
      exists k, data_of d k = None /\ data_of d' k = Some (DText t) /\ (forall i, i <> k -> data_of d' i = data_of d i) /\
      kids d' p (l ++ [k]) /\ (forall q l', q <> p -> kids d q l' -> kids d' q l'))).
Proof.
  intros Hd Hp Hl. destruct (reach_good d Hd) as (s & HG). pose proof HG as [HR HW].
  assert (may_append d p (CText t)) as Ha by (split; [exact Hp|exact I]).
  destruct (sink_append_refines d s p (CText t) HG (may_append_ok d s p _ HG Ha)) as (d' & E & HR' & HW').
  exists d'. split; [exact E|]. apply (kids_iff d s p l HR HW) in Hl. destruct Hl as [Hpc El]. cbn [a_sink_append] in *.
  assert (forall s1, Rep d' s1 -> AWf s1 -> s1 = a_append (a_new s (DText t)) p (a_count s) ->
    exists k, data_of d k = None /\ data_of d' k = Some (DText t) /\ (forall i, i <> k -> data_of d' i = data_of d i) /\
      kids d' p (l ++ [k]) /\ (forall q l', q <> p -> kids d q l' -> kids d' q l')) as Hfresh.
  { intros s1 HR1 HW1 ->. exists (a_count s).
    assert (forall q, ~ In (a_count s) (a_children s q)) as Hno.
    { intros q Hq. destruct (wf_range _ HW _ _ Hq) as [_ H]. lia. }
    split; [|split; [|split; [|split]]].
    - apply (rep_data_ge d s); auto.
    - rewrite (data_of_rep d' _ _ HR1) by (cbn; lia). cbn. rewrite Nat.eqb_refl. reflexivity.
    - intros i Hi. destruct (Nat.lt_ge_cases i (a_count s)) as [Hlt|Hge].
      + rewrite (data_of_rep d s i HR Hlt), (data_of_rep d' _ i HR1) by (cbn; lia). cbn.
        destruct (Nat.eqb_spec i (a_count s)); [lia|reflexivity].
      + rewrite (rep_data_ge d s i HR Hge), (rep_data_ge d' _ i HR1) by (cbn; lia). reflexivity.
    - apply (kids_iff d' _ p _ HR1 HW1). split; [cbn; lia|]. cbn. rewrite Nat.eqb_refl, without_drop, drop_notin, El by apply Hno. reflexivity.
    - intros q l' Hq Hl'. apply (kids_iff d s q l' HR HW) in Hl'. destruct Hl' as [Hqc ->].
      apply (kids_iff d' _ q _ HR1 HW1). split; [cbn; lia|]. cbn. destruct (Nat.eqb_spec q p); [congruence|].
      rewrite without_drop, drop_notin by apply Hno. reflexivity. }
  unfold a_text in HR', HW'. destruct (last_error (a_children s p)) as [k|] eqn:Ek.
  - assert (exists l0, l = l0 ++ [k]) as (l0 & El0).
    { subst l. unfold last_error in Ek. destruct (rev (a_children s p)) as [|x r] eqn:Er; [discriminate|]. cbn in Ek. injection Ek as ->.
      exists (rev r). rewrite <- (rev_involutive (a_children s p)), Er. reflexivity. }
    assert (child_of s p k) as Hk by (apply last_error_In; exact Ek).
    destruct (wf_range _ HW _ _ Hk) as [_ Hkr].
    destruct (a_data s k) as [| |u| |e|] eqn:Ed;
      try (right; split; [intros l1 k1 u1 E1 Hk1; subst l; rewrite El0 in E1; apply app_inj_tail in E1; destruct E1 as [_ <-];
             rewrite (data_of_rep d s k HR) in Hk1 by lia; congruence|eapply Hfresh; eauto]).
    left. exists l0, k, u. split; [exact El0|]. split; [rewrite (data_of_rep d s k HR) by lia; congruence|]. split; [|split].
    + rewrite (data_of_rep d' _ k HR') by (cbn; lia). cbn. rewrite Nat.eqb_refl. reflexivity.
    + intros i Hi. destruct (Nat.lt_ge_cases i (a_count s)) as [Hlt|Hge].
      * rewrite (data_of_rep d s i HR Hlt), (data_of_rep d' _ i HR') by (cbn; lia). cbn.
        destruct (Nat.eqb_spec i k); [congruence|reflexivity].
      * rewrite (rep_data_ge d s i HR Hge), (rep_data_ge d' _ i HR') by (cbn; lia). reflexivity.
    + intros q l' Hl'. apply (kids_iff d s q l' HR HW) in Hl'. destruct Hl' as [Hqc ->].
      apply (kids_iff d' _ q _ HR' HW'). split; [cbn; lia|]. reflexivity.
  - right. split; [|eapply Hfresh; eauto]. intros l0 k u E1. subst l. rewrite E1 in Ek. unfold last_error in Ek.
    rewrite rev_app_distr in Ek. discriminate.
Qed.

Lemma flat_map_own d d' (l : list node_id) : (forall i, In i l -> data_of d' i = data_of d i) ->
  flat_map (own_text d') l = flat_map (own_text d) l.
Proof.
  induction l as [|x l IH]; intros H; [reflexivity|]. cbn. rewrite IH, (own_text_data d d' x); auto.
  - apply H. left. reflexivity.
  - intros i Hi. apply H. right. exact Hi.
Qed.

Lemma kids_nodup d p l : reach d -> kids d p l -> NoDup l.
Proof. intros H Hk. destruct (reach_good d H) as (s & HR & HW). apply (kids_iff d s p l HR HW) in Hk. destruct Hk as [_ ->]. apply HW. Qed.
Lemma kids_data d p l k : reach d -> kids d p l -> In k l -> data_of d k <> None.
Proof.
  intros H Hk Hin. destruct (reach_good d H) as (s & HR & HW). apply (kids_iff d s p l HR HW) in Hk. destruct Hk as [_ ->].
  rewrite (data_of_rep d s k HR); [discriminate|]. apply (wf_range _ HW _ _ Hin).
Qed.

Lemma append_text_content d p t l : reach d -> node_of d p -> kids d p l ->
  exists d' l', sink_append d p (CText t) = Ok d' /\ kids d' p l' /\
    flat_map (own_text d') l' = flat_map (own_text d) l ++ t.
Proof.
  intros Hd Hp Hl. destruct (append_text_effect d p t l Hd Hp Hl) as (d' & E & H). exists d'.
  pose proof (kids_nodup _ _ _ Hd Hl) as Hnd.
  destruct H as [(l0 & k & u & -> & H1 & H2 & H3 & H4)|(_ & k & H1 & H2 & H3 & H4 & H5)].
  - exists (l0 ++ [k]). split; [exact E|]. split; [apply H4; exact Hl|].
    rewrite !flat_map_app. cbn [flat_map]. unfold own_text at 2 4. rewrite H1, H2, !app_nil_r, <- app_assoc. f_equal.
    apply flat_map_own. intros i Hi. apply H3. intros ->. apply NoDup_remove_2 in Hnd. apply Hnd. rewrite app_nil_r. exact Hi.
  - exists (l ++ [k]). split; [exact E|]. split; [exact H4|].
    rewrite !flat_map_app. cbn [flat_map]. unfold own_text at 2. rewrite H2, !app_nil_r. f_equal.
    apply flat_map_own. intros i Hi. apply H3. intros ->. exact (kids_data _ _ _ _ Hd Hl Hi H1).
Qed.

Lemma prev_of_app_last (a : list nat) k sib b : NoDup (a ++ k :: sib :: b) -> prev_of sib (a ++ k :: sib :: b) = Some k.
Proof.
  intros Hnd. apply (proj1 (next_prev k sib _ Hnd)). rewrite next_of_split; [reflexivity|].
  apply NoDup_split_notin in Hnd. apply Hnd.
Qed.
Lemma prev_of_app_hd sib (b : list nat) : NoDup (sib :: b) -> prev_of sib (sib :: b) = None.
Proof. intros Hnd. apply prev_None_hd; [exact Hnd|left; reflexivity|reflexivity]. Qed.

Lemma before_text_effect d p sib t a b : reach d -> kids d p (a ++ sib :: b) ->
  exists d', sink_append_before_sibling d sib (CText t) = Ok d' /\
  ((exists a0 k u, a = a0 ++ [k] /\ data_of d k = Some (DText u) /\
      data_of d' k = Some (DText (u ++ t)) /\ (forall i, i <> k -> data_of d' i = data_of d i) /\
      (forall q l', kids d q l' -> kids d' q l'))
   \/ ((forall a0 k u, a = a0 ++ [k] -> data_of d k <> Some (DText u)) /\
      exists k, data_of d k = None /\ data_of d' k = Some (DText t) /\ (forall i, i <> k -> data_of d' i = data_of d i) /\
      kids d' p (a ++ k :: sib :: b) /\ (forall q l', q <> p -> kids d q l' -> kids d' q l'))).
Proof.
  intros Hd Hl. destruct (reach_good d Hd) as (s & HG). pose proof HG as [HR HW].
  assert (kid d p sib) as Hkid by (exists (a ++ sib :: b); split; [exact Hl|apply in_or_app; right; left; reflexivity]).
  assert (may_insert_before d sib (CText t)) as Ha by (split; [eauto|exact I]).
  destruct (sink_before_refines d s sib (CText t) HG (may_before_ok d s sib _ HG Ha)) as (d' & E & HR' & HW').
  exists d'. split; [exact E|]. apply (kids_iff d s p _ HR HW) in Hl. destruct Hl as [Hpc El]. cbn [a_sink_before] in *.
  apply (kid_iff d s p sib HR HW) in Hkid. rewrite (a_parent_child _ _ _ HW Hkid) in HR', HW'.
  pose proof (wf_nodup _ HW p) as Hnd. rewrite <- El in Hnd.
  assert (forall s1, Rep d' s1 -> AWf s1 -> s1 = a_insert_before (a_new s (DText t)) sib (a_count s) ->
    exists k, data_of d k = None /\ data_of d' k = Some (DText t) /\ (forall i, i <> k -> data_of d' i = data_of d i) /\
      kids d' p (a ++ k :: sib :: b) /\ (forall q l', q <> p -> kids d q l' -> kids d' q l')) as Hfresh.
  { intros s1 HR1 HW1 ->. exists (a_count s).
    assert (forall q, ~ In (a_count s) (a_children s q)) as Hno.
    { intros q Hq. destruct (wf_range _ HW _ _ Hq) as [_ H]. lia. }
    split; [|split; [|split; [|split]]].
    - apply (rep_data_ge d s); auto.
    - rewrite (data_of_rep d' _ _ HR1) by (cbn; lia). cbn. rewrite Nat.eqb_refl. reflexivity.
    - intros i Hi. destruct (Nat.lt_ge_cases i (a_count s)) as [Hlt|Hge].
      + rewrite (data_of_rep d s i HR Hlt), (data_of_rep d' _ i HR1) by (cbn; lia). cbn.
        destruct (Nat.eqb_spec i (a_count s)); [lia|reflexivity].
      + rewrite (rep_data_ge d s i HR Hge), (rep_data_ge d' _ i HR1) by (cbn; lia). reflexivity.
    - apply (kids_iff d' _ p _ HR1 HW1). split; [cbn; lia|]. cbn. rewrite without_drop, drop_notin by apply Hno.
      rewrite <- El. rewrite insert_in_app; [reflexivity|]. apply NoDup_split_notin in Hnd. apply Hnd.
    - intros q l' Hq Hl'. apply (kids_iff d s q l' HR HW) in Hl'. destruct Hl' as [Hqc ->].
      apply (kids_iff d' _ q _ HR1 HW1). split; [cbn; lia|]. cbn.
      rewrite without_drop, drop_notin by apply Hno. rewrite insert_in_none; [reflexivity|].
      intros Hs. apply Hq. exact (wf_parent _ HW q p sib Hs Hkid). }
  rewrite <- El in HR', HW'. unfold a_text in HR', HW'.
  destruct (rev a) as [|k r] eqn:Er.
  - assert (a = []) as -> by (rewrite <- (rev_involutive a), Er; reflexivity). cbn [app] in *.
    rewrite prev_of_app_hd in HR', HW' by exact Hnd. right. split; [|eapply Hfresh; eauto].
    intros a0 k u E1. destruct a0; discriminate.
  - assert (a = rev r ++ [k]) as Ea by (rewrite <- (rev_involutive a), Er; reflexivity).
    assert (a ++ sib :: b = rev r ++ k :: sib :: b) as Eab by (rewrite Ea, <- app_assoc; reflexivity).
    rewrite Eab in HR', HW'. rewrite Eab in Hnd. rewrite prev_of_app_last in HR', HW' by exact Hnd.
    assert (child_of s p k) as Hk by (unfold child_of; rewrite <- El, Eab; apply in_or_app; right; left; reflexivity).
    destruct (wf_range _ HW _ _ Hk) as [_ Hkr].
    destruct (a_data s k) as [| |u| |e|] eqn:Ed;
      try (right; split; [intros l1 k1 u1 E1 Hk1; rewrite Ea in E1; apply app_inj_tail in E1; destruct E1 as [_ <-];
             rewrite (data_of_rep d s k HR) in Hk1 by lia; congruence|eapply Hfresh; eauto]).
    left. exists (rev r), k, u. split; [exact Ea|]. split; [rewrite (data_of_rep d s k HR) by lia; congruence|]. split; [|split].
    + rewrite (data_of_rep d' _ k HR') by (cbn; lia). cbn. rewrite Nat.eqb_refl. reflexivity.
    + intros i Hi. destruct (Nat.lt_ge_cases i (a_count s)) as [Hlt|Hge].
      * rewrite (data_of_rep d s i HR Hlt), (data_of_rep d' _ i HR') by (cbn; lia). cbn.
        destruct (Nat.eqb_spec i k); [congruence|reflexivity].
      * rewrite (rep_data_ge d s i HR Hge), (rep_data_ge d' _ i HR') by (cbn; lia). reflexivity.
    + intros q l' Hl'. apply (kids_iff d s q l' HR HW) in Hl'. destruct Hl' as [Hqc ->].
      apply (kids_iff d' _ q _ HR' HW'). split; [cbn; lia|]. reflexivity.
Qed.

Lemma before_text_content d p sib t a b : reach d -> kids d p (a ++ sib :: b) ->
  exists d' a', sink_append_before_sibling d sib (CText t) = Ok d' /\ kids d' p (a' ++ sib :: b) /\
    flat_map (own_text d') a' = flat_map (own_text d) a ++ t /\
    flat_map (own_text d') (sib :: b) = flat_map (own_text d) (sib :: b).
Proof.
  intros Hd Hl. destruct (before_text_effect d p sib t a b Hd Hl) as (d' & E & H). exists d'.
  pose proof (kids_nodup _ _ _ Hd Hl) as Hnd.
  destruct H as [(l0 & k & u & -> & H1 & H2 & H3 & H4)|(_ & k & H1 & H2 & H3 & H4 & H5)].
  - exists (l0 ++ [k]). split; [exact E|]. split; [apply H4; exact Hl|].
    rewrite <- app_assoc in Hnd. cbn in Hnd. apply NoDup_remove_2 in Hnd. split.
    + rewrite !flat_map_app. cbn [flat_map]. unfold own_text at 2 4. rewrite H1, H2, !app_nil_r, <- app_assoc. f_equal.
      apply flat_map_own. intros i Hi. apply H3. intros ->. apply Hnd. apply in_or_app. left. exact Hi.
    + apply flat_map_own. intros i Hi. apply H3. intros ->. apply Hnd. apply in_or_app. right. exact Hi.
  - exists (a ++ [k]). split; [exact E|]. rewrite <- app_assoc. split; [exact H4|]. split.
    + rewrite !flat_map_app. cbn [flat_map]. unfold own_text at 2. rewrite H2, !app_nil_r. f_equal.
      apply flat_map_own. intros i Hi. apply H3. intros ->.
      apply (kids_data _ _ _ k Hd Hl); [|exact H1]. apply in_or_app. left. exact Hi.
    + apply flat_map_own. intros i Hi. apply H3. intros ->.
      apply (kids_data _ _ _ k Hd Hl); [|exact H1]. apply in_or_app. right. exact Hi.
Qed.

(* ---------------- traversal ---------------- *)
Lemma reach_traversal d : reach d ->
  exists t, arena_tree d document_node_id t /\
    (forall f, S (length (nodes d)) <= f -> doc_nodes f d = Ok (preorder t)) /\
    NoDup (preorder t) /\
    (forall x, In x (preorder t) <-> x = document_node_id \/ below d document_node_id x).
Proof.
  intros Hd. destruct (reach_good d Hd) as (s & HR & HW). destruct (doc_nodes_tree d s HR HW) as (t & Ht & Hrun).
  exists t. pose proof (wf_count _ HW). split; [|split; [exact Hrun|split]].
  - apply (arena_tree_iff d s); auto.
  - eapply tree_nodup; eassumption.
  - intros x. rewrite (tree_members _ _ _ Ht x), (below_iff d s _ x HR HW). reflexivity.
Qed.

(* ---------------- root element ---------------- *)
Definition top_ok (dt : option node_data) : bool :=
  match dt with Some (DDoctype) | Some DComment | Some DPI | Some (DElement _) => true | _ => false end.
Definition is_elem_data (dt : option node_data) : bool :=
  match dt with Some (DElement _) => true | _ => false end.

Lemma root_scan_spec d l : (forall i, In i l -> data_of d i <> None) -> forall root r,
  root_scan d l root = Ok r <->
  (forallb (fun i => top_ok (data_of d i)) l = true /\
   match root, filter (fun i => is_elem_data (data_of d i)) l with
   | Some x, [] => r = Some x
   | Some _, _ :: _ => False
   | None, [] => r = None
   | None, [x] => r = Some x
   | None, _ => False
   end).
Proof.
  intros Hl. induction l as [|c l IH]; intros root r.
  - cbn. destruct root; split; [intros E; injection E as <-; auto|intros [_ ->]; reflexivity|intros E; injection E as <-; auto|intros [_ ->]; reflexivity].
  - assert (forall root r, root_scan d l root = Ok r <-> (forallb (fun i => top_ok (data_of d i)) l = true /\
      match root, filter (fun i => is_elem_data (data_of d i)) l with
      | Some x, [] => r = Some x | Some _, _ :: _ => False | None, [] => r = None | None, [x] => r = Some x | None, _ => False end)) as IH'.
    { apply IH. intros i Hi. apply Hl. right. exact Hi. } clear IH.
    assert (data_of d c <> None) as Hc by (apply Hl; left; reflexivity).
    cbn [root_scan forallb filter]. unfold getn. unfold data_of in Hc |- *. destruct (nth_error (nodes d) c) as [n|] eqn:En; [|exfalso; apply Hc; reflexivity].
    cbn [option_map bind]. destruct (n_data n); cbn [top_ok is_elem_data andb]; try (apply IH');
      try (split; [discriminate|intros [H _]; discriminate]).
    destruct root as [x|]; cbn [is_none check bind].
    + split; [discriminate|intros [_ []]].
    + rewrite IH'. unfold data_of. destruct (filter _ l); reflexivity.
Qed.

Lemma root_element_iff d r f l : reach d -> kids d document_node_id l -> length (nodes d) <= f ->
  (root_element f d = Ok r <->
   (forall i, In i l -> exists dt, data_of d i = Some dt /\
       match dt with DText _ | DDocument => False | _ => True end) /\
   In r l /\ (forall i, In i l -> ((exists e, data_of d i = Some (DElement e)) <-> i = r))).
Proof.
  intros Hd Hk Hf. destruct (reach_good d Hd) as (s & HR & HW).
  pose proof Hk as Hk0. apply (kids_iff d s _ l HR HW) in Hk0. destruct Hk0 as [Hdoc El].
  destruct (rep_node _ _ HR _ Hdoc) as (n & Hn & Hlk).
  destruct (lk_orphan _ _ _ Hlk (doc_orphan s HW)) as (E1 & E2 & E3).
  unfold root_element. rewrite (getn_ok _ _ _ Hn). cbn [bind]. rewrite (lk_data _ _ _ Hlk), (wf_doc _ HW), E1, E2, E3. cbn [check is_none bind].
  rewrite (lk_first _ _ _ Hlk), <- El.
  assert (forall i, In i l -> data_of d i <> None) as Hdata.
  { intros i Hi. eapply kids_data; eassumption. }
  pose proof (kids_nodup _ _ _ Hd Hk) as Hnd.
  destruct l as [|c l'].
  - cbn [hd_error]. split; [discriminate|intros (_ & [] & _)].
  - cbn [hd_error]. rewrite (chain_following d (Some c) (c :: l')).
    2:{ apply (chain_suffix d s document_node_id HR HW (c :: l') []). rewrite <- El. reflexivity. }
    2:{ rewrite El. pose proof (kids_len d s document_node_id HR HW). lia. }
    cbn [bind]. remember (c :: l') as l eqn:Ec. clear Ec c l'.
    transitivity (root_scan d l None = Ok (Some r)).
    { destruct (root_scan d l None) as [[i|]| |]; cbn [bind]; split; intros H; try discriminate; injection H as <-; reflexivity. }
    rewrite (root_scan_spec d l Hdata). split.
    + intros [Hall Hfil]. rewrite forallb_forall in Hall.
      destruct (filter (fun i => is_elem_data (data_of d i)) l) as [|x [|y m]] eqn:Efil; [discriminate| |contradiction].
      injection Hfil as ->.
      assert (forall i, In i [x] <-> In i l /\ is_elem_data (data_of d i) = true) as Hx.
      { intros i. rewrite <- Efil. apply filter_In. }
      split; [|split].
      * intros i Hi. specialize (Hall i Hi). cbn beta in Hall. destruct (data_of d i) as [dt|] eqn:Ei; [|discriminate].
        exists dt. split; [reflexivity|]. destruct dt; try discriminate; exact I.
      * apply (Hx x). left. reflexivity.
      * intros i Hi. split.
        -- intros (e & He). assert (In i [x]) as H by (apply Hx; rewrite He; auto). destruct H as [->|[]]. reflexivity.
        -- intros ->. destruct (proj1 (Hx x) (or_introl eq_refl)) as [_ H]. unfold is_elem_data in H.
           destruct (data_of d x) as [dt|]; [|discriminate]. destruct dt; try discriminate. eauto.
    + intros (H1 & H2 & H3). split.
      * apply forallb_forall. intros i Hi. destruct (H1 i Hi) as (dt & -> & Hdt). destruct dt; try contradiction; reflexivity.
      * assert (forall i, In i (filter (fun i => is_elem_data (data_of d i)) l) <-> i = r) as Hr.
        { intros i. rewrite filter_In. split.
          - intros [Hi He]. apply H3; [exact Hi|]. unfold is_elem_data in He. destruct (data_of d i) as [dt|]; [|discriminate]. destruct dt; try discriminate. eauto.
          - intros ->. split; [exact H2|]. destruct (proj2 (H3 r H2) eq_refl) as (e & He). rewrite He. reflexivity. }
        assert (NoDup (filter (fun i => is_elem_data (data_of d i)) l)) as Hndf by (apply NoDup_filter; exact Hnd).
        destruct (filter (fun i => is_elem_data (data_of d i)) l) as [|x [|y m]].
        -- exfalso. apply (proj2 (Hr r)). reflexivity.
        -- f_equal. symmetry. apply Hr. left. reflexivity.
        -- exfalso. inversion Hndf as [|? ? Hn1 _]; subst. apply Hn1. left.
           rewrite (proj1 (Hr x)), (proj1 (Hr y)); [reflexivity|right; left; reflexivity|left; reflexivity].
Qed.

Lemma root_element_total d f : reach d -> length (nodes d) <= f -> root_element f d <> OutOfFuel.
Proof.
  intros Hd Hf. destruct (reach_good d Hd) as (s & HR & HW).
  assert (document_node_id < a_count s) as Hdoc by (pose proof (wf_count _ HW); unfold document_node_id; lia).
  destruct (rep_node _ _ HR _ Hdoc) as (n & Hn & Hlk).
  destruct (lk_orphan _ _ _ Hlk (doc_orphan s HW)) as (E1 & E2 & E3).
  unfold root_element. rewrite (getn_ok _ _ _ Hn). cbn [bind]. rewrite (lk_data _ _ _ Hlk), (wf_doc _ HW), E1, E2, E3. cbn [check is_none bind].
  rewrite (lk_first _ _ _ Hlk). destruct (a_children s document_node_id) as [|c l'] eqn:El; cbn [hd_error]; [discriminate|].
  rewrite (chain_following d (Some c) (c :: l')).
  2:{ apply (chain_suffix d s document_node_id HR HW (c :: l') []). exact El. }
  2:{ rewrite <- El. pose proof (kids_len d s document_node_id HR HW). lia. }
  cbn [bind]. assert (forall l root, root_scan d l root <> OutOfFuel) as Hscan.
  { induction l as [|i l IH]; intros root; cbn [root_scan]; [discriminate|]. unfold getn. destruct (nth_error (nodes d) i); cbn [bind]; [|discriminate].
    destruct (n_data n0); try discriminate; try apply IH. destruct (is_none root); cbn [check bind]; [apply IH|discriminate]. }
  specialize (Hscan (c :: l') None). destruct (root_scan d (c :: l') None) as [[r|]| |]; cbn [bind]; congruence.
Qed.

(* ---------------- style sheets ---------------- *)
Definition styleb (dt : node_data) : bool := match dt with DElement e => is_style_nameb (e_name e) | _ => false end.
Definition Sty (s : astate) : Prop := a_styles s = filter (fun i => styleb (a_data s i)) (seq 0 (a_count s)).

Lemma Sty_new s dt : Sty s -> styleb dt = false -> Sty (a_new s dt).
Proof.
  unfold Sty. intros H Hd. cbn [a_new a_styles a_data a_count]. rewrite seq_S, filter_app. cbn [filter plus].
  rewrite Nat.eqb_refl, Hd, app_nil_r, H. apply filter_ext_in. intros i Hi. apply in_seq in Hi.
  destruct (Nat.eqb_spec i (a_count s)); [lia|reflexivity].
Qed.
Lemma Sty_new_style s dt : Sty s -> styleb dt = true -> Sty (a_add_style (a_new s dt) (a_count s)).
Proof.
  unfold Sty. intros H Hd. cbn [a_add_style a_new a_styles a_data a_count]. rewrite seq_S, filter_app. cbn [filter plus].
  rewrite Nat.eqb_refl, Hd, H. f_equal. apply filter_ext_in. intros i Hi. apply in_seq in Hi.
  destruct (Nat.eqb_spec i (a_count s)); [lia|reflexivity].
Qed.
Lemma Sty_children s f : Sty s -> Sty (with_children s f).
Proof. exact (fun H => H). Qed.
Lemma Sty_set s i dt : Sty s -> styleb dt = styleb (a_data s i) -> Sty (a_set_data s i dt).
Proof.
  unfold Sty. intros H Hd. cbn [a_set_data a_styles a_data a_count]. rewrite H. apply filter_ext. intros j.
  destruct (Nat.eqb_spec j i) as [->|]; congruence.
Qed.
Lemma Sty_text s prev t place : Sty s -> (forall s' k, Sty s' -> Sty (place s' k)) -> Sty (a_text s prev t place).
Proof.
  intros H Hp. unfold a_text. assert (Sty (place (a_new s (DText t)) (a_count s))) by (apply Hp, Sty_new; auto).
  destruct prev as [k|]; [|assumption]. destruct (a_data s k) eqn:Ed; try assumption. apply Sty_set; [exact H|rewrite Ed; reflexivity].
Qed.
Lemma Sty_step s o : Sty s -> Sty (astep s o).
Proof.
  intros H. destruct o as [name attrs| | |p c|sib c|e p c| |t attrs|t|n p]; cbn [astep].
  - destruct (is_style_nameb name) eqn:E; [apply Sty_new_style|apply Sty_new]; auto.
  - apply Sty_new; auto.
  - apply Sty_new; auto.
  - destruct c; [exact H|apply Sty_text; auto].
  - destruct c; [exact H|]. cbn. destruct (a_parent s sib); [apply Sty_text; auto|exact H].
  - destruct (a_parent s e) eqn:E.
    + destruct c; [exact H|]. cbn. rewrite E. apply Sty_text; auto.
    + destruct c; [exact H|apply Sty_text; auto].
  - apply (Sty_new s DDoctype H eq_refl).
  - destruct (a_data s t) eqn:E; try exact H. apply Sty_set; [exact H|]. rewrite E. reflexivity.
  - exact H.
  - destruct (a_children s n); exact H.
Qed.

Lemma reach_good_sty d : reach d -> exists s, good d s /\ Sty s.
Proof.
  induction 1 as [|d o d' _ (s & HG & HS) Ha Hs].
  - exists a_init. split; [apply init_good|reflexivity].
  - destruct (step_refines d s o HG (allowed_admissible d s o HG Ha)) as (d1 & E & HG1).
    rewrite Hs in E. injection E as <-. exists (astep s o). split; [exact HG1|apply Sty_step; exact HS].
Qed.

Lemma reach_styles d : reach d -> style_elements d = filter (style_element d) (seq 0 (length (nodes d))).
Proof.
  intros Hd. destruct (reach_good_sty d Hd) as (s & (HR & HW) & HS). rewrite (rep_styles _ _ HR), HS, (rep_count _ _ HR).
  apply filter_ext_in. intros i Hi. apply in_seq in Hi. unfold style_element. rewrite (data_of_rep d s i HR) by lia. reflexivity.
Qed.

Lemma style_sources_ok d s f : Rep d s -> AWf s -> length (nodes d) <= f -> forall ids,
  (forall i, In i ids -> style_element d i = true) ->
  exists srcs, style_sources f d ids = Ok srcs /\
    Forall2 (fun i t => exists l, kids d i l /\ t = flat_map (own_text d) l) (filter (css_type d) ids) srcs.
Proof.
  intros HR HW Hf. induction ids as [|i ids IH]; intros Hids.
  - exists []. split; [reflexivity|constructor].
  - destruct IH as (srcs & E & HF); [intros; apply Hids; right; assumption|].
    assert (style_element d i = true) as Hi by (apply Hids; left; reflexivity).
    unfold style_element in Hi. cbn [style_sources filter]. unfold css_type at 1.
    unfold data_of in Hi |- *. unfold getn. destruct (nth_error (nodes d) i) as [n|] eqn:En; [|discriminate].
    cbn [option_map bind] in Hi |- *. unfold as_element. destruct (n_data n) as [| |u| |e|] eqn:Ed; try discriminate.
    assert (exists l, kids d i l) as (l & Hl).
    { exists (a_children s i). apply kids_children; auto. rewrite <- (rep_count _ _ HR). apply nth_error_Some. congruence. }
    pose proof (child_text_ok d s i l f HR HW Hl Hf) as Et.
    destruct (get_attr e "type") as [v|].
    + unfold eq_ignore_ascii_case. change (lower "text/css") with "text/css"%string. destruct (String.eqb (lower v) "text/css"); cbn [negb].
      * rewrite Et, E. cbn [bind]. eexists. split; [reflexivity|]. constructor; eauto.
      * exists srcs. split; [exact E|exact HF].
    + rewrite Et, E. cbn [bind]. eexists. split; [reflexivity|]. constructor; eauto.
Qed.

Lemma parse_stylesheets_ok d user f : reach d -> length (nodes d) <= f ->
  exists srcs,
    parse_stylesheets f d user = Ok (match user with Some c => [c] | None => [] end ++ srcs) /\
    Forall2 (fun i t => exists l, kids d i l /\ t = flat_map (own_text d) l)
      (filter (css_type d) (filter (style_element d) (seq 0 (length (nodes d))))) srcs.
Proof.
  intros Hd Hf. destruct (reach_good d Hd) as (s & HR & HW). unfold parse_stylesheets. rewrite (reach_styles d Hd).
  destruct (style_sources_ok d s f HR HW Hf (filter (style_element d) (seq 0 (length (nodes d))))) as (srcs & E & HF).
  - intros i Hi. apply filter_In in Hi. apply Hi.
  - rewrite E. cbn [bind]. exists srcs. split; [reflexivity|exact HF].
Qed.

(* ---------------- reparent ---------------- *)
Lemma reparent_effect d n p c l : reach d -> allowed d (OReparent n p) -> kids d n (c :: l) ->
  exists d', step d (OReparent n p) = Ok d' /\ kids d' n l /\
    (forall lp, kids d p lp -> kids d' p (lp ++ [c])) /\
    (forall q lq, q <> n -> q <> p -> kids d q lq -> kids d' q lq).
Proof.
  intros Hd Ha Hk. destruct (reach_good d Hd) as (s & HG). pose proof HG as [HR HW].
  destruct (step_refines d s _ HG (allowed_admissible d s _ HG Ha)) as (d' & E & HR' & HW').
  exists d'. split; [exact E|]. apply (kids_iff d s n _ HR HW) in Hk. destruct Hk as [Hn El]. cbn [astep] in HR', HW'.
  rewrite <- El in HR', HW'. destruct Ha as (_ & _ & Hnp & _).
  assert (child_of s n c) as Hc by (unfold child_of; rewrite <- El; left; reflexivity).
  assert (forall q, q <> n -> ~ In c (a_children s q)) as Hother.
  { intros q Hq Hin. apply Hq. exact (wf_parent _ HW q n c Hin Hc). }
  split; [|split].
  - apply (kids_iff d' _ n _ HR' HW'). split; [exact Hn|]. cbn. destruct (Nat.eqb_spec n p); [congruence|].
    rewrite <- El, without_drop. unfold drop. cbn [remove]. destruct (Nat.eq_dec c c); [|congruence]. rewrite notin_remove; [reflexivity|].
    pose proof (wf_nodup _ HW n) as Hnd. rewrite <- El in Hnd. inversion Hnd; assumption.
  - intros lp Hl. apply (kids_iff d s p _ HR HW) in Hl. destruct Hl as [Hp ->]. apply (kids_iff d' _ p _ HR' HW'). split; [exact Hp|].
    cbn. rewrite Nat.eqb_refl, without_drop, drop_notin; [reflexivity|]. apply Hother. congruence.
  - intros q lq H1 H2 Hl. apply (kids_iff d s q _ HR HW) in Hl. destruct Hl as [Hq ->]. apply (kids_iff d' _ q _ HR' HW'). split; [exact Hq|].
    cbn. destruct (Nat.eqb_spec q p); [congruence|]. rewrite without_drop, drop_notin; [reflexivity|]. apply Hother. exact H1.
Qed.
Lemma reparent_effect_nil d n p : reach d -> allowed d (OReparent n p) -> kids d n [] ->
  exists d', step d (OReparent n p) = Ok d' /\ (forall q l, kids d q l -> kids d' q l).
Proof.
  intros Hd Ha Hk. destruct (reach_good d Hd) as (s & HG). pose proof HG as [HR HW].
  destruct (step_refines d s _ HG (allowed_admissible d s _ HG Ha)) as (d' & E & HR' & HW').
  exists d'. split; [exact E|]. apply (kids_iff d s n _ HR HW) in Hk. destruct Hk as [Hn El]. cbn [astep] in HR', HW'.
  rewrite <- El in HR', HW'. intros q l Hl. apply (kids_iff d s q _ HR HW) in Hl. apply (kids_iff d' s q _ HR' HW'). exact Hl.
Qed.

(* ---------------- attributes ---------------- *)
Lemma add_missing_prefix old new : exists extra, add_missing old new = old ++ extra /\ incl extra new.
Proof.
  unfold add_missing.
  exists (filter (fun a => negb (existsb (fun o => qname_eqb (a_name o) (a_name a)) old)) new).
  split; [reflexivity|]. intros x Hx. apply filter_In in Hx. apply Hx.
Qed.

Lemma qname_eqb_true a b : qname_eqb a b = true <-> a = b.
Proof.
  unfold qname_eqb. destruct a as [n1 l1], b as [n2 l2]. cbn. rewrite andb_true_iff, !String.eqb_eq.
  split; [intros [-> ->]; reflexivity|intros E; injection E; auto].
Qed.

Lemma find_app (A : Type) (f : A -> bool) l1 l2 x : find f l1 = Some x -> find f (l1 ++ l2) = Some x.
Proof. induction l1 as [|y l1 IH]; cbn; [discriminate|]. destruct (f y); auto. Qed.

Lemma add_missing_lookup name old new k v :
  get_attr (Elem name old) k = Some v -> get_attr (Elem name (add_missing old new)) k = Some v.
Proof.
  unfold get_attr. cbn [e_attrs]. destruct (find _ old) as [a|] eqn:E; [|discriminate]. intros H.
  unfold add_missing. rewrite (find_app _ _ _ _ _ E). exact H.
Qed.

Lemma add_missing_present old new a : In a new -> exists b, In b (add_missing old new) /\ a_name b = a_name a.
Proof.
  intros Ha. unfold add_missing. destruct (existsb (fun o => qname_eqb (a_name o) (a_name a)) old) eqn:E.
  - apply existsb_exists in E. destruct E as (b & Hb & Hq). apply qname_eqb_true in Hq. exists b. split; [apply in_or_app; auto|exact Hq].
  - exists a. split; [|reflexivity]. apply in_or_app. right. apply filter_In. rewrite E. auto.
Qed.

Lemma add_missing_new old new : exists extra,
  add_missing old new = old ++ extra /\
  (forall a, In a extra <-> In a new /\ forall o, In o old -> a_name o <> a_name a).
Proof.
  exists (filter (fun a => negb (existsb (fun o => qname_eqb (a_name o) (a_name a)) old)) new).
  split; [reflexivity|]. intros a. rewrite filter_In, negb_true_iff. split.
  - intros [H1 H2]. split; [exact H1|]. intros o Ho E. apply (proj2 (qname_eqb_true _ _)) in E.
    assert (existsb (fun o => qname_eqb (a_name o) (a_name a)) old = true) by (apply existsb_exists; eauto). congruence.
  - intros [H1 H2]. split; [exact H1|]. destruct (existsb _ old) eqn:E; [|reflexivity].
    apply existsb_exists in E. destruct E as (o & Ho & Hq). apply qname_eqb_true in Hq. exfalso. exact (H2 o Ho Hq).
Qed.

Lemma add_attrs_effect d t e attrs : reach d -> node_of d t -> data_of d t = Some (DElement e) ->
  exists d' extra, add_attrs_if_missing d t attrs = Ok d' /\
    data_of d' t = Some (DElement (Elem (e_name e) (e_attrs e ++ extra))) /\
    (forall a, In a extra <-> In a attrs /\ forall o, In o (e_attrs e) -> a_name o <> a_name a) /\
    (forall k v, get_attr e k = Some v -> get_attr (Elem (e_name e) (e_attrs e ++ extra)) k = Some v) /\
    (forall a, In a attrs -> exists b, In b (e_attrs e ++ extra) /\ a_name b = a_name a) /\
    (forall i, i <> t -> data_of d' i = data_of d i) /\ (forall q l, kids d q l -> kids d' q l).
Proof.
  intros Hd Ht He. destruct (reach_good d Hd) as (s & HG). pose proof HG as [HR HW].
  assert (allowed d (OAddAttrs t attrs)) as Ha by (exists e; auto).
  destruct (step_refines d s _ HG (allowed_admissible d s _ HG Ha)) as (d' & E & HR' & HW').
  apply (node_of_live d s t HR) in Ht. assert (a_data s t = DElement e) as Ed.
  { rewrite (data_of_rep d s t HR (proj2 Ht)) in He. congruence. }
  cbn [astep] in HR', HW'. rewrite Ed in HR', HW'.
  destruct (add_missing_new (e_attrs e) attrs) as (extra & Eex & Hex). exists d', extra. split; [exact E|].
  rewrite <- Eex. split; [|split; [|split; [|split; [|split]]]].
  - rewrite (data_of_rep d' _ t HR') by apply Ht. cbn. rewrite Nat.eqb_refl. reflexivity.
  - exact Hex.
  - intros k v H. destruct e as [n0 a0]. apply add_missing_lookup. exact H.
  - intros a Hin. apply add_missing_present. exact Hin.
  - intros i Hi. destruct (Nat.lt_ge_cases i (a_count s)) as [Hlt|Hge].
    + rewrite (data_of_rep d s i HR Hlt), (data_of_rep d' _ i HR') by (cbn; lia). cbn.
      destruct (Nat.eqb_spec i t); [congruence|reflexivity].
    + rewrite (rep_data_ge d s i HR Hge), (rep_data_ge d' _ i HR') by (cbn; lia). reflexivity.
  - intros q l Hl. apply (kids_iff d s q l HR HW) in Hl. destruct Hl as [Hqc ->].
    apply (kids_iff d' _ q _ HR' HW'). split; [cbn; lia|]. reflexivity.
Qed.

(* ---------------- building concrete reachable documents ---------------- *)
Lemma not_below_leaf d k p : reach d -> kids d k [] -> ~ below d k p.
Proof.
  intros Hd Hk Hb. destruct (reach_good d Hd) as (s & HR & HW). apply (kids_iff d s k _ HR HW) in Hk. destruct Hk as [_ El].
  apply (below_iff d s k p HR HW) in Hb. apply anc_child in Hb. destruct Hb as (c & Hc & _). unfold child_of in Hc. rewrite <- El in Hc. exact Hc.
Qed.
Lemma following_chain d f : forall o l, following_siblings f d o = Ok l -> chain d o l.
Proof.
  induction f as [|f IH]; intros o l H; destruct o as [i|]; cbn in H; try discriminate; try (injection H as <-; constructor).
  unfold getn in H. destruct (nth_error (nodes d) i) as [n|] eqn:En; [|discriminate]. cbn in H.
  destruct (following_siblings f d (n_next n)) as [r| |] eqn:Er; try discriminate. injection H as <-.
  econstructor; [exact En|]. apply IH. exact Er.
Qed.
Definition read_kids (d : doc) (p : node_id) : result (list node_id) :=
  do n <- getn d p; following_siblings (length (nodes d)) d (n_first n).
Lemma read_kids_ok d p l : read_kids d p = Ok l -> kids d p l.
Proof.
  unfold read_kids, getn. destruct (nth_error (nodes d) p) as [n|] eqn:En; [|discriminate]. cbn. intros H.
  exists n. split; [exact En|]. eapply following_chain; exact H.
Qed.
Ltac kids_tac := apply read_kids_ok; vm_compute; reflexivity.
Ltac node_tac := unfold node_of; vm_compute; lia.

Lemma below_parent d a b : reach d -> below d a b -> exists p, parent_of d b = Some p /\ (p = a \/ below d a p).
Proof.
  intros Hd Hb. destruct (reach_good d Hd) as (s & HR & HW). apply (below_iff d s a b HR HW) in Hb.
  pose proof (anc_live _ _ _ HW Hb) as [_ Hlb]. apply anc_parent in Hb. destruct Hb as (p & Hp & Hor). exists p. split.
  - rewrite (parent_of_rep d s b HR HW) by lia. apply a_parent_child; assumption.
  - destruct Hor as [->|H]; [auto|right]. apply (below_iff d s a p HR HW). exact H.
Qed.

Lemma kids_fun d p l1 l2 : kids d p l1 -> kids d p l2 -> l1 = l2.
Proof. intros (n1 & H1 & C1) (n2 & H2 & C2). assert (n1 = n2) by congruence. subst. eapply chain_fun; eassumption. Qed.
Lemma not_below_step d a b p : reach d -> parent_of d b = Some p -> p <> a -> ~ below d a p -> ~ below d a b.
Proof.
  intros Hd Hp Hne Hnb Hb. apply below_parent in Hb; [|exact Hd]. destruct Hb as (q & Hq & Hor).
  assert (p = q) by congruence. subst. destruct Hor; [congruence|contradiction].
Qed.
Lemma not_below_root d a b : reach d -> parent_of d b = None -> ~ below d a b.
Proof. intros Hd Hp Hb. apply below_parent in Hb; [|exact Hd]. destruct Hb as (q & Hq & _). congruence. Qed.
