(** Proofs about white space in box construction. *)
From Verif Require Import StyleModel StyleSpec StyleFacts TreeModel TreeSpec TreeFacts TreeProofs TreeInv BlockSpec.
Local Open Scope outcome_scope.

Section Any.
Context {ar : Arith}.

(* ------------------------------------------------------------------ *)
(** * Collapsing *)

Lemma squeeze_in after t c : In c (squeeze after t) -> is_ws c -> c = 32%N.
Proof.
  revert after. induction t as [|d t IH]; cbn; intros after H W; [contradiction|].
  destruct (ws_dec d) as [Hd|Hd].
  - destruct after; [eauto|]. destruct H as [<-|H]; [reflexivity|eauto].
  - destruct H as [<-|H]; [contradiction|eauto].
Qed.
Lemma squeeze_true_start t b : squeeze true t <> 32%N :: b.
Proof.
  induction t as [|d t IH]; cbn; [discriminate|]. destruct (ws_dec d) as [Hd|Hd]; [exact IH|].
  intros E. injection E as -> _. apply Hd. left; reflexivity.
Qed.
Lemma squeeze_no_double after t : forall a b, squeeze after t <> a ++ 32%N :: 32%N :: b.
Proof.
  revert after. induction t as [|d t IH]; cbn; intros after a b E; [destruct a; discriminate|].
  destruct (ws_dec d) as [Hd|Hd].
  - destruct after; [exact (IH _ _ _ E)|]. destruct a as [|x a]; cbn in E.
    + injection E as E. exact (squeeze_true_start _ _ E).
    + injection E as _ E. exact (IH _ _ _ E).
  - destruct a as [|x a]; cbn in E.
    + injection E as -> E. apply Hd. left; reflexivity.
    + injection E as _ E. exact (IH _ _ _ E).
Qed.
Lemma ws32 : is_ws 32%N. Proof. left; reflexivity. Qed.
Lemma squeeze_words after t w : (after = true -> w = []) -> words_from w (squeeze after t) = words_from w t.
Proof.
  revert after w. induction t as [|d t IH]; intros after w Hw; [reflexivity|]. cbn [squeeze words_from].
  destruct (ws_dec d) as [Hd|Hd].
  - destruct after.
    + rewrite Hw by reflexivity. cbn. apply IH. reflexivity.
    + cbn [words_from]. destruct (ws_dec 32%N) as [_|N]; [|exfalso; exact (N ws32)].
      f_equal. apply IH. reflexivity.
  - cbn [words_from]. destruct (ws_dec d) as [H|_]; [contradiction|]. apply IH. discriminate.
Qed.
Lemma squeeze_idem after t : squeeze after (squeeze after t) = squeeze after t.
Proof.
  revert after. induction t as [|d t IH]; intros after; [reflexivity|]. cbn [squeeze].
  destruct (ws_dec d) as [Hd|Hd].
  - destruct after; [apply IH|]. cbn [squeeze]. destruct (ws_dec 32%N) as [_|N]; [|exfalso; exact (N ws32)].
    f_equal. apply IH.
  - cbn [squeeze]. destruct (ws_dec d) as [H|_]; [contradiction|]. f_equal. apply IH.
Qed.
Lemma squeeze_solid after t : solid (squeeze after t) = solid t.
Proof.
  revert after. induction t as [|d t IH]; intros after; [reflexivity|]. cbn [squeeze].
  unfold solid in *. cbn [filter]. destruct (ws_dec d) as [Hd|Hd].
  - destruct after; [apply IH|]. cbn [filter]. destruct (ws_dec 32%N) as [_|N]; [|exfalso; exact (N ws32)]. apply IH.
  - cbn [filter]. destruct (ws_dec d) as [H|_]; [contradiction|]. f_equal. apply IH.
Qed.

Lemma ends_cons c t : t <> [] -> ends_in_space (c :: t) = ends_in_space t.
Proof. intros H. change (c :: t) with ([c] ++ t). apply ends_in_space_app. exact H. Qed.
Lemma ends_one c : ends_in_space [c] = if in_dec N.eq_dec c [32; 10]%N then true else false.
Proof. reflexivity. Qed.
(** Collapsing a text in pieces. *)
Lemma squeeze_app s t1 t2 :
  squeeze (at_boundary s) (t1 ++ t2) =
  squeeze (at_boundary s) t1 ++ squeeze (at_boundary (after_text s (squeeze (at_boundary s) t1))) t2.
Proof.
  revert s. induction t1 as [|d t1 IH]; intros s; [reflexivity|]. cbn [squeeze app].
  destruct (ws_dec d) as [Hd|Hd].
  - destruct (at_boundary s) eqn:Es.
    + specialize (IH s). rewrite Es in IH. exact IH.
    + cbn [app]. f_equal. etransitivity; [exact (IH (Some true))|]. cbn [at_boundary]. f_equal. f_equal. f_equal.
      unfold after_text. destruct (squeeze true t1) eqn:E; [reflexivity|]. rewrite (ends_cons 32%N) by discriminate. reflexivity.
  - cbn [app]. f_equal. etransitivity; [exact (IH (Some false))|]. cbn [at_boundary]. f_equal. f_equal. f_equal.
    unfold after_text. destruct (squeeze false t1) eqn:E.
    + rewrite ends_one. destruct (in_dec N.eq_dec d [32; 10]%N) as [Hin|_]; [|reflexivity].
      exfalso. apply Hd. cbn in Hin. unfold is_ws. cbn. tauto.
    + rewrite (ends_cons d) by discriminate. reflexivity.
Qed.
Lemma after_text_app s a b : after_text (after_text s a) b = after_text s (a ++ b).
Proof.
  unfold after_text. destruct b as [|c b]; [rewrite app_nil_r; reflexivity|].
  destruct a as [|d a]; [reflexivity|]. cbn. f_equal. symmetry. change (d :: a ++ c :: b) with ((d :: a) ++ c :: b).
  apply ends_in_space_app. discriminate.
Qed.
Lemma squeeze_any a b t : match t with c :: _ => ~ is_ws c | [] => True end -> squeeze a t = squeeze b t.
Proof. destruct t as [|c t]; [reflexivity|]. cbn. intros H. destruct (ws_dec c); [contradiction|reflexivity]. Qed.

(* ------------------------------------------------------------------ *)
(** * Elements with text only *)

Lemma only_text_traverse st kids : collapses st -> only_text kids -> forall b,
  b_stack b = [] -> b_inlines b = [] \/ (exists t, t <> [] /\ b_inlines b = [TextRun st t st]) ->
  traverse st kids b = Done (add_text b (squeeze (at_boundary (last_state (current b))) (written kids)) st).
Proof.
  intros C H. induction H as [|n kids Hn H IH]; intros b Hs Hi; [reflexivity|].
  unfold traverse in *. cbn [traverse_with]. destruct n as [t| |]; [|cbn [handle_node obind]; apply IH; assumption|contradiction].
  cbn [handle_node]. assert (W : white_space_supported st) by (unfold white_space_supported; destruct C as [-> | ->]; exact I).
  rewrite (handle_text_spec _ _ _ W). cbn [obind].
  assert (Hsh : shown (sv st Lwhite_space) (last_state (current b)) t = squeeze (at_boundary (last_state (current b))) t)
    by (destruct C as [-> | ->]; reflexivity).
  rewrite Hsh. unfold written. cbn [flat_map text_content]. fold (written kids).
  rewrite squeeze_app. set (out := squeeze (at_boundary (last_state (current b))) t).
  assert (Hcur : current b = b_inlines b) by (unfold current; rewrite Hs; reflexivity).
  destruct out as [|c out'] eqn:Eo.
  - cbn [add_text after_text app]. apply IH; assumption.
  - rewrite IH.
    + change (add_text b (c :: out') st) with (set_current b (append_text (current b) (c :: out') st)).
      rewrite current_set_current.
      rewrite append_state by discriminate. cbn [after_text].
      set (out2 := squeeze _ (written kids)). destruct out2 as [|d out2'] eqn:Eo2.
      * rewrite app_nil_r. reflexivity.
      * unfold add_text. cbn [app]. rewrite current_set_current.
        unfold set_current at 2. rewrite Hs. unfold set_current. rewrite Hs. cbn [b_stack b_style b_boxes b_floats].
        f_equal. f_equal. rewrite Hcur.
        destruct Hi as [-> | (t0 & Ht0 & ->)]; cbn; [reflexivity|].
        rewrite <- app_assoc. reflexivity.
    + unfold add_text, set_current. rewrite Hs. reflexivity.
    + right. unfold add_text, set_current. rewrite Hs. cbn [b_inlines]. rewrite Hcur.
      destruct Hi as [-> | (t0 & Ht0 & ->)]; cbn.
      * exists (c :: out'). split; [discriminate|reflexivity].
      * exists (t0 ++ c :: out'). split; [destruct t0; discriminate|reflexivity].
Qed.
Lemma only_text_container st kids : collapses st -> only_text kids ->
  construct_container st kids =
  Done (match squeeze true (written kids) with
        | [] => BlockLevelBoxes []
        | out => InlineFC st [TextRun st out st]
        end, false).
Proof.
  intros C H. unfold construct_container.
  rewrite (only_text_traverse st kids C H (builder_new st)); [|reflexivity|left; reflexivity].
  cbn [obind current builder_new b_stack b_inlines]. change (at_boundary (last_state [])) with true.
  destruct (squeeze true (written kids)); reflexivity.
Qed.

(* ------------------------------------------------------------------ *)
(** * Inline content *)

Lemma rendered_app a b : rendered_text (a ++ b) = rendered_text a ++ rendered_text b.
Proof. unfold rendered_text. apply flat_map_app. Qed.
Lemma rendered_chars st t : rendered_text (chars st t) = t.
Proof. induction t; cbn; [reflexivity|]. f_equal. assumption. Qed.
Definition flows (n : snode) : Prop := forall ps s, collapses ps -> inline_only n -> no_leading_space n ->
  let out := squeeze (at_boundary s) (text_content n) in
  rendered_text (fst (node_events ps s n)) = out /\ snd (node_events ps s n) = after_text s out.
Lemma flows_list ps kids : Forall flows kids -> forall s, collapses ps -> Forall inline_only kids -> Forall no_leading_space kids ->
  let out := squeeze (at_boundary s) (written kids) in
  rendered_text (fst (events_with (node_events ps) s kids)) = out /\
  snd (events_with (node_events ps) s kids) = after_text s out.
Proof.
  intros F. induction F as [|n kids Hn F IH]; intros s C I1 N; [split; reflexivity|].
  apply Forall_cons_iff in I1 as [I1 I2]. apply Forall_cons_iff in N as [N1 N2].
  destruct (Hn ps s C I1 N1) as [A B]. cbn [events_with]. destruct (node_events ps s n) as [e1 s1]. cbn [fst snd] in A, B. subst s1.
  set (out1 := squeeze (at_boundary s) (text_content n)) in *.
  destruct (IH (after_text s out1) C I2 N2) as [A' B'].
  destruct (events_with (node_events ps) (after_text s out1) kids) as [e2 s2]. cbn [fst snd] in *. cbv zeta.
  unfold written. cbn [flat_map]. fold (written kids). rewrite squeeze_app. fold out1.
  rewrite rendered_app, A, A'. split; [reflexivity|]. rewrite B', after_text_app. reflexivity.
Qed.
Lemma node_flows n : flows n.
Proof.
  induction n as [t| |br st kids IH] using snode_ind'; intros ps s C I1 N.
  - cbn [node_events text_content]. unfold shown_events. cbv zeta. cbn [fst snd].
    assert (E : shown (sv ps Lwhite_space) s t = squeeze (at_boundary s) t) by (destruct C as [-> | ->]; reflexivity).
    rewrite E, rendered_chars. split; reflexivity.
  - split; reflexivity.
  - cbn [inline_only] in I1. destruct I1 as [-> I1]. cbn [no_leading_space] in N. cbn [node_events text_content].
    destruct (sv st Ldisplay) as [| |[] i].
    + split; reflexivity.
    + destruct I1 as [C1 I1]. apply fold_forall in I1, N. exact (flows_list st kids IH s C1 I1 N).
    + destruct I1 as [C1 I1]. destruct N as [N0 N]. apply fold_forall in I1, N.
      destruct (flows_list st kids IH None C1 I1 N) as [A B]. cbn [at_boundary] in A, B. fold (written kids).
      destruct (events_with (node_events st) None kids) as [e s']. cbn [fst snd] in *. subst s'.
      rewrite (squeeze_any (at_boundary s) true _ N0). cbv zeta. split.
      * transitivity (rendered_text e); [|exact A].
        change (Open KInline st :: e ++ [Close]) with ([Open KInline st] ++ e ++ [Close]).
        rewrite !rendered_app. cbn. apply app_nil_r.
      * unfold after_text. destruct (squeeze true (written kids)); reflexivity.
    + contradiction.
Qed.
Lemma document_flows st kids : collapses st -> Forall inline_only kids -> Forall no_leading_space kids ->
  rendered_text (document_events st kids) = squeeze true (written kids).
Proof.
  intros C I1 N. apply (flows_list st kids) with (s := None); try assumption.
  apply Forall_forall. intros n _. apply node_flows.
Qed.
Lemma same_text e d : Forall2 same_content e d -> rendered_text e = rendered_text d.
Proof.
  intros H. induction H as [|x y e d Hxy H IH]; [reflexivity|]. unfold rendered_text in *. cbn [flat_map]. rewrite IH. f_equal.
  destruct x, y; cbn in Hxy; try discriminate; try reflexivity. congruence.
Qed.

(* ------------------------------------------------------------------ *)
(** * Computed styles generate boxes *)

Lemma computed_generates ct parent st : forall (selector : Set) (specificity : selector -> N) matches ua author attr,
  element_style ct specificity matches ua author attr parent st ->
  match sv st Ldisplay with DispBox _ _ => generates_box st | _ => True end.
Proof.
  intros sel sp m ua au at_ H. pose proof (display_value ct sp m ua au at_ parent st H) as D.
  unfold generates_box. destruct (sv st Ldisplay) as [| |o i]; [exact I..|].
  destruct (out_of_flow_dec st); destruct (s_specified_display st); try discriminate; exact I.
Qed.
Lemma computed_boxes ct n : forall parent, computed ct parent n -> boxes_styled generates_box n.
Proof.
  induction n as [t| |br st kids IH] using snode_ind'; intros parent H; [exact I..|].
  cbn in H. destruct H as [(sel & sp & m & ua & au & at_ & H) K]. apply fold_forall in K.
  assert (F : fold_right (fun k R => boxes_styled generates_box k /\ R) True kids).
  { apply fold_forall. clear - IH K. induction IH; [constructor|]. inversion K; subst. constructor; eauto. }
  pose proof (computed_generates ct parent st sel sp m ua au at_ H) as G.
  cbn. destruct br; [exact I|]. destruct (sv st Ldisplay); [exact I|exact F|split; assumption].
Qed.
End Any.
