(** Proofs about box construction: what the boxes contain. *)
From Verif Require Import TreeModel TreeSpec TreeFacts.
Local Open Scope outcome_scope.

Section Any.
Context {ar : Arith}.

(* ------------------------------------------------------------------ *)
(** * Frame: what handling a node leaves alone *)

Definition frame (b b' : builder) : Prop :=
  b_style b' = b_style b /\
  match b_stack b with
  | [] => b_stack b' = []
  | o :: s => b_boxes b' = b_boxes b /\ b_inlines b' = b_inlines b /\
              exists ch, b_stack b' = Ongoing (og_style o) (og_first o) ch :: s
  end.
Lemma frame_refl b : frame b b.
Proof.
  split; [reflexivity|]. destruct (b_stack b) as [|[st f ch] s]; [reflexivity|].
  repeat split. exists ch. reflexivity.
Qed.
Lemma frame_trans b1 b2 b3 : frame b1 b2 -> frame b2 b3 -> frame b1 b3.
Proof.
  intros [S1 F1] [S2 F2]. split; [congruence|].
  destruct (b_stack b1) as [|o s].
  - rewrite F1 in F2. exact F2.
  - destruct F1 as (B1 & I1 & ch & K1). rewrite K1 in F2. destruct F2 as (B2 & I2 & ch' & K2).
    cbn in K2. repeat split; [congruence..|]. exists ch'. exact K2.
Qed.
Lemma frame_set_current b l : frame b (set_current b l).
Proof.
  unfold frame, set_current. destruct (b_stack b) as [|o s]; cbn; [split; reflexivity|].
  repeat split. exists l. reflexivity.
Qed.
Lemma current_set_current b l : current (set_current b l) = l.
Proof. unfold current, set_current. destruct (b_stack b); reflexivity. Qed.
Lemma frame_add_text b out ps : frame b (add_text b out ps).
Proof. unfold add_text. destruct out; [apply frame_refl|apply frame_set_current]. Qed.

Lemma with_slot_done {A} (r : outcome A) a : with_slot r = Done a -> r = Done a.
Proof. destruct r; cbn; congruence. Qed.
Lemma obind_done {A B} (r : outcome A) (k : A -> outcome B) b : obind r k = Done b -> exists a, r = Done a /\ k a = Done b.
Proof. destruct r; cbn; intros H; try discriminate. exists a. auto. Qed.

Lemma end_ifc_done b b' : end_ifc b = Done b' ->
  b_stack b = [] /\ b' = match b_inlines b with
                         | [] => b
                         | l => Builder (b_style b)
                                  (b_boxes b ++ [MAnon (anonymous_inheriting_from (Some (b_style b))) (b_style b) l])
                                  [] [] (b_floats b)
                         end.
Proof.
  unfold end_ifc. destruct (b_stack b); [|discriminate]. intros H. split; [reflexivity|].
  destruct (b_inlines b); injection H as <-; reflexivity.
Qed.
Lemma handle_block_done st i r b b' : handle_block st i r b = Done b' ->
  b_stack b = [] /\
  b' = Builder (b_style b)
         (b_boxes b ++ match b_inlines b with
                       | [] => []
                       | l => [MAnon (anonymous_inheriting_from (Some (b_style b))) (b_style b) l]
                       end ++ [match i with IFlow => MDeferred st r
                               | IFlowRoot => MIndep st (obind r (fun '(c, fl) => Done (BFC fl c))) end])
         [] [] (b_floats b).
Proof.
  unfold handle_block. intros H. apply obind_done in H as (b1 & H1 & H2).
  apply end_ifc_done in H1 as [Hs ->].
  assert (Hs' : b_stack b = []).
  { unfold fragment_inlines in Hs. cbn in Hs. destruct (b_stack b); [reflexivity|discriminate]. }
  split; [exact Hs'|]. injection H2 as <-. unfold fragment_inlines, push_box. rewrite Hs'. cbn.
  rewrite app_nil_r. destruct (b_inlines b) as [|x l] eqn:E; cbn.
  - reflexivity.
  - rewrite <- app_assoc. reflexivity.
Qed.

Lemma traverse_frame (h : snode -> bool -> builder -> outcome builder) kids :
  Forall (fun n => forall hn b b', h n hn b = Done b' -> frame b b') kids ->
  forall b b', traverse_with h kids b = Done b' -> frame b b'.
Proof.
  intros F. induction F as [|n kids Hn F IH]; cbn; intros b b' H; [injection H as <-; apply frame_refl|].
  apply obind_done in H as (b1 & H1 & H2). exact (frame_trans _ _ _ (Hn _ _ _ H1) (IH _ _ H2)).
Qed.
Lemma handle_abspos_frame st r b b' : handle_abspos st r b = Done b' -> frame b b'.
Proof.
  unfold handle_abspos. destruct (has_ongoing_ifc b) eqn:E; intros H.
  - apply with_slot_done, obind_done in H as (c & _ & H). injection H as <-. apply frame_set_current.
  - injection H as <-. unfold has_ongoing_ifc in E. destruct (b_inlines b), (b_stack b) eqn:Es; try discriminate.
    unfold frame, push_box. rewrite Es. cbn. split; [reflexivity|first [exact Es|reflexivity]].
Qed.
Lemma handle_float_frame st r b b' : handle_float st r b = Done b' -> frame b b'.
Proof.
  unfold handle_float. cbv zeta. set (b0 := Builder _ _ _ _ true).
  assert (F0 : frame b b0).
  { unfold frame, b0. cbn. destruct (b_stack b) as [|[st0 f ch] s]; [split; reflexivity|].
    repeat split. exists ch. reflexivity. }
  destruct (has_ongoing_ifc b0) eqn:E; intros H.
  - apply with_slot_done, obind_done in H as (c & _ & H). injection H as <-.
    exact (frame_trans _ _ _ F0 (frame_set_current _ _)).
  - injection H as <-. unfold has_ongoing_ifc in E. cbn in E.
    destruct (b_inlines b), (b_stack b) eqn:Es; try discriminate.
    unfold frame, push_box, b0. rewrite Es. cbn. rewrite ?Es. split; reflexivity.
Qed.
Lemma handle_frame n : forall ps hn b b', handle_node ps n hn b = Done b' -> frame b b'.
Proof.
  induction n as [t| |br st kids IH] using snode_ind'; intros ps hn b b' H.
  - cbn in H. pose proof (handle_text_done _ _ _ _ H) as W. rewrite (handle_text_spec _ _ _ W) in H.
    injection H as <-. apply frame_add_text.
  - injection H as <-. apply frame_refl.
  - assert (T : forall b b', traverse_with (handle_node st) kids b = Done b' -> frame b b').
    { apply traverse_frame. revert IH. apply Forall_impl. intros n IH hn0 b0 b0'. apply IH. }
    cbn [handle_node] in H. destruct br.
    { pose proof (handle_text_done _ _ _ _ H) as W. rewrite (handle_text_spec _ _ _ W) in H.
      injection H as <-. apply frame_add_text. }
    destruct (sv st Ldisplay) as [| |[] i].
    + destruct hn; [injection H as <-; apply frame_refl|discriminate].
    + exact (T _ _ H).
    + destruct i; [|discriminate].
      apply with_slot_done, obind_done in H as (b1 & H1 & H2). apply T in H1 as [S1 F1].
      cbn in S1, F1. destruct F1 as (B1 & I1 & ch & K1).
      unfold pop_inline in H2. rewrite K1 in H2. injection H2 as <-.
      eapply frame_trans; [|apply frame_set_current].
      split; cbn; [exact S1|]. destruct (b_stack b) as [|[st0 f0 ch0] s]; [reflexivity|].
      repeat split; try assumption. exists ch0. reflexivity.
    + destruct (is_absolutely_positioned (sv st Lposition)); [exact (handle_abspos_frame _ _ _ _ H)|].
      destruct (is_floating (sv st Lfloat)); [exact (handle_float_frame _ _ _ _ H)|].
      apply with_slot_done, handle_block_done in H as [Hs ->]. split; [reflexivity|]. rewrite Hs. reflexivity.
Qed.
(** The debug_assert! of construct.rs:125. *)
Lemma traverse_stack st kids b' : traverse st kids (builder_new st) = Done b' -> b_stack b' = [].
Proof.
  intros H. assert (F : frame (builder_new st) b').
  { revert H. apply traverse_frame. apply Forall_forall. intros n _ hn b b1. apply handle_frame. }
  destruct F as [_ F]. exact F.
Qed.

(* ------------------------------------------------------------------ *)
(** * The exact rendering, with the style each character really gets *)

(** The text state and the style of the run that is open. *)
Definition xstate := (text_state * option style)%type.
Definition xstart : xstate := (None, None).
Definition xtext (s : xstate) (st : style) (t : text) : list event * xstate :=
  let out := shown (sv st Lwhite_space) (fst s) t in
  let used := match snd s with Some u => u | None => st end in
  (chars used out, match out with [] => s | _ => (after_text (fst s) out, Some used) end).
Section XEvents.
  Context (one : xstate -> snode -> list event * xstate).
  Fixpoint xevents_with (s : xstate) (kids : list snode) : list event * xstate :=
    match kids with
    | [] => ([], s)
    | n :: rest => let '(e1, s1) := one s n in let '(e2, s2) := xevents_with s1 rest in (e1 ++ e2, s2)
    end.
End XEvents.
Fixpoint xnode (parent : style) (s : xstate) (n : snode) {struct n} : list event * xstate :=
  match n with
  | SOther => ([], s)
  | SText t => xtext s parent t
  | SElem br st kids =>
      let inside k := Open k st :: fst (xevents_with (xnode st) xstart kids) ++ [Close] in
      if br then xtext s st [nl] else
      match sv st Ldisplay with
      | DispNone => ([], s)
      | DispContents => xevents_with (xnode st) s kids
      | DispBox OInline _ =>
          let '(e, s') := xevents_with (xnode st) xstart kids in
          (Open KInline st :: e ++ [Close], (match fst s' with Some x => Some x | None => fst s end, None))
      | DispBox OBlock i =>
          if is_absolutely_positioned (sv st Lposition) then (inside KAbsolute, (fst s, None))
          else if is_floating (sv st Lfloat) then (inside KFloat, (fst s, None))
          else (inside match i with IFlow => KBlock | IFlowRoot => KIndependent end, xstart)
      end
  end.
Definition xdocument (st : style) (kids : list snode) : list event := fst (xevents_with (xnode st) xstart kids).

(* ------------------------------------------------------------------ *)
(** * The invariant of the builder *)

Lemma inlines_app l1 l2 e1 e2 : inlines_events l1 e1 -> inlines_events l2 e2 -> inlines_events (l1 ++ l2) (e1 ++ e2).
Proof.
  revert e1. induction l1 as [|x l1 IH]; intros e1 H1 H2; inversion H1; subst; cbn; [exact H2|].
  rewrite <- app_assoc. constructor; auto.
Qed.
Lemma inlines_one x e : inline_events x e -> inlines_events [x] e.
Proof. intros H. rewrite <- (app_nil_r e). constructor; [exact H|constructor]. Qed.
Lemma inlines_last l x e : inlines_events (l ++ [x]) e -> exists e1 e2, inlines_events l e1 /\ inline_events x e2 /\ e = e1 ++ e2.
Proof.
  revert e. induction l as [|y l IH]; cbn; intros e H; inversion H; subst.
  - inversion H4; subst. exists [], e1. rewrite app_nil_r. repeat split; [constructor|assumption].
  - destruct (IH _ H4) as (a & c & Ha & Hc & ->). exists (e1 ++ a), c. rewrite app_assoc.
    repeat split; [constructor; assumption|assumption].
Qed.
Lemma append_events l e out ps : out <> [] -> inlines_events l e ->
  inlines_events (append_text l out ps) (e ++ chars (match open_run l with Some u => u | None => ps end) out).
Proof.
  intros Ho H. destruct (append_text_cases l out ps) as [[-> ->]|(l' & st & t & font & -> & -> & ->)].
  - apply inlines_app; [exact H|]. apply inlines_one. constructor. exact Ho.
  - apply inlines_last in H as (e1 & e2 & H1 & H2 & ->). inversion H2; subst.
    rewrite <- app_assoc. apply inlines_app; [exact H1|]. apply inlines_one.
    unfold chars. rewrite <- map_app. constructor. intros Hn. apply app_eq_nil in Hn as [_ Hn]. exact (Ho Hn).
Qed.

(** A box whose contents may still have to be constructed. *)
Definition inter_events (st : style) (m : inter) (e : list event) : Prop :=
  match m with
  | MAnon a ps l => a = anonymous_inheriting_from (Some st) /\ ps = st /\ l <> [] /\ inlines_events l e
  | MDeferred st' r => exists e', e = Open KBlock st' :: e' ++ [Close] /\
                         forall c fl, r = Done (c, fl) -> container_events st' c e'
  | MIndep st' r => exists e', e = Open KIndependent st' :: e' ++ [Close] /\
                      forall fl c, r = Done (BFC fl c) -> container_events st' c e'
  | MAbspos st' r => exists e', e = Open KAbsolute st' :: e' ++ [Close] /\
                      forall fl c, r = Done (BFC fl c) -> container_events st' c e'
  | MFloat st' r => exists e', e = Open KFloat st' :: e' ++ [Close] /\
                      forall fl c, r = Done (BFC fl c) -> container_events st' c e'
  end.
Inductive inters_events (st : style) : list inter -> list event -> Prop :=
| Ime_nil : inters_events st [] []
| Ime_cons m l e1 e2 : inter_events st m e1 -> inters_events st l e2 -> inters_events st (m :: l) (e1 ++ e2).
Lemma inters_app st l1 l2 e1 e2 : inters_events st l1 e1 -> inters_events st l2 e2 -> inters_events st (l1 ++ l2) (e1 ++ e2).
Proof.
  revert e1. induction l1 as [|x l1 IH]; intros e1 H1 H2; inversion H1; subst; cbn; [exact H2|].
  rewrite <- app_assoc. constructor; auto.
Qed.
Lemma inters_one st m e : inter_events st m e -> inters_events st [m] e.
Proof. intros H. rewrite <- (app_nil_r e). constructor; [exact H|constructor]. Qed.

Inductive stack_events : list ongoing -> list event -> Prop :=
| Se_nil : stack_events [] []
| Se_cons st l s e e' : stack_events s e -> inlines_events l e' ->
    stack_events (Ongoing st true l :: s) (e ++ Open KInline st :: e').

Definition inv (st : style) (b : builder) (E : list event) : Prop :=
  b_style b = st /\ exists e1 e2 e3,
    inters_events st (b_boxes b) e1 /\ inlines_events (b_inlines b) e2 /\ stack_events (b_stack b) e3 /\
    E = e1 ++ e2 ++ e3.
Definition bstate (b : builder) : xstate := (last_state (current b), open_run (current b)).

Lemma inv_new st : inv st (builder_new st) [].
Proof. split; [reflexivity|]. exists [], [], []. repeat split; constructor. Qed.
(** Adding at the current level. *)
Lemma inv_current st b E l' e : inv st b E ->
  (forall e0, inlines_events (current b) e0 -> inlines_events l' (e0 ++ e)) ->
  inv st (set_current b l') (E ++ e).
Proof.
  intros (Hs & e1 & e2 & e3 & H1 & H2 & H3 & ->) Hl. unfold current in Hl. unfold set_current.
  destruct b as [bs bb bi bk bf]; cbn in *. destruct bk as [|[st0 f0 ch] s]; cbn in *.
  - inversion H3; subst. split; [reflexivity|]. exists e1, (e2 ++ e), []. cbn. repeat split; [assumption|auto|constructor|].
    rewrite !app_nil_r, app_assoc. reflexivity.
  - inversion H3; subst. split; [reflexivity|].
    exists e1, e2, (e0 ++ Open KInline st0 :: (e' ++ e)). cbn. repeat split; [assumption|assumption| |].
    + constructor; auto.
    + rewrite <- !app_assoc. cbn. reflexivity.
Qed.
Lemma inv_push_current st b E x e : inv st b E -> inline_events x e -> inv st (set_current b (current b ++ [x])) (E ++ e).
Proof.
  intros H Hx. apply inv_current; [exact H|]. intros e0 H0. apply inlines_app; [exact H0|apply inlines_one; exact Hx].
Qed.
Lemma inv_push_box st b E m e : inv st b E -> has_ongoing_ifc b = false -> inter_events st m e -> inv st (push_box b m) (E ++ e).
Proof.
  intros (Hs & e1 & e2 & e3 & H1 & H2 & H3 & ->) Ho Hm. unfold has_ongoing_ifc in Ho.
  destruct b as [bs bb bi bk bf]; cbn in *. destruct bi, bk; try discriminate.
  inversion H2; inversion H3; subst. split; [reflexivity|]. exists (e1 ++ e), [], []. cbn.
  rewrite !app_nil_r. repeat split; [|constructor|constructor]. apply inters_app; [assumption|apply inters_one; exact Hm].
Qed.
Lemma inv_add_text st b E t ps : inv st b E ->
  let '(e, s) := xtext (bstate b) ps t in
  let b' := add_text b (shown (sv ps Lwhite_space) (last_state (current b)) t) ps in
  inv st b' (E ++ e) /\ bstate b' = s.
Proof.
  intros H. unfold xtext, bstate. cbn [fst snd]. set (out := shown _ _ _). cbv zeta.
  destruct out as [|c out'] eqn:E0; cbn [add_text].
  - cbn. rewrite app_nil_r. split; [exact H|reflexivity].
  - split.
    + apply inv_current; [exact H|]. intros e0 H0. apply append_events; [discriminate|exact H0].
    + rewrite current_set_current, append_run, append_state by discriminate. reflexivity.
Qed.

(* ------------------------------------------------------------------ *)
(** * Finishing *)

Lemma finish_one_events st m e x fl : inter_events st m e -> finish_one m = Done (x, fl) -> box_events st x e.
Proof.
  destruct m as [a ps l|st' r|st' r|st' r|st' r]; cbn; intros Hm H.
  - destruct Hm as (-> & -> & Hl & He). injection H as <- <-. constructor; assumption.
  - destruct Hm as (e' & -> & Hr). apply with_slot_done, obind_done in H as ([c f] & -> & H).
    injection H as <- <-. constructor. eauto.
  - destruct Hm as (e' & -> & Hr). apply with_slot_done, obind_done in H as ([f c] & -> & H).
    injection H as <- <-. constructor. eauto.
  - destruct Hm as (e' & -> & Hr). apply with_slot_done, obind_done in H as ([f c] & -> & H).
    injection H as <- <-. constructor. eauto.
  - destruct Hm as (e' & -> & Hr). apply with_slot_done, obind_done in H as ([f c] & -> & H).
    injection H as <- <-. constructor. eauto.
Qed.
Lemma finish_all_events st l : forall e fl xs fl', inters_events st l e -> finish_all l fl = Done (xs, fl') -> boxes_events st xs e.
Proof.
  induction l as [|m l IH]; cbn; intros e fl xs fl' Hl H; inversion Hl; subst.
  - injection H as <- <-. constructor.
  - apply obind_done in H as ([x f1] & H1 & H). apply obind_done in H as ([xs' f2] & H3 & H).
    injection H as <- <-. constructor; [eapply finish_one_events; eassumption|eapply IH; eassumption].
Qed.
Lemma finish_container_events st b E c fl : inv st b E -> b_stack b = [] ->
  finish_container b = Done (c, fl) -> container_events st c E.
Proof.
  intros (Hs & e1 & e2 & e3 & H1 & H2 & H3 & ->) Hk H. rewrite Hk in H3. inversion H3; subst e3. rewrite app_nil_r.
  unfold finish_container in H. destruct (b_inlines b) as [|x l] eqn:Ei.
  - cbn in H. inversion H2; subst e2. rewrite app_nil_r.
    apply obind_done in H as ([xs f] & Hf & H). injection H as <- <-.
    constructor. eapply finish_all_events; eassumption.
  - destruct (b_boxes b) as [|m ms] eqn:Eb.
    + injection H as <- <-. inversion H1; subst e1. cbn. rewrite Hs. constructor; [discriminate|exact H2].
    + apply obind_done in H as (b1 & Hb & H). apply end_ifc_done in Hb as [_ ->].
      apply obind_done in H as ([xs f] & Hf & H). injection H as <- <-.
      constructor. eapply finish_all_events; [|exact Hf].
      rewrite Ei, Eb. cbn [b_boxes]. apply inters_app; [exact H1|]. apply inters_one.
      cbn. rewrite Hs. repeat split; [discriminate|exact H2].
Qed.

(* ------------------------------------------------------------------ *)
(** * The traversal renders the document *)

Definition renders (n : snode) : Prop :=
  forall ps hn b b' st E, handle_node ps n hn b = Done b' -> inv st b E ->
    inv st b' (E ++ fst (xnode ps (bstate b) n)) /\ bstate b' = snd (xnode ps (bstate b) n).
Lemma traverse_renders ps kids : Forall renders kids -> forall b b' st E,
  traverse_with (handle_node ps) kids b = Done b' -> inv st b E ->
  inv st b' (E ++ fst (xevents_with (xnode ps) (bstate b) kids)) /\
  bstate b' = snd (xevents_with (xnode ps) (bstate b) kids).
Proof.
  intros F. induction F as [|n kids Hn F IH]; cbn; intros b b' st E H Hi.
  - injection H as <-. rewrite app_nil_r. split; [exact Hi|reflexivity].
  - apply obind_done in H as (b1 & H1 & H2).
    destruct (Hn _ _ _ _ _ _ H1 Hi) as [Hi1 Hs1]. destruct (IH _ _ _ _ H2 Hi1) as [Hi2 Hs2].
    destruct (xnode ps (bstate b) n) as [e1 s1]. cbn in *. rewrite Hs1 in *.
    destruct (xevents_with (xnode ps) s1 kids) as [e2 s2]. cbn in *. rewrite app_assoc. split; assumption.
Qed.
Lemma construct_renders st kids c fl : Forall renders kids ->
  obind (traverse_with (handle_node st) kids (builder_new st)) finish_container = Done (c, fl) ->
  container_events st c (xdocument st kids).
Proof.
  intros F H. apply obind_done in H as (b & H1 & H2).
  destruct (traverse_renders _ _ F _ _ _ _ H1 (inv_new st)) as [Hi _].
  eapply finish_container_events; [exact Hi| |exact H2]. exact (traverse_stack _ _ _ H1).
Qed.

Lemma current_no_ifc b : has_ongoing_ifc b = false -> current b = [].
Proof. unfold has_ongoing_ifc, current. destruct (b_inlines b), (b_stack b); try discriminate; reflexivity. Qed.
Lemma handle_abspos_renders st0 st' r b b' E e' : handle_abspos st' r b = Done b' -> inv st0 b E ->
  (forall fl c, r = Done (BFC fl c) -> container_events st' c e') ->
  inv st0 b' (E ++ Open KAbsolute st' :: e' ++ [Close]) /\ bstate b' = (fst (bstate b), None).
Proof.
  unfold handle_abspos. intros H Hi Hr. destruct (has_ongoing_ifc b) eqn:Eo.
  - apply with_slot_done, obind_done in H as ([fl c] & -> & H). injection H as <-. split.
    + apply inv_push_current; [exact Hi|]. constructor. eauto.
    + unfold bstate. rewrite current_set_current, last_state_abspos, open_run_app. reflexivity.
  - injection H as <-. split.
    + apply inv_push_box; [exact Hi|exact Eo|]. exists e'. split; [reflexivity|exact Hr].
    + apply current_no_ifc in Eo. unfold bstate, push_box, current in *. cbn. rewrite Eo. reflexivity.
Qed.
Lemma handle_float_renders st0 st' r b b' E e' : handle_float st' r b = Done b' -> inv st0 b E ->
  (forall fl c, r = Done (BFC fl c) -> container_events st' c e') ->
  inv st0 b' (E ++ Open KFloat st' :: e' ++ [Close]) /\ bstate b' = (fst (bstate b), None).
Proof.
  unfold handle_float. cbv zeta. set (b0 := Builder _ _ _ _ true). intros H Hi0 Hr.
  assert (Hi : inv st0 b0 E) by exact Hi0. assert (Hb : bstate b = bstate b0) by reflexivity. rewrite Hb.
  clearbody b0. clear Hi0 Hb. destruct (has_ongoing_ifc b0) eqn:Eo.
  - apply with_slot_done, obind_done in H as ([fl c] & -> & H). injection H as <-. split.
    + apply inv_push_current; [exact Hi|]. constructor. eauto.
    + unfold bstate. rewrite current_set_current, last_state_float, open_run_app. reflexivity.
  - injection H as <-. split.
    + apply inv_push_box; [exact Hi|exact Eo|]. exists e'. split; [reflexivity|exact Hr].
    + apply current_no_ifc in Eo. unfold bstate, push_box, current in *. cbn. rewrite Eo. reflexivity.
Qed.

Lemma node_renders n : renders n.
Proof.
  induction n as [t| |br st kids IH] using snode_ind'; intros ps hn b b' st0 E H Hi.
  - cbn in H. pose proof (handle_text_done _ _ _ _ H) as W. rewrite (handle_text_spec _ _ _ W) in H.
    injection H as <-. pose proof (inv_add_text st0 b E t ps Hi) as R. cbn [xnode].
    destruct (xtext (bstate b) ps t) as [e s]. exact R.
  - injection H as <-. cbn. rewrite app_nil_r. split; [exact Hi|reflexivity].
  - pose proof (traverse_renders st kids IH) as T. pose proof (fun c fl => construct_renders st kids c fl IH) as K.
    cbn [handle_node] in H. cbn [xnode]. destruct br.
    { pose proof (handle_text_done _ _ _ _ H) as W. rewrite (handle_text_spec _ _ _ W) in H.
      injection H as <-. pose proof (inv_add_text st0 b E [nl] st Hi) as R.
      destruct (xtext (bstate b) st [nl]) as [e s]. exact R. }
    assert (K' : forall fl c, (run (c, fl) <- obind (traverse_with (handle_node st) kids (builder_new st)) finish_container;
                    Done (BFC fl c)) = Done (BFC fl c) -> container_events st c (xdocument st kids)).
    { intros fl c H0. apply obind_done in H0 as ([c1 f1] & H0 & H1). injection H1 as -> ->. exact (K _ _ H0). }
    destruct (sv st Ldisplay) as [| |[] i].
    + destruct hn; [injection H as <-|discriminate]. cbn. rewrite app_nil_r. split; [exact Hi|reflexivity].
    + exact (T _ _ _ _ H Hi).
    + destruct i; [|discriminate].
      apply with_slot_done, obind_done in H as (b1 & H1 & H2).
      assert (Fr : frame (push_inline st b) b1).
      { revert H1. apply traverse_frame. apply Forall_forall. intros n _ hn0 b0 b0'. apply handle_frame. }
      destruct Fr as [S1 F1]. cbn in S1, F1. destruct F1 as (B1 & I1 & ch & K1).
      assert (Hp : inv st0 (push_inline st b) (E ++ [Open KInline st])).
      { destruct Hi as (Hs & e1 & e2 & e3 & E1 & E2 & E3 & ->). split; [exact Hs|].
        exists e1, e2, (e3 ++ [Open KInline st]). cbn. repeat split; [assumption|assumption| |].
        - constructor; [assumption|constructor].
        - rewrite <- !app_assoc. reflexivity. }
      destruct (T _ _ _ _ H1 Hp) as [Hi1 Hs1].
      change (bstate (push_inline st b)) with xstart in *.
      destruct (xevents_with (xnode st) xstart kids) as [e s'] eqn:Ex. cbn [fst snd] in *.
      unfold pop_inline in H2. rewrite K1 in H2. cbn [og_style og_first og_children] in H2.
      set (b2 := Builder (b_style b1) (b_boxes b1) (b_inlines b1) (b_stack b) (b_floats b1)) in *.
      assert (Hc2 : current b2 = current b).
      { unfold current, b2. cbn. rewrite I1. reflexivity. }
      injection H2 as <-.
      destruct Hi1 as (Hst & e1 & e2 & e3 & E1 & E2 & E3 & Eq). rewrite K1 in E3. inversion E3; subst.
      split.
      * match goal with |- inv _ _ ?G => replace G with ((e1 ++ e2 ++ e0) ++ Open KInline st :: e' ++ [Close]) end.
        -- apply inv_push_current.
           ++ split; [reflexivity|]. exists e1, e2, e0. repeat split; assumption.
           ++ constructor. assumption.
        -- assert (Eq' : E ++ Open KInline st :: e = e1 ++ e2 ++ e0 ++ Open KInline st :: e').
           { rewrite <- Eq, <- app_assoc. reflexivity. }
           transitivity ((e1 ++ e2 ++ e0 ++ Open KInline st :: e') ++ [Close]).
           ++ rewrite <- !app_assoc. cbn. reflexivity.
           ++ rewrite <- Eq', <- app_assoc. reflexivity.
      * unfold bstate. rewrite current_set_current, last_state_inline, open_run_app, Hc2. cbn.
        f_equal. unfold bstate. cbn. replace (current b1) with ch by (unfold current; rewrite K1; reflexivity). reflexivity.
    + destruct (is_absolutely_positioned (sv st Lposition)).
      { cbn. eapply handle_abspos_renders; [exact H|exact Hi|exact K']. }
      destruct (is_floating (sv st Lfloat)).
      { cbn. eapply handle_float_renders; [exact H|exact Hi|exact K']. }
      apply with_slot_done, handle_block_done in H as [Hs ->].
      destruct Hi as (Hst & e1 & e2 & e3 & E1 & E2 & E3 & ->). rewrite Hs in E3. inversion E3; subst e3.
      split; [|reflexivity]. split; [exact Hst|]. cbn [b_boxes b_inlines b_stack fst].
      set (k := match i with IFlow => KBlock | IFlowRoot => KIndependent end).
      exists (e1 ++ e2 ++ Open k st :: xdocument st kids ++ [Close]), [], [].
      repeat split; [|constructor|constructor|rewrite !app_nil_r, <- app_assoc; reflexivity].
      apply inters_app; [exact E1|]. apply inters_app.
      * destruct (b_inlines b) as [|x l]; [inversion E2; constructor|].
        apply inters_one. cbn. rewrite Hst. repeat split; [discriminate|exact E2].
      * apply inters_one. unfold k. destruct i; cbn.
        -- exists (xdocument st kids). split; [reflexivity|exact K].
        -- exists (xdocument st kids). split; [reflexivity|exact K'].
Qed.
Theorem container_renders st kids c fl : construct_container st kids = Done (c, fl) ->
  container_events st c (xdocument st kids).
Proof. apply construct_renders. apply Forall_forall. intros n _. apply node_renders. Qed.

(* ------------------------------------------------------------------ *)
(** * The exact rendering and the specified one *)

Lemma same_content_refl e : same_content e e.
Proof. destruct e; reflexivity. Qed.
Lemma same_chars u st t : Forall2 same_content (chars u t) (chars st t).
Proof. induction t; constructor; [reflexivity|assumption]. Qed.
Lemma xtext_same s st t : Forall2 same_content (fst (xtext s st t)) (fst (shown_events (fst s) st t)) /\
  fst (snd (xtext s st t)) = snd (shown_events (fst s) st t).
Proof.
  unfold xtext, shown_events. cbn. split; [apply same_chars|].
  destruct (shown _ _ _); reflexivity.
Qed.
Definition same_rendering (n : snode) : Prop := forall ps s,
  Forall2 same_content (fst (xnode ps s n)) (fst (node_events ps (fst s) n)) /\
  fst (snd (xnode ps s n)) = snd (node_events ps (fst s) n).
Lemma same_list ps kids : Forall same_rendering kids -> forall s,
  Forall2 same_content (fst (xevents_with (xnode ps) s kids)) (fst (events_with (node_events ps) (fst s) kids)) /\
  fst (snd (xevents_with (xnode ps) s kids)) = snd (events_with (node_events ps) (fst s) kids).
Proof.
  intros F. induction F as [|n kids Hn F IH]; cbn; intros s; [split; [constructor|reflexivity]|].
  destruct (Hn ps s) as [A B]. destruct (xnode ps s n) as [e1 s1], (node_events ps (fst s) n) as [d1 t1].
  cbn in A, B. subst t1. destruct (IH s1) as [C D].
  destruct (xevents_with (xnode ps) s1 kids) as [e2 s2], (events_with (node_events ps) (fst s1) kids) as [d2 t2].
  cbn in *. split; [apply Forall2_app; assumption|assumption].
Qed.
Lemma wrap_same k st e d : Forall2 same_content e d ->
  Forall2 same_content (Open k st :: e ++ [Close]) (Open k st :: d ++ [Close]).
Proof.
  intros H. constructor; [reflexivity|]. apply Forall2_app; [exact H|]. constructor; [reflexivity|constructor].
Qed.
Lemma node_same n : same_rendering n.
Proof.
  induction n as [t| |br st kids IH] using snode_ind'; intros ps s.
  - apply xtext_same.
  - split; [constructor|reflexivity].
  - pose proof (same_list st kids IH) as L. cbn [xnode node_events]. destruct br; [apply xtext_same|].
    destruct (L xstart) as [A B]. change (fst xstart) with (@None bool) in A, B.
    destruct (sv st Ldisplay) as [| |[] i].
    + split; [constructor|reflexivity].
    + apply L.
    + destruct (xevents_with (xnode st) xstart kids) as [e s'], (events_with (node_events st) None kids) as [d s2].
      cbn in *. subst s2. split; [apply wrap_same; exact A|reflexivity].
    + destruct (is_absolutely_positioned (sv st Lposition)); [split; [apply wrap_same; exact A|reflexivity]|].
      destruct (is_floating (sv st Lfloat)); (split; [apply wrap_same; exact A|reflexivity]).
Qed.
Lemma document_same st kids : Forall2 same_content (xdocument st kids) (document_events st kids).
Proof. apply (same_list st kids). apply Forall_forall. intros n _. apply node_same. Qed.
End Any.
