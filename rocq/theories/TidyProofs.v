(** Proofs about formatting (C85). *)
From Verif Require Import StyleModel BlockModel TreeModel TreeSpec TreeFacts TreeProofs TreeText TidySpec.
Local Open Scope outcome_scope.

Section Any.
Context {ar : Arith}.

(* ------------------------------------------------------------------ *)
(** * Text in pieces *)

Lemma set_current_twice b l l' : set_current (set_current b l) l' = set_current b l'.
Proof. unfold set_current. destruct (b_stack b) eqn:E; cbn [b_stack]; reflexivity. Qed.
Lemma append_twice l o1 o2 ps : append_text (append_text l o1 ps) o2 ps = append_text l (o1 ++ o2) ps.
Proof.
  assert (A : forall l st t font o, append_text (l ++ [TextRun st t font]) o ps = l ++ [TextRun st (t ++ o) font]).
  { induction l0 as [|x l0 IH]; intros st t font o; [reflexivity|]. cbn [app]. specialize (IH st t font o).
    destruct (l0 ++ [TextRun st t font]) as [|y r] eqn:E; [destruct l0; discriminate|]. destruct x; cbn [append_text] in *; rewrite IH; reflexivity. }
  destruct (append_text_cases l o1 ps) as [[O ->]|(l' & st & t & font & -> & _ & ->)].
  - rewrite A. destruct (append_text_cases l (o1 ++ o2) ps) as [[_ ->]|(l' & st & t & font & -> & O' & _)]; [reflexivity|].
    rewrite open_run_app in O. discriminate.
  - rewrite !A, app_assoc. reflexivity.
Qed.
Lemma add_text_twice b o1 o2 ps : add_text (add_text b o1 ps) o2 ps = add_text b (o1 ++ o2) ps.
Proof.
  unfold add_text. destruct o1 as [|c o1]; [reflexivity|]. destruct o2 as [|d o2]; [rewrite app_nil_r; reflexivity|].
  rewrite current_set_current, set_current_twice, append_twice. reflexivity.
Qed.
Lemma add_text_state b o ps : last_state (current (add_text b o ps)) = after_text (last_state (current b)) o.
Proof. unfold add_text. destruct o as [|c o]; [reflexivity|]. rewrite current_set_current, append_state by discriminate. reflexivity. Qed.
Lemma handle_text_unsupported t u ps b : ~ white_space_supported ps -> handle_text t ps b = handle_text u ps b /\ (forall b', handle_text t ps b <> Done b').
Proof.
  unfold white_space_supported, handle_text. destruct (sv ps Lwhite_space); intros H; try (exfalso; exact (H I));
    (split; [reflexivity|]; intros b'; destruct (existsb _ _); discriminate).
Qed.
Lemma supported_dec ps : white_space_supported ps \/ ~ white_space_supported ps.
Proof. unfold white_space_supported. destruct (sv ps Lwhite_space); tauto. Qed.
Lemma text_join t u ps b : (run b1 <- handle_text t ps b; handle_text u ps b1) = handle_text (t ++ u) ps b.
Proof.
  destruct (supported_dec ps) as [W|W].
  - rewrite (handle_text_spec t ps b W). cbn [obind]. rewrite !handle_text_spec by exact W. rewrite add_text_state, add_text_twice. f_equal. f_equal.
    unfold shown. destruct (sv ps Lwhite_space); try reflexivity; symmetry; apply squeeze_app.
  - destruct (handle_text_unsupported t (t ++ u) ps b W) as [-> N]. destruct (handle_text (t ++ u) ps b) as [b1| |] eqn:E; try reflexivity.
    destruct (handle_text_unsupported (t ++ u) t ps b W) as [_ N']. destruct (N' b1 E).
Qed.
Lemma squeeze_squeeze a t : squeeze a (squeeze false t) = squeeze a t.
Proof.
  destruct a; [|apply squeeze_idem]. revert t. assert (H : forall t, squeeze true (squeeze true t) = squeeze true t) by (intros; apply squeeze_idem).
  intros [|c t]; [reflexivity|]. cbn [squeeze]. destruct (ws_dec c) as [Hc|Hc].
  - cbn [squeeze]. destruct (ws_dec 32%N) as [_|N]; [apply H|]. exfalso. apply N. unfold is_ws. cbn. tauto.
  - cbn [squeeze]. destruct (ws_dec c) as [|_]; [contradiction|]. f_equal. apply squeeze_idem.
Qed.
Lemma text_tidy t ps b : handle_text (tidy_text ps t) ps b = handle_text t ps b.
Proof.
  destruct (supported_dec ps) as [W|W]; [|apply handle_text_unsupported; exact W].
  rewrite !handle_text_spec by exact W. do 2 f_equal. unfold tidy_text, shown.
  destruct (sv ps Lwhite_space); try reflexivity; apply squeeze_squeeze.
Qed.

(* ------------------------------------------------------------------ *)
(** * Construction that skips what is hidden *)

(** [handle_node], but a hidden element is skipped also in the last place. *)
Section Skip.
  Context {B : Type} (handle : snode -> B -> outcome B).
  Fixpoint skip_with (kids : list snode) (b : B) : outcome B :=
    match kids with [] => Done b | n :: rest => run b <- handle n b; skip_with rest b end.
End Skip.
Fixpoint skip_node (parent_style : style) (n : snode) (b : builder) {struct n} : outcome builder :=
  match n with
  | SOther => Done b
  | SText t => handle_text t parent_style b
  | SElem br st kids =>
      let traverse := skip_with (skip_node st) kids in
      let construct := obind (traverse (builder_new st)) finish_container in
      let context := run (c, fl) <- construct; Done (BFC fl c) in
      if br then handle_text [nl] st b else
      match sv st Ldisplay with
      | DispNone => Done b
      | DispContents => traverse b
      | DispBox OInline IFlow => with_slot (run b <- traverse (push_inline st b); pop_inline b)
      | DispBox OInline IFlowRoot => with_slot Panics
      | DispBox OBlock inside =>
          if is_absolutely_positioned (sv st Lposition) then handle_abspos st context b
          else if is_floating (sv st Lfloat) then handle_float st context b
          else with_slot (handle_block st inside construct b)
      end
  end.
Definition skip_container (st : style) (kids : list snode) : outcome (bcontainer * bool) :=
  run b <- skip_with (skip_node st) kids (builder_new st); finish_container b.

(** It does not see formatting. *)
Lemma go_skip st kids : Forall (fun n => forall ps b, skip_node ps (tidy_node n) b = skip_node ps n b) kids ->
  forall b, skip_with (skip_node st) (tidy st kids) b = skip_with (skip_node st) kids b.
Proof.
  intros H. induction H as [|n kids Hn _ IH]; intros b; [reflexivity|].
  unfold tidy in *. cbn [tidy_node] in *. destruct n as [t| |br st' ks].
  - cbn [skip_with skip_node]. transitivity (run b1 <- handle_text t st b; skip_with (skip_node st)
       ((fix go (l : list snode) : list snode :=
         match l with
         | [] => []
         | SOther :: l' => go l'
         | SText t :: l' => match go l' with SText u :: r => SText (tidy_text st (t ++ u)) :: r | r => SText (tidy_text st t) :: r end
         | x :: l' => tidy_node x :: go l'
         end) kids) b1).
    + destruct (_ kids) as [|[u| |br st' ks] r]; cbn [skip_with skip_node]; rewrite text_tidy; try reflexivity.
      rewrite <- text_join. destruct (handle_text t st b); reflexivity.
    + destruct (handle_text t st b); [apply IH|reflexivity..].
  - cbn [skip_with skip_node obind]. apply IH.
  - cbn [skip_with]. rewrite Hn. destruct (skip_node st (SElem br st' ks) b); [apply IH|reflexivity..].
Qed.
Lemma tidy_elem br st kids : tidy_node (SElem br st kids) = SElem br st (tidy st kids).
Proof. reflexivity. Qed.
Lemma node_skip n : forall ps b, skip_node ps (tidy_node n) b = skip_node ps n b.
Proof.
  induction n as [t| |br st kids IH] using snode_ind'; intros ps b; [reflexivity..|].
  rewrite tidy_elem. cbn [skip_node]. rewrite (go_skip st kids IH (builder_new st)). destruct br; [reflexivity|].
  destruct (sv st Ldisplay) as [| |[] []]; try reflexivity; rewrite (go_skip st kids IH); reflexivity.
Qed.
Lemma skip_tidy st kids : skip_container st (tidy st kids) = skip_container st kids.
Proof. unfold skip_container. rewrite go_skip; [reflexivity|]. apply Forall_forall. intros n _. apply node_skip. Qed.

(* ------------------------------------------------------------------ *)
(** * Where construction succeeds it is the one that skips *)

Definition ole {A} (r r' : outcome A) : Prop := forall x, r = Done x -> r' = Done x.
Definition ile (m m' : inter) : Prop :=
  match m, m' with
  | MAnon a b c, MAnon a' b' c' => a = a' /\ b = b' /\ c = c'
  | MDeferred st r, MDeferred st' r' => st = st' /\ ole r r'
  | MIndep st r, MIndep st' r' | MAbspos st r, MAbspos st' r' | MFloat st r, MFloat st' r' => st = st' /\ ole r r'
  | _, _ => False
  end.
Definition ble (b b' : builder) : Prop :=
  b_style b = b_style b' /\ Forall2 ile (b_boxes b) (b_boxes b') /\ b_inlines b = b_inlines b' /\ b_stack b = b_stack b' /\
  b_floats b = b_floats b'.
Definition rle (r r' : outcome builder) : Prop := forall b, r = Done b -> exists b', r' = Done b' /\ ble b b'.
Lemma ile_refl m : ile m m.
Proof. destruct m; cbn; repeat split; intros x H; exact H. Qed.
Lemma ble_refl b : ble b b.
Proof. split; [reflexivity|]. split; [induction (b_boxes b); constructor; [apply ile_refl|assumption]|]. repeat split. Qed.
Lemma ble_current b b' : ble b b' -> current b = current b' /\ (forall l, ble (set_current b l) (set_current b' l)) /\ has_ongoing_ifc b = has_ongoing_ifc b'.
Proof.
  destruct b as [s bx il k f], b' as [s' bx' il' k' f']. intros (H1 & H2 & H3 & H4 & H5). cbn in *. subst s' il' k' f'.
  unfold current, set_current, has_ongoing_ifc. cbn. split; [reflexivity|]. split; [|reflexivity].
  intros l. destruct k as [|o k]; cbn; repeat split; assumption.
Qed.
Lemma ble_text t ps b b' : ble b b' -> rle (handle_text t ps b) (handle_text t ps b').
Proof.
  intros H x E. pose proof (handle_text_done _ _ _ _ E) as W. rewrite handle_text_spec in E by exact W. injection E as <-.
  rewrite handle_text_spec by exact W. destruct (ble_current b b' H) as (C1 & C2 & _). eexists. split; [reflexivity|].
  unfold add_text. rewrite <- C1. destruct (shown _ _ t); [exact H|apply C2].
Qed.
Lemma with_slot_rle r r' : rle r r' -> rle (with_slot r) (with_slot r').
Proof. intros H b E. destruct r as [b0| |]; try discriminate. destruct (H b0 eq_refl) as (b' & -> & L). injection E as <-. exists b'. split; [reflexivity|exact L]. Qed.
Lemma rle_bind r r' k k' : rle r r' -> (forall b b', ble b b' -> rle (k b) (k' b')) -> rle (obind r k) (obind r' k').
Proof. intros H K b E. destruct r as [b0| |]; try discriminate. destruct (H b0 eq_refl) as (b' & -> & L). exact (K b0 b' L b E). Qed.
Lemma rle_done b b' : ble b b' -> rle (Done b) (Done b').
Proof. intros H x [= <-]. exists b'. split; [reflexivity|exact H]. Qed.
Lemma ble_end_ifc b b' : ble b b' -> rle (end_ifc b) (end_ifc b').
Proof.
  destruct b as [s bx il k f], b' as [s' bx' il' k' f']. intros (H1 & H2 & H3 & H4 & H5). cbn in *. subst s' il' k' f'.
  unfold end_ifc. cbn. destruct k; [|intros x [=]]. destruct il; apply rle_done; split; cbn; repeat split; try assumption.
  apply Forall2_app; [assumption|]. constructor; [|constructor]. cbn. repeat split.
Qed.
Lemma ble_push_box b b' m m' : ble b b' -> ile m m' -> ble (push_box b m) (push_box b' m').
Proof.
  destruct b as [s bx il k f], b' as [s' bx' il' k' f']. intros (H1 & H2 & H3 & H4 & H5) Hm. cbn in *. subst s' il' k' f'.
  repeat split. cbn. apply Forall2_app; [assumption|]. constructor; [exact Hm|constructor].
Qed.
Lemma ble_fragment b b' : ble b b' -> ble (fragment_inlines b) (fragment_inlines b').
Proof.
  destruct b as [s bx il k f], b' as [s' bx' il' k' f']. intros (H1 & H2 & H3 & H4 & H5). cbn in *. subst s' il' k' f'. repeat split. exact H2.
Qed.
Lemma ole_bind {A B} (r r' : outcome A) (k : A -> outcome B) : ole r r' -> ole (obind r k) (obind r' k).
Proof. intros H x E. destruct r as [a| |]; try discriminate. rewrite (H a eq_refl). exact E. Qed.
Lemma ble_block st i r r' b b' : ble b b' -> ole r r' -> rle (handle_block st i r b) (handle_block st i r' b').
Proof.
  intros H R. unfold handle_block. apply rle_bind; [apply ble_end_ifc, ble_fragment, H|]. intros b1 b1' H1. apply rle_done. apply ble_push_box; [exact H1|].
  destruct i; (split; [reflexivity|]); [exact R|apply ole_bind; exact R].
Qed.
Lemma ble_abspos st r r' b b' : ble b b' -> ole r r' -> rle (handle_abspos st r b) (handle_abspos st r' b').
Proof.
  intros H R. destruct (ble_current b b' H) as (C1 & C2 & C3). unfold handle_abspos. rewrite <- C3, <- C1. destruct (has_ongoing_ifc b).
  - apply with_slot_rle. destruct r as [c| |]; [|intros x [=]..]. rewrite (R c eq_refl). apply rle_done. apply C2.
  - apply rle_done. apply ble_push_box; [exact H|]. split; [reflexivity|exact R].
Qed.
Lemma ble_float st r r' b b' : ble b b' -> ole r r' -> rle (handle_float st r b) (handle_float st r' b').
Proof.
  intros H R. unfold handle_float. cbv zeta.
  assert (H1 : ble (Builder (b_style b) (b_boxes b) (b_inlines b) (b_stack b) true) (Builder (b_style b') (b_boxes b') (b_inlines b') (b_stack b') true)).
  { destruct H as (H1 & H2 & H3 & H4 & H5). repeat split; assumption. }
  destruct (ble_current _ _ H1) as (C1 & C2 & C3). rewrite <- C3, <- C1. destruct (has_ongoing_ifc _).
  - apply with_slot_rle. destruct r as [c| |]; [|intros x [=]..]. rewrite (R c eq_refl). apply rle_done. apply C2.
  - apply rle_done. apply ble_push_box; [exact H1|]. split; [reflexivity|exact R].
Qed.
Lemma ble_pop b b' : ble b b' -> rle (pop_inline b) (pop_inline b').
Proof.
  destruct b as [s bx il k f], b' as [s' bx' il' k' f']. intros (H1 & H2 & H3 & H4 & H5). cbn in *. subst s' il' k' f'.
  unfold pop_inline. cbn. destruct k as [|o k]; [intros x [=]|]. apply rle_done.
  destruct (ble_current (Builder s bx il k f) (Builder s bx' il k f)) as (C1 & C2 & _); [repeat split; assumption|]. rewrite <- C1. apply C2.
Qed.
Lemma ble_finish b b' : ble b b' -> ole (finish_container b) (finish_container b').
Proof.
  assert (A : forall l l', Forall2 ile l l' -> forall f, ole (finish_all l f) (finish_all l' f)).
  { intros l l' H. induction H as [|m m' l l' Hm _ IH]; intros f x E; [exact E|]. cbn [finish_all] in *.
    assert (O : ole (finish_one m) (finish_one m')).
    { intros y Ey. destruct m, m'; cbn [ile] in Hm; try contradiction; cbn [finish_one] in *.
      1: destruct Hm as (<- & <- & <-); exact Ey.
      all: destruct Hm as [<- R]; destruct contents as [a| |]; try discriminate; rewrite (R a eq_refl); exact Ey. }
    destruct (finish_one m) as [[y fl]| |]; try discriminate. rewrite (O _ eq_refl). cbn [obind] in *.
    destruct (finish_all l (f || fl)) as [[ys fl']| |] eqn:El; try discriminate. rewrite (IH _ _ El). exact E. }
  destruct b as [s bx il k f], b' as [s' bx' il' k' f']. intros (H1 & H2 & H3 & H4 & H5). cbn in *. subst s' il' k' f'.
  unfold finish_container. cbn [b_inlines b_boxes b_style b_floats]. intros x E.
  destruct il as [|i il].
  - cbn [obind b_boxes b_floats] in *. destruct (finish_all bx f) as [[l fl]| |] eqn:El; try discriminate.
    rewrite (A _ _ H2 _ _ El). exact E.
  - destruct H2 as [|m m' bx bx' Hm H2]; [exact E|].
    pose proof (ble_end_ifc (Builder s (m :: bx) (i :: il) k f) (Builder s (m' :: bx') (i :: il) k f)) as R.
    unfold rle in R. destruct (end_ifc (Builder s (m :: bx) (i :: il) k f)) as [b1| |] eqn:E1; try discriminate.
    destruct (R (conj eq_refl (conj (Forall2_cons _ _ Hm H2) (conj eq_refl (conj eq_refl eq_refl)))) b1 eq_refl) as (b1' & -> & L).
    cbn [obind] in *. destruct L as (_ & L2 & _ & _ & L5). rewrite <- L5.
    destruct (finish_all (b_boxes b1) (b_floats b1)) as [[l fl]| |] eqn:El; try discriminate. rewrite (A _ _ L2 _ _ El). exact E.
Qed.
Lemma node_below n : forall ps hn b b', ble b b' -> rle (handle_node ps n hn b) (skip_node ps n b').
Proof.
  induction n as [t| |br st kids IH] using snode_ind'; intros ps hn b b' H; [apply ble_text; exact H|apply rle_done; exact H|].
  assert (T : forall b b', ble b b' -> rle (traverse_with (handle_node st) kids b) (skip_with (skip_node st) kids b')).
  { clear b b' H. induction IH as [|n kids Hn _ IHk]; intros b b' H; [apply rle_done; exact H|]. cbn [traverse_with skip_with].
    apply rle_bind; [apply Hn; exact H|exact IHk]. }
  assert (Cn : ole (obind (traverse_with (handle_node st) kids (builder_new st)) finish_container)
                   (obind (skip_with (skip_node st) kids (builder_new st)) finish_container)).
  { intros x E. destruct (traverse_with _ kids (builder_new st)) as [b1| |] eqn:E1; try discriminate.
    destruct (T _ _ (ble_refl (builder_new st)) _ E1) as (b1' & -> & L). exact (ble_finish _ _ L x E). }
  cbn [handle_node skip_node]. destruct br; [apply ble_text; exact H|].
  destruct (sv st Ldisplay) as [| |[] ii].
  - destruct hn; [apply rle_done; exact H|intros x [=]].
  - apply T. exact H.
  - destruct ii; [|intros x [=]]. apply with_slot_rle. apply rle_bind; [|exact ble_pop]. apply T.
    destruct b, b'. destruct H as (H1 & H2 & H3 & H4 & H5). cbn in *. unfold push_inline. cbn. subst. repeat split. assumption.
  - destruct (is_absolutely_positioned _); [apply ble_abspos; [exact H|apply ole_bind; exact Cn]|].
    destruct (is_floating _); [apply ble_float; [exact H|apply ole_bind; exact Cn]|].
    apply with_slot_rle, ble_block; [exact H|exact Cn].
Qed.
Lemma container_below st kids : ole (construct_container st kids) (skip_container st kids).
Proof.
  intros x E. unfold construct_container, traverse in E. unfold skip_container.
  destruct (traverse_with (handle_node st) kids (builder_new st)) as [b1| |] eqn:E1; try discriminate. cbn [obind] in E.
  assert (T : forall kids b b', ble b b' -> rle (traverse_with (handle_node st) kids b) (skip_with (skip_node st) kids b')).
  { clear. induction kids as [|n kids IHk]; intros b b' H; [apply rle_done; exact H|]. cbn [traverse_with skip_with].
    apply rle_bind; [apply node_below; exact H|exact IHk]. }
  destruct (T _ _ _ (ble_refl (builder_new st)) _ E1) as (b1' & -> & L). exact (ble_finish _ _ L x E).
Qed.
(** Without hidden elements it is the same altogether. *)
Lemma node_same n : nothing_hidden n -> forall ps hn b, handle_node ps n hn b = skip_node ps n b.
Proof.
  induction n as [t| |br st kids IH] using snode_ind'; intros H ps hn b; try reflexivity. destruct H as [Hd Hk].
  assert (T : forall b, traverse_with (handle_node st) kids b = skip_with (skip_node st) kids b).
  { clear b. induction IH as [|n kids Hn _ IHk]; intros b; [reflexivity|]. cbn [fold_right] in Hk. destruct Hk as [Hk1 Hk2]. cbn [traverse_with skip_with].
    rewrite (Hn Hk1). destruct (skip_node st n b); [apply IHk; exact Hk2|reflexivity..]. }
  cbn [handle_node skip_node]. destruct br; [reflexivity|]. destruct Hd as [Hd|Hd]; [discriminate|].
  rewrite (T (builder_new st)). destruct (sv st Ldisplay) as [| |[] []]; try reflexivity; try (rewrite T; reflexivity). congruence.
Qed.
Lemma container_same st kids : Forall nothing_hidden kids -> construct_container st kids = skip_container st kids.
Proof.
  intros H. unfold construct_container, traverse, skip_container. f_equal. generalize (builder_new st).
  induction H as [|n kids Hn _ IH]; intros b; [reflexivity|]. cbn [traverse_with skip_with]. rewrite (node_same n Hn).
  destruct (skip_node st n b); [apply IH|reflexivity..].
Qed.

Theorem same_boxes st kids kids' r r' : tidy st kids = tidy st kids' ->
  construct_root st kids = Done r -> construct_root st kids' = Done r' -> r = r'.
Proof.
  intros T E E'. unfold construct_root in *. destruct (sv st Ldisplay) eqn:D; try congruence;
    (unfold construct_bfc in *; destruct (construct_container st kids) as [[c fl]| |] eqn:C; try discriminate;
     destruct (construct_container st kids') as [[c' fl']| |] eqn:C'; try discriminate;
     apply container_below in C, C'; rewrite <- skip_tidy in C, C'; rewrite T in C; congruence).
Qed.
Theorem same_outcome st kids kids' : tidy st kids = tidy st kids' -> Forall nothing_hidden kids -> Forall nothing_hidden kids' ->
  construct_root st kids = construct_root st kids'.
Proof.
  intros T H H'. unfold construct_root, construct_bfc. rewrite !container_same by assumption. rewrite <- (skip_tidy st kids), T, skip_tidy. reflexivity.
Qed.
End Any.
