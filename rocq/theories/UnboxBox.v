(** Taking away a block that adds nothing: the boxes (C97). *)
From Verif Require Import Base Len StyleModel BlockModel BlockSpec TreeModel TreeSpec TreeFacts TreeProofs TreeInv AppendSpec AppendBox PrependSpec PrependBox UnboxSpec UnboxProofs.
Local Open Scope outcome_scope.

Lemma pp_built st kids c fl : Forall (boxes_styled plain_padding) kids -> construct_container st kids = Done (c, fl) -> pp_container c.
Proof.
  intros S H.
  refine (proj2 (container_keeps plain_padding (fun _ => True) pp_blb
           (fun c fl => fl = container_has_float c /\ pp_container c) _ _ _ _ _ _ _ _ _ _ _ _ st kids c fl S H)).
  - intros; exact I.
  - intros; exact I.
  - intros; exact I.
  - intros; exact I.
  - intros st0 ps l _ Hl. split; exact I.
  - intros st0 c0 fl0 G [A B]. split; [destruct c0; [exact G|exact I]|exact B].
  - intros st0 c0 fl0 _ [A B]. exact B.
  - intros; exact I.
  - intros; exact I.
  - intros st0 l _ Hl. split; [reflexivity|]. exact I.
  - intros l Hl. split; [reflexivity|]. apply fold_forall. exact Hl.
  - intros c0 fl0 [A _]. exact A.
Qed.

(* ------------------------------------------------------------------ *)
(** * Blocks and blanks *)

Lemma bn_flow st : block_adds_nothing st -> in_flow_block st.
Proof. intros B. split; [exists IFlow; apply B|]. split; [rewrite (bn_static _ B); reflexivity|apply B]. Qed.
Definition inter_of (n : snode) : list inter :=
  match n with
  | SElem _ st ks => [match sv st Ldisplay with
        | DispBox _ IFlow => MDeferred st (construct_container st ks)
        | _ => MIndep st (run (c, fl) <- construct_container st ks; Done (BFC fl c))
        end]
  | _ => []
  end.
Lemma trim_blank t : Forall (fun c => In c [32; 9; 10; 12; 13]%N) t -> trim_start ascii_ws t = [].
Proof.
  induction 1 as [|c t Hc _ IH]; [reflexivity|]. cbn [trim_start].
  replace (ascii_ws c) with true; [exact IH|]. repeat (destruct Hc as [<-|Hc]; [reflexivity|]). destruct Hc.
Qed.
Lemma blank_node ps n hn b : blank ps n -> b_stack b = [] -> b_inlines b = [] -> handle_node ps n hn b = Done b.
Proof.
  intros H Hs Hi. destruct n as [t| |]; [|reflexivity|destruct H]. destruct H as [Ht W]. cbn [handle_node]. unfold handle_text.
  assert (E : handle_text_collapse t ps b = Done b).
  { unfold handle_text_collapse, handle_leading_whitespace. destruct t as [|c t]; [reflexivity|]. rewrite (trim_blank (c :: t) Ht).
    unfold current. rewrite Hs, Hi. cbn [search_back]. destruct (ascii_ws c) eqn:A; [reflexivity|].
    inversion Ht as [|? ? Hc _]; subst. exfalso. clear - Hc A. repeat (destruct Hc as [<-|Hc]; [discriminate A|]). destruct Hc. }
  destruct W as [-> | ->]; exact E.
Qed.
Lemma block_node ps n hn b : block_element n -> b_stack b = [] ->
  handle_node ps n hn b = Done (Builder (b_style b) (b_boxes b ++ flushed b ++ inter_of n) [] [] (b_floats b)).
Proof.
  intros B Hs. destruct n as [t| |br st ks]; try contradiction. destruct B as [-> B].
  destruct (one_block ps st ks hn b B Hs) as (m & -> & ->). reflexivity.
Qed.
Lemma quiet_run ps inner : Forall (fun n => block_element n \/ blank ps n) inner -> forall after b, b_stack b = [] -> b_inlines b = [] ->
  traverse_with (handle_node ps) (inner ++ after) b =
  traverse_with (handle_node ps) after (Builder (b_style b) (b_boxes b ++ flat_map inter_of inner) [] [] (b_floats b)).
Proof.
  induction 1 as [|n inner Hn _ IH]; intros after b Hs Hi.
  - cbn [flat_map app]. rewrite app_nil_r. destruct b; cbn in *; subst; reflexivity.
  - cbn [app traverse_with flat_map]. destruct Hn as [Hn|Hn].
    + rewrite (block_node ps n _ b Hn Hs). cbn [obind]. rewrite IH by reflexivity. cbn [b_style b_boxes b_floats]. unfold flushed. rewrite Hi. cbn [app].
      rewrite <- app_assoc. reflexivity.
    + rewrite (blank_node ps n _ b Hn Hs Hi). cbn [obind]. rewrite IH by assumption.
      destruct n as [t| |]; [| |destruct Hn]; reflexivity.
Qed.
Lemma inner_run ps inner after b : Forall (fun n => block_element n \/ blank ps n) inner -> b_stack b = [] ->
  b_inlines b = [] \/ (exists n rest, inner = n :: rest /\ block_element n) ->
  traverse_with (handle_node ps) (inner ++ after) b =
  traverse_with (handle_node ps) after (Builder (b_style b) (b_boxes b ++ flushed b ++ flat_map inter_of inner) [] [] (b_floats b)).
Proof.
  intros F Hs [Hi|(n & rest & -> & Bn)].
  - rewrite (quiet_run ps inner F after b Hs Hi). unfold flushed. rewrite Hi. reflexivity.
  - cbn [app traverse_with flat_map]. rewrite (block_node ps n _ b Bn Hs). cbn [obind]. inversion F; subst.
    rewrite quiet_run by (assumption || reflexivity). cbn [b_style b_boxes b_floats]. rewrite <- !app_assoc. reflexivity.
Qed.
Lemma true_stack st before b n rest b1 : traverse_with (handle_node st) (before ++ n :: rest) (builder_new st) = Done b ->
  traverse_with (fun n hn => handle_node st n true) before (builder_new st) = Done b1 -> block_element n -> b_stack b1 = [].
Proof. intros T E B. exact (stack_after st before n rest b1 b T E B). Qed.
Lemma true_app st a : forall c b b1, traverse_with (fun n hn => handle_node st n true) (a ++ c) b = Done b1 ->
  exists b2, traverse_with (fun n hn => handle_node st n true) a b = Done b2 /\ traverse_with (fun n hn => handle_node st n true) c b2 = Done b1.
Proof.
  induction a as [|n a IH]; intros c b b1 H; [exists b; split; [reflexivity|exact H]|]. cbn [app traverse_with] in *.
  apply obind_done in H as (b2 & H1 & H2). rewrite H1. cbn [obind]. exact (IH _ _ _ H2).
Qed.
Lemma settled_inlines st before b1 : settled st before ->
  traverse_with (fun n hn => handle_node st n true) before (builder_new st) = Done b1 -> b_inlines b1 = [].
Proof.
  intros (front & blanks & -> & Fb & Ff) H. apply true_app in H as (b2 & H1 & H2).
  assert (K : b_inlines b2 = [] /\ b_stack b2 = []).
  { destruct Ff as [->|(front' & n & -> & Bn)]; [injection H1 as <-; split; reflexivity|].
    apply true_app in H1 as (b3 & _ & H1). cbn [traverse_with] in H1. apply obind_done in H1 as (b4 & H1 & E). injection E as ->.
    destruct n as [t| |br st' ks]; try contradiction. destruct Bn as [-> Bn]. destruct (block_handled _ _ _ _ _ _ Bn H1) as (_ & m & -> & _). split; reflexivity. }
  destruct K as [Ki Ks]. revert b2 H1 H2 Ki Ks. induction Fb as [|n blanks Hn Fb IH]; intros b2 H1 H2 Ki Ks; cbn [traverse_with] in H2; [injection H2 as <-; exact Ki|].
  rewrite (blank_node st n true b2 Hn Ks Ki) in H2. exact (IH b2 H1 H2 Ki Ks).
Qed.

(* ------------------------------------------------------------------ *)
(** * The box tree *)

Lemma middle_finish st b b' p q q' c fl c' fl' : behind (p ++ q) (p ++ q') b b' -> b_stack b = [] -> q <> [] -> q' <> [] ->
  finish_container b = Done (c, fl) -> finish_container b' = Done (c', fl') ->
  b_style b = st -> exists l1 x x' l2 f0 f1 f2 f3, c = BlockLevelBoxes (l1 ++ x ++ l2) /\ c' = BlockLevelBoxes (l1 ++ x' ++ l2) /\
    finish_all q f0 = Done (x, f1) /\ finish_all q' f2 = Done (x', f3).
Proof.
  intros (A & I & S & ms & M & M') Hs Hq Hq' H H' _. pose proof S as Hs'. rewrite Hs in Hs'.
  destruct (finish_blocks _ _ _ Hs H) as [(x & l & _ & N & _)|(xs & f & F & ->)].
  { rewrite M in N. destruct p, q; discriminate || contradiction. }
  destruct (finish_blocks _ _ _ Hs' H') as [(x & l & _ & N & _)|(xs' & f' & F' & ->)].
  { rewrite M' in N. destruct p, q'; discriminate || contradiction. }
  unfold flushed in F, F'. rewrite A, I, M', <- !app_assoc in F'. rewrite M, <- !app_assoc in F.
  destruct (finish_all_app _ _ _ _ _ F) as (l1 & r & g1 & F1 & Fr & ->). destruct (finish_all_app _ _ _ _ _ Fr) as (x & l2 & g2 & F2 & F3 & ->).
  destruct (finish_all_app _ _ _ _ _ F') as (l1' & r' & g1' & F1' & Fr' & ->). destruct (finish_all_app _ _ _ _ _ Fr') as (x' & l2' & g2' & F2' & F3' & ->).
  rewrite <- (finish_all_flag _ _ _ _ _ _ _ F1 F1'), <- (finish_all_flag _ _ _ _ _ _ _ F3 F3').
  exists l1, x, x', l2, g1, g2, g1', g2'. repeat split; assumption.
Qed.

Theorem fewer_boxes st kids kids' : unboxed st kids kids' -> forall c fl c' fl',
  construct_container st kids = Done (c, fl) -> construct_container st kids' = Done (c', fl') -> fewer (auto_height st) c c'.
Proof.
  induction 1 as [parent before st inner after Ah Bn Fi Ei Se | parent before st kids kids' after B U IH]; intros c fl c' fl' H H';
    unfold construct_container in H, H'; apply obind_done in H as (b & T & H); apply obind_done in H' as (b' & T' & H');
    pose proof (traverse_stack _ _ _ T) as Hs; unfold traverse in T, T'.
  - assert (Fp : Forall (fun n => block_element n \/ blank parent n) inner) by (revert Fi; apply Forall_impl; tauto).
    assert (Fs : Forall (fun n => block_element n \/ blank st n) inner) by (revert Fi; apply Forall_impl; tauto).
    pose proof (bn_flow _ Bn) as Bf.
    pose proof T as T0. apply traverse_split in T as (b1 & E1 & E2).
    pose proof (true_stack _ _ _ _ _ _ T0 E1 (conj eq_refl Bf)) as Hs1.
    assert (Ti : traverse_with (handle_node parent) (inner ++ after) b1 = Done b').
    { destruct inner as [|n inner]; [inversion Ei|]. cbn [app] in T'. apply traverse_split in T' as (b2 & E1' & E2'). assert (b2 = b1) as -> by congruence. exact E2'. }
    assert (Hi : b_inlines b1 = [] \/ (exists n rest, inner = n :: rest /\ block_element n)).
    { destruct Se as [Se|Se]; [left; exact (settled_inlines _ _ _ Se E1)|right; exact Se]. }
    rewrite (inner_run _ _ _ _ Fp Hs1 Hi) in Ti. cbn [traverse_with] in E2.
    rewrite (block_node parent (SElem false st inner) _ b1 (conj eq_refl Bf) Hs1) in E2. cbn [obind] in E2.
    assert (Ne : flat_map inter_of inner <> []).
    { apply Exists_exists in Ei as (n & Hn & Bl). apply in_split in Hn as (k1 & k2 & ->). rewrite flat_map_app. destruct n; try contradiction.
      cbn [flat_map inter_of app]. destruct (flat_map inter_of k1); discriminate. }
    match type of E2 with traverse_with _ _ ?b0 = _ => match type of Ti with traverse_with _ _ ?b0' = _ =>
      assert (Bh : behind ((b_boxes b1 ++ flushed b1) ++ inter_of (SElem false st inner)) ((b_boxes b1 ++ flushed b1) ++ flat_map inter_of inner) b0 b0')
        by (repeat split; exists []; cbn [b_boxes]; rewrite !app_nil_r, <- !app_assoc; split; reflexivity) end end.
    destruct (behind_kids parent after _ _ _ _ _ Bh E2) as (b2 & E & Bh2). assert (b2 = b') as -> by congruence.
    destruct (middle_finish _ _ _ _ _ _ _ _ _ _ Bh2 Hs ltac:(discriminate) Ne H H' eq_refl) as (l1 & x & x' & l2 & f0 & f1 & f2 & f3 & -> & -> & Fx & Fx').
    cbn [inter_of] in Fx. rewrite (bn_block _ Bn) in Fx. cbn [finish_all finish_one] in Fx.
    apply obind_done in Fx as ([y fy] & Fy & Fx). cbn [obind] in Fx. injection Fx as <- _. apply with_slot_done, obind_done in Fy as ([d fd] & Fd & Fy). injection Fy as <- _.
    unfold construct_container, traverse in Fd. rewrite <- (app_nil_r inner) in Fd. rewrite (quiet_run _ _ Fs) in Fd by reflexivity.
    cbn [traverse_with obind builder_new b_style b_boxes b_floats app] in Fd. apply finish_blocks in Fd as [(z & l & Z & _)|(zs & fz & Fz & ->)]; [discriminate Z| |reflexivity].
    unfold flushed in Fz. cbn [b_inlines b_boxes b_style] in Fz. rewrite app_nil_r in Fz. rewrite (finish_all_flag _ _ _ _ _ _ _ Fz Fx').
    replace (auto_height parent) with true by (unfold auto_height; rewrite Ah; reflexivity). cbn [app]. apply F_here, Bn.
  - pose proof T as T0. apply traverse_split in T as (b1 & E1 & E2). apply traverse_split in T' as (b1' & E1' & E2'). assert (b1' = b1) as -> by congruence.
    pose proof (true_stack _ _ _ _ _ _ T0 E1 (conj eq_refl B)) as Hs1. cbn [traverse_with] in E2, E2'.
    rewrite (block_node parent (SElem false st kids) _ b1 (conj eq_refl B) Hs1) in E2. rewrite (block_node parent (SElem false st kids') _ b1 (conj eq_refl B) Hs1) in E2'. cbn [obind] in E2, E2'.
    match type of E2 with traverse_with _ _ ?b0 = _ => match type of E2' with traverse_with _ _ ?b0' = _ =>
      assert (Bh : behind ((b_boxes b1 ++ flushed b1) ++ inter_of (SElem false st kids)) ((b_boxes b1 ++ flushed b1) ++ inter_of (SElem false st kids')) b0 b0')
        by (repeat split; exists []; cbn [b_boxes]; rewrite !app_nil_r, <- !app_assoc; split; reflexivity) end end.
    destruct (behind_kids parent after _ _ _ _ _ Bh E2) as (b2 & E & Bh2). assert (b2 = b') as -> by congruence.
    destruct (middle_finish _ _ _ _ _ _ _ _ _ _ Bh2 Hs ltac:(discriminate) ltac:(discriminate) H H' eq_refl) as (l1 & x & x' & l2 & f0 & f1 & f2 & f3 & -> & -> & Fx & Fx').
    destruct B as ((i & D) & _). cbn [inter_of] in Fx, Fx'. rewrite D in Fx, Fx'. destruct i; cbn [finish_all finish_one] in Fx, Fx';
      apply obind_done in Fx as ([y fy] & Fy & Fx); cbn [obind] in Fx; injection Fx as <- _; apply obind_done in Fx' as ([y' fy'] & Fy' & Fx'); cbn [obind] in Fx'; injection Fx' as <- _.
    + apply with_slot_done, obind_done in Fy as ([d fd] & Xd & Fy). injection Fy as <- _. apply with_slot_done, obind_done in Fy' as ([d' fd'] & Xd' & Fy'). injection Fy' as <- _.
      cbn [app]. apply F_same. exact (IH _ _ _ _ Xd Xd').
    + apply with_slot_done, obind_done in Fy as (d0 & Xd & Fy). injection Fy as <- _. apply obind_done in Xd as ([d fd] & Xd & X1). injection X1 as <-.
      apply with_slot_done, obind_done in Fy' as (d0' & Xd' & Fy'). injection Fy' as <- _. apply obind_done in Xd' as ([d' fd'] & Xd' & X1'). injection X1' as <-.
      cbn [app]. apply F_indep. exact (IH _ _ _ _ Xd Xd').
Qed.
