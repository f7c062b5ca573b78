(** The edges of the outermost element and the size of the page only move what is in it (C99). *)
From Verif Require Import BlockModel BlockSpec InlineModel StyleModel StyleSpec StyleExample GeomModel TreeModel TreeSpec PropTree.
From Verif Require Import Base Len DomModel DomSpec UnsetModel GfxModel PaintModel PaintSpec PaintProofs PropPaint PropText.
From Verif Require Import AppendSpec AppendBox AppendProofs PropAppend PropPrepend WrapSpec WrapInline WrapBlock WrapTree EdgesSpec EdgesProofs.
Local Open Scope string_scope.
Local Open Scope list_scope.
Local Open Scope len_scope.

Lemma in_place_absolute st : in_place st -> is_absolutely_positioned (sv st Lposition) = false.
Proof. intros H. rewrite (ip_static _ H). reflexivity. Qed.
Lemma root_box st kids : in_place st -> construct_root st kids = TreeModel.obind (construct_container st kids) (fun '(c, fl) => TreeModel.Done (BFC false (BlockLevelBoxes [Indep st (BFC fl c)]))).
Proof.
  intros H. unfold construct_root, construct_bfc. rewrite (in_place_absolute _ H), (ip_float _ H). pose proof (ip_box _ H) as D.
  destruct (construct_container st kids) as [[c fl]| |]; destruct (sv st Ldisplay); try contradiction; reflexivity.
Qed.
Lemma absolute_one n n' (H : same_node n n') : no_absolute n -> no_absolute n'.
Proof.
  revert n n' H. fix IH 3. intros n n' H. destruct H as [t| |br st st' kids kids' Hs F]; [auto..|].
  unfold no_absolute. cbn [boxes_styled]. destruct br; [auto|]. rewrite <- (proj1 Hs Ldisplay), <- (proj1 Hs Lposition).
  assert (K : fold_right (fun k R => no_absolute k /\ R) True kids -> fold_right (fun k R => no_absolute k /\ R) True kids').
  { clear - F IH. induction F as [|k k' kids kids' Hk F IHF]; [auto|]. cbn. intros [A B]. split; [exact (IH _ _ Hk A)|exact (IHF B)]. }
  destruct (sv st Ldisplay); [auto|exact K|]. intros [A B]. split; [exact A|exact (K B)].
Qed.
Lemma absolute_same kids kids' : Forall2 same_node kids kids' -> Forall no_absolute kids -> Forall no_absolute kids'.
Proof. induction 1 as [|n n' kids kids' Hn _ IH]; intros F; [constructor|]. inversion F; subst. constructor; [eapply absolute_one; eassumption|auto]. Qed.
Lemma frame_texts cs : at_most_a_frame cs -> texts_drawn cs = [].
Proof. intros [_ F]. induction F as [|c cs Hc _ IH]; [reflexivity|]. destruct c; try contradiction; exact IH. Qed.
Lemma texts_visible cs : texts_drawn cs = texts_drawn (visible cs).
Proof. unfold texts_drawn, visible. induction cs as [|c cs IH]; [reflexivity|]. destruct c; cbn [filter]; rewrite IH; reflexivity. Qed.
Lemma texts_moved dx dy cs : texts_drawn (map (moved dx dy) cs) = map (moved dx dy) (texts_drawn cs).
Proof. induction cs as [|c cs IH]; [reflexivity|]. destruct c; unfold texts_drawn in *; cbn; rewrite IH; reflexivity. Qed.

(** Two documents with the same contents in outermost elements that may have different margins, borders, padding, sizes and
    backgrounds, on pages that may have different sizes, where as much room is left for the contents: the one is drawn to
    the end if and only if the other is, and apart from the backgrounds and borders of the outermost elements the same
    things are drawn in the same order, all of them moved by the difference between the edges at the left and the top. *)
Theorem C99_edges : forall font_of width_of style_of style_of' d d' root root' page page',
  let st := root_style style_of root in let st' := root_style style_of' root' in
  let calls := drawing_calls font_of width_of style_of d root page in
  let calls' := drawing_calls font_of width_of style_of' d' root' page' in
  let dx := left_edges (v_inline page') st' - left_edges (v_inline page) st in
  let dy := top_edges (v_inline page') st' - top_edges (v_inline page) st in
  looks_at_font font_of -> looks_at_font width_of ->
  in_place st -> in_place st' -> same_inherited st st' ->
  Forall2 same_node (root_kids style_of d root) (root_kids style_of' d' root') ->
  Forall no_absolute (root_kids style_of d root) ->
  inner_width page' st' = inner_width page st -> inner_height page' st' = inner_height page st ->
  (snd calls = Finished <-> snd calls' = Finished) /\
  (exists frame frame' contents, at_most_a_frame frame /\ at_most_a_frame frame' /\
     visible (fst calls) = frame ++ contents /\ visible (fst calls') = frame' ++ map (moved dx dy) contents) /\
  texts_drawn (fst calls') = map (moved dx dy) (texts_drawn (fst calls)).
Proof.
  intros font_of width_of so so' d d' root root' page page' st st' calls calls' dx dy Hf Hw P P' Hi Sn Na Ew Eh.
  assert (K : (snd calls = Finished <-> snd calls' = Finished) /\
    (exists frame frame' contents, at_most_a_frame frame /\ at_most_a_frame frame' /\
     visible (fst calls) = frame ++ contents /\ visible (fst calls') = frame' ++ map (moved dx dy) contents)).
  2:{ split; [exact (proj1 K)|]. split; [exact (proj2 K)|]. destruct K as (_ & fr & fr' & co & F & F' & E & E').
      rewrite (texts_visible (fst calls')), (texts_visible (fst calls)), E, E'. unfold texts_drawn. rewrite !filter_app. fold (texts_drawn fr) (texts_drawn fr').
      rewrite (frame_texts _ F), (frame_texts _ F'). apply texts_moved. }
  assert (Z : at_most_a_frame []) by (split; [repeat constructor|constructor]).
  unfold calls, calls', drawing_calls.
  assert (C : construct_document so d root = TreeModel.obind (construct_container st (root_kids so d root)) (fun '(c, fl) => TreeModel.Done (BFC false (BlockLevelBoxes [Indep st (BFC fl c)]))))
    by (destruct root; apply root_box; exact P).
  assert (C' : construct_document so' d' root' = TreeModel.obind (construct_container st' (root_kids so' d' root')) (fun '(c, fl) => TreeModel.Done (BFC false (BlockLevelBoxes [Indep st' (BFC fl c)]))))
    by (destruct root'; apply root_box; exact P').
  rewrite C, C'. clear C C'. pose proof (contents_related _ _ _ _ Hi Sn) as R.
  destruct (construct_container st (root_kids so d root)) as [[c fl]| |] eqn:Ec, (construct_container st' (root_kids so' d' root')) as [[c' fl']| |] eqn:Ec'; cbn [zout] in R; try contradiction; cbn [TreeModel.obind];
    try (split; [split; discriminate|exists [], [], []; repeat split; try exact Z; try reflexivity; apply Z]).
  destruct R as [R E]. cbn [fst snd] in R, E. subst fl'.
  set (ma := fun st => f_ascent (font_of st)). set (md := fun st => f_descent (font_of st)).
  assert (Ha : looks_at_font ma) by (intros s s' E1 E2 E3 E4; unfold ma; rewrite (Hf s s' E1 E2 E3 E4); reflexivity).
  assert (Hd : looks_at_font md) by (intros s s' E1 E2 E3 E4; unfold md; rewrite (Hf s s' E1 E2 E3 E4); reflexivity).
  assert (Af : af_bfc (BFC fl c)) by (exact (af_built _ _ _ _ Na Ec)).
  assert (Na' : Forall no_absolute (root_kids so' d' root')) by (apply (absolute_same _ _ Sn Na)).
  assert (Af' : af_bfc (BFC fl c')) by (exact (af_built _ _ _ _ Na' Ec')).
  rewrite (root_layout ma md width_of st page (BFC fl c) P Af), (root_layout ma md width_of st' page' (BFC fl c') P' Af'). rewrite Ew, Eh.
  pose proof (z_bfc font_of Hf ma md width_of Ha Hd Hw (BFC fl c) (BFC fl c') (ZBfc _ _ _ R) (CBlock (inner_width page st) (la_of (inner_height page st))) 0%nat [] [] (Forall2_nil _)) as L.
  destruct (layout_bfc ma md width_of (BFC fl c) _ 0 []) as [[f a]| |], (layout_bfc ma md width_of (BFC fl c') _ 0 []) as [[f' a']| |]; cbn [zres] in L; try contradiction; cbn [bind];
    try (split; [split; discriminate|exists [], [], []; repeat split; try exact Z; try reflexivity; apply Z]).
  destruct L as [(L & _) _]. cbn [fst] in L. pose proof (z_alike font_of _ _ L) as S. 
  destruct (page_seen font_of [root_frag st page f] page) as (cs & -> & T). destruct (page_seen font_of [root_frag st' page' f'] page') as (cs' & -> & T'). cbn [fst snd].
  split; [split; reflexivity|]. rewrite T, T'. cbn [flat_map root_frag seen]. rewrite !app_nil_r, !root_corner by assumption.
  eexists _, _, _. split; [apply box_frame|]. split; [apply box_frame|]. split; [reflexivity|]. f_equal.
  rewrite <- sees_moves. rewrite <- S. f_equal. f_equal. f_equal; unfold dx, dy; ring.
Qed.
Print Assumptions C99_edges.

(** <html><p>so it is</p>now</html>, where html has a margin of 7 px at the top and 10 px at the left and a border of
    3 px at the left, on a page of width 73 px; and where html has padding of 5% of the width of the page on all four
    sides and a background, on a page of width 200 px, of which it takes 60 px *)
Definition edged_doc : doc :=
  Doc [Node None None None (Some 1%nat) (Some 1%nat) DDocument;
       Node (Some 0%nat) None None (Some 2%nat) (Some 4%nat) (DElement (ex_elem "html"));
       Node (Some 1%nat) None (Some 4%nat) (Some 3%nat) (Some 3%nat) (DElement (ex_elem "p"));
       Node (Some 2%nat) None None None None (DomModel.DText (txt "so it is"));
       Node (Some 1%nat) (Some 2%nat) None None None (DomModel.DText (txt "now"))] [].
Definition edged_root : dtree := DT 1 [DT 2 [DT 3 []]; DT 4 []].
Definition edged_p (parent : option style) : style := css parent [prop "display" "block"; prop "font-weight" "bold"].
Definition framed (i : nat) (parent : option style) : style :=
  match i with
  | 1%nat => css parent [prop "display" "block"; idecl "margin-top" [TDim (px 7) "px"]; idecl "margin-left" [TDim (px 10) "px"]; prop "border-left-style" "solid"]
  | _ => edged_p parent
  end.
Definition padded (i : nat) (parent : option style) : style :=
  match i with
  | 1%nat => css parent [prop "display" "block"; idecl "width" [TDim (px 60) "px"]; idecl "padding" [TPercent (Q2Qc (1 # 20))]; prop "background-color" "red"]
  | _ => edged_p parent
  end.
Definition page73 : vec2 Len := Vec2 (px 73) (px 100).
Definition page200 : vec2 Len := Vec2 (px 200) (px 30).
Example C99_case : looks_at_font (@ex_font_of Exact) /\ looks_at_font (@ex_width Exact) /\
  in_place (root_style framed edged_root) /\ in_place (root_style padded edged_root) /\
  same_inherited (root_style framed edged_root) (root_style padded edged_root) /\
  Forall2 same_node (root_kids framed edged_doc edged_root) (root_kids padded edged_doc edged_root) /\
  Forall no_absolute (root_kids framed edged_doc edged_root) /\
  inner_width page200 (root_style padded edged_root) = inner_width page73 (root_style framed edged_root) /\
  inner_height page200 (root_style padded edged_root) = inner_height page73 (root_style framed edged_root) /\
  snd (drawing_calls ex_font_of ex_width framed edged_doc edged_root page73) = Finished /\
  places (fst (drawing_calls ex_font_of ex_width framed edged_doc edged_root page73)) = [("so it", 13, 103#5); ("is", 13, 199#5); ("now", 13, 59)]%Q /\
  places (fst (drawing_calls ex_font_of ex_width padded edged_doc edged_root page200)) = [("so it", 10, 118#5); ("is", 10, 214#5); ("now", 10, 62)]%Q.
Proof.
  split; [intros s s' _ _ _ _; reflexivity|]. split; [intros s s' _ _ _ _; reflexivity|].
  split; [split; [vm_compute; discriminate|vm_compute; reflexivity..|left; vm_compute; reflexivity]|].
  split; [split; [vm_compute; discriminate|vm_compute; reflexivity..|right; vm_compute; discriminate]|].
  split; [intros l I; repeat (destruct I as [<-|I]; [vm_compute; reflexivity|]); destruct I|].
  split.
  { constructor; [|constructor; [constructor|constructor]]. constructor; [|constructor; [constructor|constructor]].
    split; [intros l; destruct l|]; vm_compute; reflexivity. }
  split; [constructor; [vm_compute; auto|constructor; [exact I|constructor]]|].
  split; [apply Qc_is_canon; vm_compute; reflexivity|].
  split; [vm_compute; reflexivity|]. split; [vm_compute; reflexivity|]. split; vm_compute; reflexivity.
Qed.
