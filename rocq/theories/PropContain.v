(** A box of fixed height keeps its contents to itself (C100). *)
From Verif Require Import BlockModel BlockSpec BlockFrame BlockGen StyleModel StyleSpec StyleExample GeomModel TreeModel TreeSpec TreeFacts TreeProofs TreeText TreeInv PropTree.
From Verif Require Import Base Len DomModel DomSpec UnsetModel GfxModel PaintModel PaintSpec PaintProofs PropPaint PropText.
From Verif Require Import AppendSpec AppendBox AppendProofs AppendExact PropAppend PropPrepend WrapSpec WrapInline WrapBlock WrapTree UnboxSpec UnboxProofs UnboxBox PropUnbox ContainSpec ContainProofs.
Local Open Scope string_scope.
Local Open Scope list_scope.

(** what holds of the styles of one list of nodes holds of those of another with the same styles *)
Section Same.
Variable G : style -> Prop.
Hypothesis HG : forall a b, same_style a b -> G b -> G a.
Lemma styled_one n n' (H : same_node n n') : boxes_styled G n' -> boxes_styled G n.
Proof.
  revert n n' H. fix IH 3. intros n n' H. destruct H as [t| |br st st' kids kids' Hs F]; [auto..|].
  cbn [boxes_styled]. destruct br; [auto|]. rewrite <- (proj1 Hs Ldisplay).
  assert (K : fold_right (fun k R => boxes_styled G k /\ R) True kids' -> fold_right (fun k R => boxes_styled G k /\ R) True kids).
  { clear - F IH. induction F as [|k k' kids kids' Hk F IHF]; [auto|]. cbn. intros [A B]. split; [exact (IH _ _ Hk A)|exact (IHF B)]. }
  destruct (sv st Ldisplay); [auto|exact K|]. intros [A B]. split; [exact (HG _ _ Hs A)|exact (K B)].
Qed.
Lemma styled_same kids kids' : Forall2 same_node kids kids' -> Forall (boxes_styled G) kids' -> Forall (boxes_styled G) kids.
Proof. induction 1 as [|n n' kids kids' Hn _ IH]; intros F; [constructor|]. inversion F; subst. constructor; [eapply styled_one; eassumption|auto]. Qed.
End Same.
Lemma root_outcome st kids b : is_absolutely_positioned (sv st Lposition) = false -> construct_root st kids = TreeModel.Done b ->
  (sv st Ldisplay = DispNone \/ is_floating (sv st Lfloat) = true) \/
  (sv st Ldisplay <> DispNone /\ is_floating (sv st Lfloat) = false /\
   exists c fl, construct_container st kids = TreeModel.Done (c, fl) /\ b = BFC false (BlockLevelBoxes [Indep st (BFC fl c)])).
Proof.
  intros Ra C. unfold construct_root, construct_bfc in C. rewrite Ra in C. destruct (is_floating (sv st Lfloat)); [left; right; reflexivity|].
  destruct (construct_container st kids) as [[c f0]| |]; cbn [TreeModel.obind] in C;
    (destruct (sv st Ldisplay); [left; left; reflexivity|..]); try discriminate C; injection C as <-; right; (split; [discriminate|]); (split; [reflexivity|]); eauto.
Qed.

Section Root.
Variable font_of : style -> font.
Variable width_of : style -> text -> Len.
Notation ma := (fun st => f_ascent (font_of st)).
Notation md := (fun st => f_descent (font_of st)).

Lemma root_nothing st kids b page fs : is_absolutely_positioned (sv st Lposition) = false ->
  sv st Ldisplay = DispNone \/ is_floating (sv st Lfloat) = true -> construct_root st kids = TreeModel.Done b ->
  layout_root ma md width_of b page = Ok fs -> flat_map (seen font_of (l0, l0)) fs = [].
Proof.
  intros Ra H C L. unfold construct_root, construct_bfc in C. rewrite Ra in C.
  assert (K : b = BFC false (BlockLevelBoxes []) \/ exists x, b = BFC true (BlockLevelBoxes [BFloat st x])).
  { destruct (construct_container st kids) as [[c f0]| |]; cbn [TreeModel.obind] in C; destruct (sv st Ldisplay); try discriminate C;
      destruct H as [H|H]; try discriminate H; rewrite ?H in C; injection C as <-; eauto. }
  destruct K as [->|(x & ->)]; unfold layout_root in L; cbn in L; unfold bfc_finish, layout_block_level_children in L; cbn in L; injection L as <-; reflexivity.
Qed.

Lemma root_contained s st b0 page fs0 : contained s -> Forall (boxes_styled generates_box) (fill s []) -> Forall no_absolute (fill s []) ->
  is_absolutely_positioned (sv st Lposition) = false ->
  construct_root st (fill s []) = TreeModel.Done b0 -> layout_root ma md width_of b0 page = Ok fs0 ->
  exists before after, flat_map (seen font_of (l0, l0)) fs0 = before ++ after /\
    forall kids b fs, Forall (boxes_styled generates_box) (fill s kids) -> Forall no_absolute (fill s kids) ->
      construct_root st (fill s kids) = TreeModel.Done b -> layout_root ma md width_of b page = Ok fs ->
      exists inside, flat_map (seen font_of (l0, l0)) fs = before ++ inside ++ after.
Proof.
  intros Cs G0 N0 Ra C0 L0. destruct (root_outcome _ _ _ Ra C0) as [H|(Dn & Fl & c0 & fl0 & D0 & Eb)].
  { exists [], []. split; [exact (root_nothing _ _ _ _ _ Ra H C0 L0)|]. intros kids b fs _ _ C L. exists []. exact (root_nothing _ _ _ _ _ Ra H C L). }
  assert (I : forall kids b c fl fs, Forall no_absolute (fill s kids) -> construct_root st (fill s kids) = TreeModel.Done b ->
     b = BFC false (BlockLevelBoxes [Indep st (BFC fl c)]) -> layout_root ma md width_of b page = Ok fs ->
     exists g a, layout_container ma md width_of (BlockLevelBoxes [Indep st (BFC fl c)]) (CBlock (v_inline page) (LALen (v_block page))) 0 [] false false = Ok (g, a) /\ fs = fl_fragments g).
  { intros kids b c fl fs N C Hb L. pose proof (af_root _ _ _ N Ra C) as Af. unfold layout_root in L.
    destruct (layout_bfc ma md width_of b _ 0 []) as [[g a]| |] eqn:E in L; cbn [bind] in L; try discriminate.
    pose proof (proj1 (proj2 (proj2 (free_layout ma md width_of)) b Af _ _ _ _ _ E)) as ->. cbn [mapR bind] in L. injection L as <-.
    subst b. apply bfc_inv in E as (g1 & E & -> & _). rewrite app_nil_r. eauto. }
  destruct (I _ _ _ _ _ N0 C0 Eb L0) as (g0 & a0 & Lc0 & ->).
  destruct (contained_root font_of ma md width_of s Cs st c0 fl0 _ g0 a0 D0 (container_wf _ _ _ _ G0 D0) (af_built _ _ _ _ N0 D0) Lc0) as (B & A & Ex & H).
  exists (B (l0, l0)), (A (l0, l0)). split; [apply Ex|]. intros kids b fs Gk Nk C L.
  destruct (root_outcome _ _ _ Ra C) as [[X|X]|(_ & _ & c & fl & D & E)]; [contradiction|congruence|].
  destruct (I _ _ _ _ _ Nk C E L) as (g & a & Lc & ->).
  destruct (H _ _ _ _ _ D (container_wf _ _ _ _ Gk D) (af_built _ _ _ _ Nk D) Lc) as (J & HJ). exists (J (l0, l0)). apply HJ.
Qed.
End Root.

(** Take a document with an empty block whose height is a length and which is a flow root or has padding or a border at
    the top.  Whatever is put into that block, everything that was drawn before is still drawn in the same place and
    order, and what is drawn in addition comes at one point of the drawing, which does not depend on what is put in. *)
Theorem C100_contained : forall font_of width_of ct style_of d root page_size s,
  looks_at_font font_of -> looks_at_font width_of -> styles_computed ct style_of ->
  contained s -> root_kids style_of d root = fill s [] ->
  is_absolutely_positioned (sv (root_style style_of root) Lposition) = false -> Forall no_absolute (root_kids style_of d root) ->
  snd (drawing_calls font_of width_of style_of d root page_size) = Finished ->
  exists before after, visible (fst (drawing_calls font_of width_of style_of d root page_size)) = before ++ after /\
    forall style_of' d' root' kids, styles_computed ct style_of' ->
      same_style (root_style style_of root) (root_style style_of' root') ->
      Forall2 same_node (fill s kids) (root_kids style_of' d' root') -> Forall no_absolute (root_kids style_of' d' root') ->
      snd (drawing_calls font_of width_of style_of' d' root' page_size) = Finished ->
      exists inside, visible (fst (drawing_calls font_of width_of style_of' d' root' page_size)) = before ++ inside ++ after.
Proof.
  intros font_of width_of ct so d root page s Hf Hw C Cs Ek Ra Na. unfold drawing_calls at 1.
  destruct (construct_document so d root) as [b| |] eqn:E; try discriminate.
  set (ma := fun st => f_ascent (font_of st)). set (md := fun st => f_descent (font_of st)).
  assert (Ha : looks_at_font ma) by (intros s1 s2 E1 E2 E3 E4; unfold ma; rewrite (Hf s1 s2 E1 E2 E3 E4); reflexivity).
  assert (Hd : looks_at_font md) by (intros s1 s2 E1 E2 E3 E4; unfold md; rewrite (Hf s1 s2 E1 E2 E3 E4); reflexivity).
  destruct (C45_whole_document ct so d root b ma md width_of page C E) as (_ & _ & fs & L).
  intros _. assert (T : visible (fst (drawing_calls font_of width_of so d root page)) = flat_map (seen font_of (l0, l0)) fs).
  { unfold drawing_calls. rewrite E. fold ma md. rewrite L. destruct (page_seen font_of fs page) as (cs & -> & T). exact T. }
  rewrite T. clear T. pose proof (kids_computed ct so d root C) as Gk. rewrite Ek in Na, Gk.
  destruct root as [i ts]. cbn [root_style] in *. cbn [construct_document] in E.
  change (construct_root (so i None) (root_kids so d (DT i ts)) = TreeModel.Done b) in E. rewrite Ek in E.
  destruct (root_contained font_of width_of s _ _ _ _ Cs Gk Na Ra E L) as (before & after & Ef & H). exists before, after. split; [exact Ef|].
  intros so' d' root' kids C' Rs Sn Na'. unfold drawing_calls at 1.
  destruct (construct_document so' d' root') as [b'| |] eqn:E'; try discriminate.
  destruct (C45_whole_document ct so' d' root' b' ma md width_of page C' E') as (_ & _ & fs' & L').
  intros _. assert (T : visible (fst (drawing_calls font_of width_of so' d' root' page)) = flat_map (seen font_of (l0, l0)) fs').
  { unfold drawing_calls. rewrite E'. fold ma md. rewrite L'. destruct (page_seen font_of fs' page) as (cs & -> & T). exact T. }
  rewrite T. clear T. pose proof (kids_computed ct so' d' root' C') as Gk'.
  destruct root' as [i' ts']. cbn [root_style] in *. cbn [construct_document] in E'.
  change (construct_root (so' i' None) (root_kids so' d' (DT i' ts')) = TreeModel.Done b') in E'.
  pose proof (u_construct_root _ _ _ _ Rs (same_nodes_unwrapped _ true _ _ Sn)) as Z. rewrite E' in Z.
  destruct (construct_root (so i None) (fill s kids)) as [bm| |] eqn:Em; cbn [zout] in Z; try contradiction.
  pose proof (z_layout_root font_of Hf ma md width_of Ha Hd Hw bm b' page Z) as Lm. rewrite L' in Lm.
  destruct (layout_root ma md width_of bm page) as [fm| |] eqn:El; cbn [zres] in Lm; try contradiction.
  rewrite <- (z_alike font_of _ _ Lm (l0, l0)).
  apply (H kids bm fm); [| |exact Em|exact El].
  - refine (styled_same generates_box _ _ _ Sn Gk'). intros a b0 Hs. unfold generates_box. rewrite (proj2 Hs). auto.
  - refine (styled_same _ _ _ _ Sn Na'). intros a b0 Hs. rewrite (proj1 Hs). auto.
Qed.
Print Assumptions C100_contained.

(** <html><section><p>hi</p><div></div><p>bye</p></section></html>, where the div is a flow root 7 px high, and the same
    with <p>much</p><p>more</p> in the div *)
Definition kept_doc (full : bool) : doc :=
  Doc [Node None None None (Some 1%nat) (Some 1%nat) DDocument;
       Node (Some 0%nat) None None (Some 2%nat) (Some 2%nat) (DElement (ex_elem "html"));
       Node (Some 1%nat) None None (Some 3%nat) (Some 6%nat) (DElement (ex_elem "section"));
       Node (Some 2%nat) None (Some 5%nat) (Some 4%nat) (Some 4%nat) (DElement (ex_elem "p"));
       Node (Some 3%nat) None None None None (DomModel.DText (txt "hi"));
       Node (Some 2%nat) (Some 3%nat) (Some 6%nat) (if full then Some 8%nat else None) (if full then Some 10%nat else None) (DElement (ex_elem "div"));
       Node (Some 2%nat) (Some 5%nat) None (Some 7%nat) (Some 7%nat) (DElement (ex_elem "p"));
       Node (Some 6%nat) None None None None (DomModel.DText (txt "bye"));
       Node (Some 5%nat) None (Some 10%nat) (Some 9%nat) (Some 9%nat) (DElement (ex_elem "p"));
       Node (Some 8%nat) None None None None (DomModel.DText (txt "much"));
       Node (Some 5%nat) (Some 8%nat) None (Some 11%nat) (Some 11%nat) (DElement (ex_elem "p"));
       Node (Some 10%nat) None None None None (DomModel.DText (txt "more"))] [].
Definition kept_root (full : bool) : dtree :=
  DT 1 [DT 2 [DT 3 [DT 4 []]; DT 5 (if full then [DT 8 [DT 9 []]; DT 10 [DT 11 []]] else []); DT 6 [DT 7 []]]].
Definition kept_style (i : nat) (parent : option style) : style :=
  css parent (
    match i with
    | 5%nat => [prop "display" "flow-root"; idecl "height" [TDim (px 7) "px"]]
    | _ => [prop "display" "block"; idecl "margin-top" [TDim (px 5) "px"]; idecl "margin-bottom" [TDim (px 5) "px"]]
    end).
Example C100_case : exists s kids,
  looks_at_font (@ex_font_of Exact) /\ looks_at_font (@ex_width Exact) /\ styles_computed ex_ct kept_style /\
  contained s /\ root_kids kept_style (kept_doc false) (kept_root false) = fill s [] /\
  is_absolutely_positioned (sv (root_style kept_style (kept_root false)) Lposition) = false /\
  Forall no_absolute (root_kids kept_style (kept_doc false) (kept_root false)) /\
  snd (drawing_calls ex_font_of ex_width kept_style (kept_doc false) (kept_root false) ex_page) = Finished /\
  same_style (root_style kept_style (kept_root false)) (root_style kept_style (kept_root true)) /\
  Forall2 same_node (fill s kids) (root_kids kept_style (kept_doc true) (kept_root true)) /\
  Forall no_absolute (root_kids kept_style (kept_doc true) (kept_root true)) /\
  snd (drawing_calls ex_font_of ex_width kept_style (kept_doc true) (kept_root true) ex_page) = Finished /\
  places (fst (drawing_calls ex_font_of ex_width kept_style (kept_doc false) (kept_root false) ex_page)) = [("hi", 0, 118#5); ("bye", 0, 299#5)]%Q /\
  places (fst (drawing_calls ex_font_of ex_width kept_style (kept_doc true) (kept_root true) ex_page)) =
    [("hi", 0, 118#5); ("much", 0, 264#5); ("more", 0, 77); ("bye", 0, 299#5)]%Q.
Proof.
  set (h := kept_style 1 None). set (s := kept_style 2 (Some h)). set (w := kept_style 5 (Some s)).
  exists (InIt [] s (This [SElem false (kept_style 3 (Some s)) [SText (txt "hi")]] w [SElem false (kept_style 6 (Some s)) [SText (txt "bye")]]) []).
  exists [SElem false (kept_style 8 (Some w)) [SText (txt "much")]; SElem false (kept_style 10 (Some w)) [SText (txt "more")]].
  split; [intros a b _ _ _ _; reflexivity|]. split; [intros a b _ _ _ _; reflexivity|].
  split; [intros i parent; apply css_computed; cbn [style_for_element]; destruct (parse_block _ _) eqn:E; [reflexivity|do 12 (destruct i as [|i]; [vm_compute in E; discriminate E|]); vm_compute in E; discriminate E..]|].
  split.
  { cbn [contained]. split; [split; [eexists; vm_compute; reflexivity|split; vm_compute; reflexivity]|].
    split; [split; [eexists; vm_compute; reflexivity|split; vm_compute; reflexivity]|]. split; [eexists; vm_compute; reflexivity|]. left. vm_compute. reflexivity. }
  split; [reflexivity|]. split; [vm_compute; reflexivity|]. split; [repeat constructor; unfold no_absolute; vm_compute; repeat split|].
  split; [vm_compute; reflexivity|]. split; [split; reflexivity|].
  assert (R : forall st, same_style st st) by (intros st; split; reflexivity).
  assert (K : forall br st l l', Forall2 same_node l l' -> same_node (SElem br st l) (SElem br st l')) by (intros; constructor; [apply R|assumption]).
  split; [change (root_kids kept_style (kept_doc true) (kept_root true)) with
      [SElem false s [SElem false (kept_style 3 (Some s)) [SText (txt "hi")];
         SElem false w [SElem false (kept_style 8 (Some w)) [SText (txt "much")]; SElem false (kept_style 10 (Some w)) [SText (txt "more")]];
         SElem false (kept_style 6 (Some s)) [SText (txt "bye")]]]; cbn [fill app]; repeat (apply K || constructor)|].
  split; [repeat constructor; unfold no_absolute; vm_compute; repeat split|]. split; [vm_compute; reflexivity|]. split; vm_compute; reflexivity.
Qed.
