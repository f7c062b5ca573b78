(** The text of a page against the text of the document. *)
From Coq Require Import Sorting.Permutation.
From Verif Require Import StyleSpec BlockModel BlockSpec BlockFrame TreeModel TreeSpec TreeFacts TreeText TreeProofs BlockGen.
From Verif Require Import InlineSpec InlineProofs InlineFacts PageSpec PageProofs TextSpec.

Scheme box_laid_i := Induction for box_laid Sort Prop
  with contents_laid_i := Induction for contents_laid Sort Prop
  with boxes_laid_i := Induction for boxes_laid Sort Prop
  with abs_laid_i := Induction for abs_laid Sort Prop.
Combined Scheme laid_ind from box_laid_i, contents_laid_i, boxes_laid_i, abs_laid_i.
Scheme box_ev := Induction for TreeSpec.box_events Sort Prop
  with boxes_ev := Induction for TreeSpec.boxes_events Sort Prop
  with container_ev := Induction for container_events Sort Prop
  with inline_ev := Induction for inline_events Sort Prop
  with inlines_ev := Induction for inlines_events Sort Prop.
Combined Scheme events_ind from box_ev, boxes_ev, container_ev, inline_ev, inlines_ev.

Section Any.
Context {ar : Arith}.

(* ------------------------------------------------------------------ *)
(** * Box trees *)

Lemma in_order_app a b : in_order (a ++ b) = (fst (in_order a) ++ fst (in_order b), snd (in_order a) ++ snd (in_order b)).
Proof. unfold in_order. rewrite !flat_map_app. reflexivity. Qed.
Lemma flat_map_map {A B C} (f : A -> B) (g : B -> list C) l : flat_map g (map f l) = flat_map (fun x => g (f x)) l.
Proof. induction l as [|x l IH]; [reflexivity|]. cbn. rewrite IH. reflexivity. Qed.

(** What is painted in place of inline content is its text. *)
Lemma inline_in_place : forall x : ilb bfc, fst (inline_painted bfc_painted x) = ilb_text x.
Proof.
  induction x as [st f l ch IH|st t fo|st c|st c] using ilb_ind'; try reflexivity.
  cbn [inline_painted ilb_text in_order fst]. rewrite flat_map_map. induction IH as [|y ch H _ IHc]; [reflexivity|].
  cbn [flat_map]. rewrite IHc. f_equal. exact H.
Qed.
Lemma inlines_in_place (l : list (ilb bfc)) : fst (in_order (map (inline_painted bfc_painted) l)) = flat_map ilb_text l.
Proof. cbn [in_order fst]. rewrite flat_map_map. induction l as [|x l IH]; [reflexivity|]. cbn. rewrite IH, inline_in_place. reflexivity. Qed.
(** What comes last is the text of the escaping boxes. *)
Definition escaped_text (l : list (style * bfc)) : text := flat_map (fun sc => together (bfc_painted (snd sc))) l.
Lemma escaped_app a b : escaped_text (a ++ b) = escaped_text a ++ escaped_text b.
Proof. apply flat_map_app. Qed.
Lemma inline_escaped : forall x : ilb bfc, snd (inline_painted bfc_painted x) = escaped_text (escaping_ilb x).
Proof.
  induction x as [st f l ch IH|st t fo|st c|st c] using ilb_ind'; try reflexivity.
  - cbn [inline_painted escaping_ilb in_order snd]. rewrite flat_map_map. induction IH as [|y ch H _ IHc]; [reflexivity|].
    cbn [flat_map]. rewrite escaped_app, IHc. f_equal. exact H.
  - cbn. rewrite app_nil_r. reflexivity.
Qed.
Lemma inlines_escaped (l : list (ilb bfc)) : snd (in_order (map (inline_painted bfc_painted) l)) = escaped_text (flat_map escaping_ilb l).
Proof.
  cbn [in_order snd]. rewrite flat_map_map. induction l as [|x l IH]; [reflexivity|]. cbn [flat_map]. rewrite escaped_app, IH, inline_escaped. reflexivity.
Qed.
Lemma painted_escaped : (forall b, snd (box_painted b) = escaped_text (escaping_blb b)) /\
  (forall c, snd (container_painted c) = escaped_text (escaping c)).
Proof.
  assert (H1 : forall st c, snd (container_painted c) = escaped_text (escaping c) ->
    snd (box_painted (SameFC st c)) = escaped_text (escaping_blb (SameFC st c))).
  { intros st c H. cbn. destruct (positioned st); [reflexivity|exact H]. }
  assert (H4 : forall st c, match c with BFC _ c' => snd (container_painted c') = escaped_text (escaping c') end ->
    snd (box_painted (Indep st c)) = escaped_text (escaping_blb (Indep st c))).
  { intros st [fl c] H. cbn. destruct (positioned st); [reflexivity|exact H]. }
  assert (H2 : forall st c, snd (box_painted (BAbspos st c)) = escaped_text (escaping_blb (BAbspos st c))).
  { intros st c. cbn. rewrite app_nil_r. reflexivity. }
  assert (H5 : forall l, Forall (fun b => snd (box_painted b) = escaped_text (escaping_blb b)) l ->
    snd (container_painted (BlockLevelBoxes l)) = escaped_text (escaping (BlockLevelBoxes l))).
  { intros l H. cbn. rewrite flat_map_map. induction H as [|b l H _ IH]; [reflexivity|]. cbn [flat_map]. rewrite escaped_app, IH. f_equal. exact H. }
  assert (H6 : forall st l, snd (container_painted (InlineFC st l)) = escaped_text (escaping (InlineFC st l))) by (intros; apply inlines_escaped).
  set (P := fun b => snd (box_painted b) = escaped_text (escaping_blb b)).
  set (Q := fun c => snd (container_painted c) = escaped_text (escaping c)).
  set (R := fun c : bfc => match c with BFC _ c' => snd (container_painted c') = escaped_text (escaping c') end).
  split.
  - exact (blb_tree P Q R H1 (fun st c _ => H2 st c) (fun _ _ _ => eq_refl) H4 H5 (fun st l _ => H6 st l) (fun _ _ H => H)).
  - exact (container_tree P Q R H1 (fun st c _ => H2 st c) (fun _ _ _ => eq_refl) H4 H5 (fun st l _ => H6 st l) (fun _ _ H => H)).
Qed.

(* ------------------------------------------------------------------ *)
(** * Pages *)

Lemma marks_frag_texts : forall f, marks_text (frag_marks f) = concat (frag_texts f).
Proof.
  assert (L : forall ch, Forall (fun f => marks_text (frag_marks f) = concat (frag_texts f)) ch ->
    marks_text (flat_map frag_marks ch) = concat (flat_map frag_texts ch)).
  { induction 1 as [|x ch H _ IH]; [reflexivity|]. cbn [flat_map]. rewrite marks_text_app, concat_app, H, IH. reflexivity. }
  fix IH 1. intros [st ch r p b m cm|r ch|st r fo sg]; cbn [frag_marks frag_texts].
  - change (marks_text (flat_map frag_marks ch ++ [MClose st (s_inline_end p) (s_inline_end b) (s_inline_end m)]) = concat (flat_map frag_texts ch)).
    rewrite marks_text_app. cbn [marks_text]. rewrite app_nil_r. apply L. induction ch as [|x ch IHc]; constructor; [apply IH|exact IHc].
  - apply L. induction ch as [|x ch IHc]; constructor; [apply IH|exact IHc].
  - reflexivity.
Qed.
Lemma marks_page_texts fs : marks_text (concat (map line_marks fs)) = concat (page_texts fs).
Proof.
  induction fs as [|f fs IH]; [reflexivity|]. unfold page_texts in *. cbn [map concat flat_map].
  rewrite marks_text_app, concat_app, IH, <- marks_frag_texts. reflexivity.
Qed.
Lemma page_texts_app a b : page_texts (a ++ b) = page_texts a ++ page_texts b.
Proof. apply flat_map_app. Qed.

Section Page.
Context {Z0 : ZeroLaws ar}.
Variable m_ascent m_descent : style -> Len.
Variable m_width : style -> text -> Len.
(** The lines of inline content show its text. *)
Definition lines_text (cb : cblock) (st : style) (l : list (ilb bfc)) (fs : list fragment) : Prop :=
  deletes break_char (flat_map ilb_text l) (concat (page_texts fs)).
Definition is_box (f : fragment) : Prop := match f with FBox _ _ _ _ _ _ _ => True | _ => False end.
Notation P := (fun (_ : cblock) (_ : blb) (f : fragment) => is_box f).
Notation A := (fun (_ : vec2 Len) (_ : style) (f : fragment) => is_box f).

Lemma group_texts f abs : page_texts (abs_group f abs) = page_texts abs.
Proof. destruct abs as [|a abs]; [reflexivity|]. cbn. rewrite app_nil_r. reflexivity. Qed.
Lemma children_texts f : is_box f -> frag_texts f = page_texts (BlockSpec.frag_children f).
Proof. destruct f; [reflexivity|intros []..]. Qed.
Lemma texts_deleted :
  (forall cb b f, box_laid P A lines_text cb b f -> deletes break_char (fst (box_painted b)) (concat (frag_texts f))) /\
  (forall cb c fs, contents_laid P A lines_text cb c fs -> deletes break_char (fst (container_painted c)) (concat (page_texts fs))) /\
  (forall cb l fs, boxes_laid P A lines_text cb l fs -> deletes break_char (fst (in_order (map box_painted l))) (concat (page_texts fs))) /\
  (forall size l fs, abs_laid P A lines_text size l fs -> deletes break_char (escaped_text l) (concat (page_texts fs))).
Proof.
  apply (laid_ind ar P A lines_text
    (fun cb b f _ => deletes break_char (fst (box_painted b)) (concat (frag_texts f)))
    (fun cb c fs _ => deletes break_char (fst (container_painted c)) (concat (page_texts fs)))
    (fun cb l fs _ => deletes break_char (fst (in_order (map box_painted l))) (concat (page_texts fs)))
    (fun size l fs _ => deletes break_char (escaped_text l) (concat (page_texts fs)))).
  - intros cb b r E. destruct b; try discriminate E; constructor.
  - intros cb b c same f ch abs Hc Hf Hch _ IHc _ IHa. rewrite (children_texts f Hf), Hch, page_texts_app, group_texts, concat_app.
    destruct b as [st c'|st c'|st c'|st [fl c']]; try discriminate Hc; injection Hc as -> _; cbn [box_painted box_style] in *;
      change (bfc_painted (BFC fl c)) with (container_painted c) || idtac;
      (destruct (positioned st); cbn [fst]; [apply deletes_app; [exact IHc|rewrite (proj2 painted_escaped); exact IHa]|]);
      inversion IHa as [E0 E1| |]; rewrite app_nil_r; exact IHc.
  - intros cb l fs _ IH. exact IH.
  - intros cb st l fs H. cbn [container_painted]. rewrite inlines_in_place. exact H.
  - constructor.
  - intros cb b l f fs _ IH1 _ IH2. cbn [map]. unfold page_texts. cbn [flat_map in_order fst]. rewrite concat_app.
    apply deletes_app; assumption.
  - constructor.
  - intros size st fl c l f ch abs h fs Hf Hch Hh _ IHc _ IHa _ IHl. unfold page_texts. cbn [flat_map escaped_text snd]. rewrite concat_app.
    apply deletes_app; [|exact IHl]. rewrite (children_texts f Hf), Hch, page_texts_app, group_texts, concat_app.
    unfold together. apply deletes_app; [exact IHc|]. change (bfc_painted (BFC fl c)) with (container_painted c).
    rewrite (proj2 painted_escaped). exact IHa.
Qed.

Lemma ilb_map_events {C D} (F : style -> C -> D) ok cw : forall n (l : list (ilb C)) pos es pos', (boxes_steps l <= n)%nat ->
  boxes_events m_width ok cw pos (map (ilb_map F) l) es pos' -> boxes_events m_width ok cw pos l es pos'.
Proof.
  induction n as [n IHn] using lt_wf_ind. intros l pos es pos' Hn H.
  destruct l as [|b bs]; [inversion H; constructor|]. cbn [map] in H. inversion H as [|? b' bs' e es' p1 p2 Hb Hbs]; subst.
  change (boxes_steps (b :: bs)) with (ilb_steps b + boxes_steps bs)%nat in Hn.
  assert (Hlt : (boxes_steps bs < n)%nat) by (destruct b; cbn [ilb_steps] in Hn; lia).
  econstructor; [|exact (IHn _ Hlt bs _ _ _ (le_n _) Hbs)].
  destruct b as [st first last ch|st t fo|st c|st c]; cbn [ilb_map] in Hb.
  - inversion Hb as [? ? ? ? ? es0 ? Hch| | |]; subst. constructor.
    change (ilb_steps (InlineBox st first last ch)) with (S (S (boxes_steps ch))) in Hn.
    assert (Hlt2 : (boxes_steps ch < n)%nat) by lia. exact (IHn _ Hlt2 ch _ _ _ (le_n _) Hch).
  - inversion Hb; subst. constructor. assumption.
  - inversion Hb; subst. constructor.
  - inversion Hb; subst. constructor.
Qed.
Lemma map_abspos_ok {D} (F : style -> bfc -> D) : forall b : ilb bfc,
  ilb_every (fun st c => generates_box st /\ wf_bfc c) b -> abspos_ok (ilb_map F b).
Proof.
  fix IH 1. intros [st fi la_ ch|st t fo|st c|st c] H; try exact I.
  - cbn [ilb_map ilb_every abspos_ok] in *. induction ch as [|x ch IHc]; [exact I|]. destruct H as [H1 H2].
    split; [exact (IH x H1)|exact (IHc H2)].
  - exact (proj1 H).
Qed.
Lemma map_abspos_oks {D} (F : style -> bfc -> D) st l : wf_container (InlineFC st l) -> abspos_oks (map (ilb_map F) l).
Proof.
  cbn [wf_container]. induction l as [|b l IH]; [exact (fun H => H)|]. intros [H1 H2]. split; [exact (map_abspos_ok F b H1)|exact (IH H2)].
Qed.
(** Inline content laid out anywhere on a page shows its marks, line by line. *)
Definition lines_shown (cb : cblock) (st : style) (l : list (ilb bfc)) (fs : list fragment) : Prop :=
  exists es pos, boxes_events m_width (line_ok m_width) (cb_inline cb) l0 l es pos /\ map line_marks fs = cut [] es.
Lemma lines_laid F st l cb rank abs fl abs' : wf_container (InlineFC st l) ->
  ifc_layout m_ascent m_descent m_width st (map (ilb_map F) l) cb rank abs = Ok (fl, abs') -> lines_shown cb st l (fl_fragments fl).
Proof.
  intros W E. destruct (ifc_layout_any m_ascent m_descent m_width st (map (ilb_map F) l) cb rank abs (map_abspos_oks F st l W))
    as (fl' & abs1 & es & pos & E' & _ & H1 & H2 & _). rewrite E in E'. injection E' as <- _.
  exists es, pos. split; [eapply ilb_map_events; [apply le_n|exact H1]|exact H2].
Qed.
Lemma shown_text cb st l fs : lines_shown cb st l fs -> lines_text cb st l fs.
Proof.
  intros (es & pos & H1 & H2). unfold lines_text. rewrite <- marks_page_texts, H2, cut_text.
  eapply boxes_deletes; [apply le_n|exact H1].
Qed.
Theorem page_text floats c viewport fs : wf_container c ->
  layout_root m_ascent m_descent m_width (BFC floats c) viewport = Ok fs ->
  deletes break_char (together (container_painted c)) (concat (page_texts fs)).
Proof.
  intros W E.
  assert (L : page_laid_with P A lines_text viewport c fs).
  { eapply page_everywhere; [| | | |exact W|exact E].
    - intros cb b f d. destruct f; exact (fun H => H).
    - intros b cb rank abs fl f abs' Wb Fb Eb. destruct b; try discriminate Fb; cbn [layout_blb] in Eb; apply in_flow_inv in Eb;
      destruct Eb as (? & ? & ? & _ & -> & _); exact I.
    - intros st c0 size f (x & y & Ea). apply abs_layout_inv in Ea. destruct Ea as (? & ? & ? & ? & ? & ? & ? & ? & ? & ? & -> & _). exact I.
    - intros st l cb rank abs fl abs' Wl El. apply shown_text. eapply lines_laid; eassumption. }
  destruct L as (ch & abs & -> & Hc & Ha). rewrite page_texts_app, concat_app. unfold together. apply deletes_app.
  - exact (proj1 (proj2 texts_deleted) _ _ _ Hc).
  - rewrite (proj2 painted_escaped). exact (proj2 (proj2 (proj2 texts_deleted)) _ _ _ Ha).
Qed.
End Page.

(* ------------------------------------------------------------------ *)
(** * Renderings *)

Definition balanced (e : list TreeSpec.event) : Prop := forall k b,
  outside_floats k (e ++ b) = outside_floats k e ++ outside_floats k b /\ (0 < k -> outside_floats k e = [])%nat.
Lemma balanced_nil : balanced [].
Proof. intros k b. split; reflexivity. Qed.
Lemma balanced_app a b : balanced a -> balanced b -> balanced (a ++ b).
Proof.
  intros Ha Hb k c. destruct (Ha k (b ++ c)) as [A1 A2]. destruct (Ha k b) as [A3 _]. destruct (Hb k c) as [B1 B2].
  rewrite <- app_assoc, A1, A3, B1, app_assoc. split; [reflexivity|]. intros Hk. rewrite A2, B2; [reflexivity|exact Hk..].
Qed.
Lemma balanced_chars st t : balanced (chars st t).
Proof.
  induction t as [|c t IH]; [apply balanced_nil|]. intros k b. destruct (IH k b) as [I1 I2]. cbn [chars map app outside_floats].
  change (map (fun c => Char c st) t) with (chars st t). rewrite I1. destruct k; split; try reflexivity; [lia|exact I2].
Qed.
Lemma outside_chars st t : outside_floats O (chars st t) = t.
Proof. induction t as [|c t IH]; [reflexivity|]. cbn. f_equal. exact IH. Qed.
Lemma outside_close k b : outside_floats k (Close :: b) = outside_floats (pred k) b. Proof. reflexivity. Qed.
Lemma outside_wrap kd st e : balanced e ->
  outside_floats O (Open kd st :: e ++ [Close]) = match kd with KFloat => [] | _ => outside_floats O e end.
Proof.
  intros H. destruct (H O [Close]) as [H0 _]. destruct (H 1%nat [Close]) as [H1 H2]. specialize (H2 Nat.lt_0_1).
  destruct kd; cbn [outside_floats]; rewrite ?H0, ?H1, ?H2; cbn; rewrite ?app_nil_r; reflexivity.
Qed.
Lemma balanced_wrap kd st e : balanced e -> balanced (Open kd st :: e ++ [Close]).
Proof.
  intros H k b. split.
  - change ((Open kd st :: e ++ [Close]) ++ b) with (Open kd st :: (e ++ [Close]) ++ b). rewrite <- app_assoc. cbn [app].
    assert (G : forall k', outside_floats k' (e ++ Close :: b) = outside_floats k' e ++ outside_floats (pred k') b).
    { intros k'. rewrite (proj1 (H k' (Close :: b))). reflexivity. }
    assert (G' : forall k', outside_floats k' (e ++ [Close]) = outside_floats k' e).
    { intros k'. rewrite (proj1 (H k' [Close])). apply app_nil_r. }
    destruct k as [|k]; destruct kd; cbn [outside_floats]; rewrite G, G'; reflexivity.
  - intros Hk. destruct k as [|k]; [lia|].
    assert (G : forall k', outside_floats (S k') (e ++ [Close]) = []).
    { intros k'. rewrite (proj1 (H (S k') [Close])). rewrite (proj2 (H (S k') [])) by lia. reflexivity. }
    destruct kd; cbn [outside_floats]; apply G.
Qed.
Lemma outside_app a b : balanced a -> outside_floats O (a ++ b) = outside_floats O a ++ outside_floats O b.
Proof. intros H. apply H. Qed.
Lemma same_outside e e' : Forall2 same_content e e' -> forall k, outside_floats k e = outside_floats k e'.
Proof.
  induction 1 as [|a b e e' H _ IH]; intros k; [reflexivity|].
  destruct a, b; cbn in H; try discriminate H; cbn [outside_floats].
  - injection H as -> ->. rewrite !IH. reflexivity.
  - apply IH.
  - subst. rewrite IH. reflexivity.
Qed.
Definition not_absolute (x : TreeSpec.event) : Prop := match x with Open KAbsolute _ => False | _ => True end.
Lemma same_absolute e e' : Forall2 same_content e e' -> Forall not_absolute e' -> Forall not_absolute e.
Proof.
  induction 1 as [|a b e e' H _ IH]; intros F; [constructor|]. inversion F as [|? ? F1 F2]; subst. constructor; [|exact (IH F2)].
  destruct a, b; cbn in H; try discriminate H; try exact I. injection H as -> ->. exact F1.
Qed.

(* ------------------------------------------------------------------ *)
(** * Box trees and renderings *)

Definition renders_as (p : text * text) (e : list TreeSpec.event) : Prop :=
  balanced e /\ Permutation (together p) (outside_floats O e) /\ (Forall not_absolute e -> p = (outside_floats O e, [])).
Lemma renders_app a b ea eb : renders_as a ea -> renders_as b eb -> renders_as (fst a ++ fst b, snd a ++ snd b) (ea ++ eb).
Proof.
  intros (A1 & A2 & A3) (B1 & B2 & B3). split; [apply balanced_app; assumption|]. rewrite (outside_app ea eb A1). split.
  - unfold together in *. cbn [fst snd]. etransitivity; [|apply Permutation_app; [exact A2|exact B2]].
    rewrite <- !app_assoc. apply Permutation_app_head. rewrite !app_assoc. apply Permutation_app_tail, Permutation_app_comm.
  - intros F. apply Forall_app in F as [F1 F2]. rewrite (A3 F1), (B3 F2). reflexivity.
Qed.
Lemma renders_wrap p e k st : match k with KAbsolute | KFloat => False | _ => True end -> renders_as p e ->
  forall q : bool, renders_as (if q then (together p, []) else p) (Open k st :: e ++ [Close]).
Proof.
  intros K (H1 & H2 & H3) q. split; [apply balanced_wrap; exact H1|]. rewrite (outside_wrap k st e H1).
  assert (Ek : match k with KFloat => [] | _ => outside_floats O e end = outside_floats O e) by (destruct k; try contradiction; reflexivity).
  rewrite Ek. split.
  - destruct q; [|exact H2]. unfold together at 1. cbn [fst snd]. rewrite app_nil_r. exact H2.
  - intros F. inversion F as [|? ? _ F1]; subst. apply Forall_app in F1 as [F1 _]. specialize (H3 F1).
    destruct q; [|exact H3]. rewrite H3. unfold together. cbn [fst snd]. rewrite app_nil_r. reflexivity.
Qed.
Lemma renders_absolute p e st : renders_as p e -> renders_as ([], together p) (Open KAbsolute st :: e ++ [Close]).
Proof.
  intros (H1 & H2 & _). split; [apply balanced_wrap; exact H1|]. rewrite (outside_wrap KAbsolute st e H1).
  split; [exact H2|]. intros F. inversion F as [|? ? F1 _]; subst. contradiction F1.
Qed.
Lemma renders_float p e st : renders_as p e -> renders_as ([], []) (Open KFloat st :: e ++ [Close]).
Proof.
  intros (H1 & _). split; [apply balanced_wrap; exact H1|]. rewrite (outside_wrap KFloat st e H1).
  split; [constructor|reflexivity].
Qed.
Lemma renders_nil : renders_as ([], []) [].
Proof. split; [apply balanced_nil|]. split; [constructor|reflexivity]. Qed.
Lemma trees_render :
  (forall st b e, TreeSpec.box_events st b e -> renders_as (box_painted b) e) /\
  (forall st l e, TreeSpec.boxes_events st l e -> renders_as (in_order (map box_painted l)) e) /\
  (forall st c e, container_events st c e -> renders_as (container_painted c) e) /\
  (forall x e, inline_events x e -> renders_as (inline_painted bfc_painted x) e) /\
  (forall l e, inlines_events l e -> renders_as (in_order (map (inline_painted bfc_painted) l)) e).
Proof.
  apply (events_ind ar (fun st b e _ => renders_as (box_painted b) e) (fun st l e _ => renders_as (in_order (map box_painted l)) e)
    (fun st c e _ => renders_as (container_painted c) e) (fun x e _ => renders_as (inline_painted bfc_painted x) e)
    (fun l e _ => renders_as (in_order (map (inline_painted bfc_painted) l)) e)).
  - intros st l e _ _ IH. cbn [box_painted].
    assert (Hp : positioned (anonymous_inheriting_from (Some st)) = false) by reflexivity. rewrite Hp. exact IH.
  - intros st st' c e _ IH. cbn [box_painted]. apply (renders_wrap _ _ KBlock st' I IH (positioned st')).
  - intros st st' fl c e _ IH. cbn [box_painted]. apply (renders_wrap _ _ KIndependent st' I IH (positioned st')).
  - intros st st' fl c e _ IH. exact (renders_absolute _ _ _ IH).
  - intros st st' fl c e _ IH. exact (renders_float _ _ _ IH).
  - intros. exact renders_nil.
  - intros st b l e1 e2 _ IH1 _ IH2. exact (renders_app _ _ _ _ IH1 IH2).
  - intros st l e _ IH. exact IH.
  - intros st l e _ _ IH. exact IH.
  - intros st l e _ IH. exact (renders_wrap _ _ KInline st I IH false).
  - intros st t _. split; [apply balanced_chars|]. cbn [inline_painted]. rewrite outside_chars. unfold together. cbn [fst snd].
    rewrite app_nil_r. split; [apply Permutation_refl|reflexivity].
  - intros st fl c e _ IH. exact (renders_absolute _ _ _ IH).
  - intros st fl c e _ IH. exact (renders_float _ _ _ IH).
  - exact renders_nil.
  - intros x l e1 e2 _ IH1 _ IH2. exact (renders_app _ _ _ _ IH1 IH2).
Qed.

(* ------------------------------------------------------------------ *)
(** * Documents and renderings *)

Lemma ink_app a b : ink (a ++ b) = ink a ++ ink b. Proof. apply filter_app. Qed.
Lemma ink_squeeze t : forall after, ink (squeeze after t) = ink t.
Proof.
  induction t as [|c t IH]; intros after; [reflexivity|]. cbn [squeeze].
  assert (D : forall (b : bool) (u : text), ink (c :: u) = (if leaves_ink c then [c] else []) ++ ink u).
  { intros _ u. cbn. destruct (leaves_ink c); reflexivity. }
  destruct (ws_dec c) as [H|H] eqn:E.
  - assert (L : leaves_ink c = false) by (unfold leaves_ink; rewrite E; reflexivity). rewrite (D true t), L. cbn [app].
    destruct after; [apply IH|]. change (ink (32%N :: squeeze true t)) with (ink (squeeze true t)). apply IH.
  - rewrite (D true), (D true t), IH. reflexivity.
Qed.
Lemma ink_shown ws s t : ink (shown ws s t) = ink t.
Proof. destruct ws; cbn [shown]; first [apply ink_squeeze|reflexivity]. Qed.
Lemma squeeze_from after t c : In c (squeeze after t) -> In c t \/ c = 32%N.
Proof.
  revert after. induction t as [|x t IH]; intros after H; [contradiction|]. cbn [squeeze] in H. destruct (ws_dec x).
  - destruct after; [|destruct H as [H|H]; [right; symmetry; exact H|]]; destruct (IH _ H); auto using in_cons.
  - destruct H as [->|H]; [left; left; reflexivity|]. destruct (IH _ H); auto using in_cons.
Qed.
Lemma shown_from ws s t c : In c (shown ws s t) -> In c t \/ c = 32%N.
Proof. destruct ws; cbn [shown]; first [apply squeeze_from|auto]. Qed.

Definition renders_text (t : text) (e : list TreeSpec.event) : Prop :=
  balanced e /\ ink (outside_floats O e) = ink t /\
  (forall c, In c (outside_floats O e) -> In c t \/ c = 32%N \/ c = 10%N).
Lemma text_nil : renders_text [] [].
Proof. split; [apply balanced_nil|]. split; [reflexivity|]. intros c []. Qed.
Lemma text_app a b ea eb : renders_text a ea -> renders_text b eb -> renders_text (a ++ b) (ea ++ eb).
Proof.
  intros (A1 & A2 & A3) (B1 & B2 & B3). split; [apply balanced_app; assumption|]. rewrite (outside_app ea eb A1), !ink_app, A2, B2.
  split; [reflexivity|]. intros c H. rewrite in_app_iff in *. destruct H as [H|H]; [destruct (A3 c H)|destruct (B3 c H)]; auto.
Qed.
Lemma text_wrap t e k st : renders_text t e -> renders_text (match k with KFloat => [] | _ => t end) (Open k st :: e ++ [Close]).
Proof.
  intros (H1 & H2 & H3). split; [apply balanced_wrap; exact H1|]. rewrite (outside_wrap k st e H1).
  destruct k; try (split; assumption). split; [reflexivity|]. intros c [].
Qed.
Lemma text_shown st s t : renders_text t (fst (shown_events s st t)).
Proof.
  cbn [shown_events fst]. split; [apply balanced_chars|]. rewrite outside_chars, ink_shown. split; [reflexivity|].
  intros c H. destruct (shown_from _ _ _ _ H); auto.
Qed.
Definition node_renders_text (n : snode) : Prop := forall ps s,
  renders_text (unfloated_text n) (fst (node_events ps s n)) /\
  (nothing_absolute n -> Forall not_absolute (fst (node_events ps s n))).
Lemma chars_not_absolute st t : Forall not_absolute (chars st t).
Proof. induction t; constructor; [exact I|assumption]. Qed.
Lemma wrap_not_absolute k st e : k <> KAbsolute -> Forall not_absolute e -> Forall not_absolute (Open k st :: e ++ [Close]).
Proof.
  intros K H. constructor; [destruct k; try exact I; congruence|]. apply Forall_app. split; [exact H|repeat constructor].
Qed.
Lemma list_renders_text ps kids : Forall node_renders_text kids -> forall s,
  renders_text (flat_map unfloated_text kids) (fst (events_with (node_events ps) s kids)) /\
  (fold_right (fun k R => nothing_absolute k /\ R) True kids -> Forall not_absolute (fst (events_with (node_events ps) s kids))).
Proof.
  induction 1 as [|n kids H _ IH]; intros s; cbn [events_with flat_map fold_right].
  - split; [exact text_nil|constructor].
  - destruct (H ps s) as [H1 H2]. destruct (node_events ps s n) as [e1 s1]. destruct (IH s1) as [I1 I2].
    destruct (events_with (node_events ps) s1 kids) as [e2 s2]. cbn [fst] in *.
    split; [apply text_app; assumption|]. intros [N1 N2]. apply Forall_app. split; auto.
Qed.
Lemma node_text n : node_renders_text n.
Proof.
  induction n as [t| |br st kids IH] using snode_ind'; intros ps s.
  - split; [apply text_shown|]. intros _. apply chars_not_absolute.
  - split; [exact text_nil|constructor].
  - cbn [node_events unfloated_text nothing_absolute]. destruct br.
    + split; [|intros _; apply chars_not_absolute].
      destruct (text_shown st s [nl]) as (H1 & H2 & H3). split; [exact H1|]. split; [exact H2|].
      intros c H. destruct (H3 c H) as [[<-|[]]|H']; auto.
    + unfold floating_element. pose proof (list_renders_text st kids IH) as L. destruct (sv st Ldisplay) as [| |[] i].
      * split; [exact text_nil|constructor].
      * destruct (L s) as [L1 L2]. split; [exact L1|]. intros [F|F]; [discriminate|exact (L2 F)].
      * destruct (L None) as [L1 L2]. destruct (events_with (node_events st) None kids) as [e s']. cbn [fst] in *.
        split; [exact (text_wrap _ _ KInline st L1)|]. intros [F|[_ F]]; [discriminate|]. apply wrap_not_absolute; [discriminate|exact (L2 F)].
      * destruct (L None) as [L1 L2]. destruct (is_absolutely_positioned (sv st Lposition)) eqn:Ea; cbn [negb andb].
        -- split; [exact (text_wrap _ _ KAbsolute st L1)|]. intros [F|[F _]]; discriminate.
        -- destruct (is_floating (sv st Lfloat)) eqn:Ef.
           ++ split; [exact (text_wrap _ _ KFloat st L1)|]. intros [F|[_ F]]; [discriminate|]. apply wrap_not_absolute; [discriminate|exact (L2 F)].
           ++ cbn [fst]. split; [destruct i; [exact (text_wrap _ _ KBlock st L1)|exact (text_wrap _ _ KIndependent st L1)]|].
              intros [F|[_ F]]; [discriminate|]. apply wrap_not_absolute; [destruct i; discriminate|exact (L2 F)].
Qed.
Lemma root_text st kids : renders_text (document_text st kids) (root_events st kids) /\
  (is_absolutely_positioned (sv st Lposition) = false -> fold_right (fun k R => nothing_absolute k /\ R) True kids ->
   Forall not_absolute (root_events st kids)).
Proof.
  assert (K : Forall node_renders_text kids) by (apply Forall_forall; intros; apply node_text).
  destruct (list_renders_text st kids K None) as [L1 L2]. fold (document_events st kids) in L1, L2.
  unfold document_text, root_events, root_kind.
  destruct (sv st Ldisplay); [split; [exact text_nil|constructor]|..];
    (destruct (is_absolutely_positioned (sv st Lposition)); cbn [negb andb];
       [split; [exact (text_wrap _ _ KAbsolute st L1)|discriminate]|]);
    (destruct (is_floating (sv st Lfloat));
       [split; [exact (text_wrap _ _ KFloat st L1)|]|split; [exact (text_wrap _ _ KIndependent st L1)|]]);
    intros _ F; (apply wrap_not_absolute; [discriminate|exact (L2 F)]).
Qed.

(** Deleting break characters leaves the ink. *)
Lemma deletes_ink t u : deletes break_char t u -> ink t = ink u.
Proof.
  induction 1 as [|c t u _ IH|c t u H _ IH]; [reflexivity| |].
  - unfold ink in *. cbn [filter]. destruct (leaves_ink c); [f_equal|]; exact IH.
  - unfold ink in *. cbn [filter]. replace (leaves_ink c) with false; [exact IH|]. destruct H as [->|[->| ->]]; reflexivity.
Qed.
Lemma deletes_in P t u c : deletes P t u -> In c u -> In c t.
Proof.
  induction 1 as [|x t u _ IH|x t u _ _ IH]; intros H; [exact H| |right; exact (IH H)].
  destruct H as [->|H]; [left; reflexivity|right; exact (IH H)].
Qed.
End Any.
