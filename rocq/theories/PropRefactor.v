(** Style sheets can be rewritten (C93). *)
From Verif Require Import StyleModel StyleSpec StyleExample GeomModel InlineModel BlockModel TreeModel TreeSpec StyleFacts PropStyle PropTree PaintModel PaintSpec PropPaint PropText.
From Verif Require Import Base DomModel DomSpec SelModel SelSpec UnsetModel UaModel UaSpec UaProofs UaDoc PropUa GfxModel RecolorProofs RefactorSpec RefactorProofs PropAttr PropRecolor PropIso DomExample.
From Coq Require Import Lia.
Local Open Scope string_scope.
Local Open Scope list_scope.
Local Open Scope result_scope.

(** The computed style of an element stays the same when the author's style sheets are rewritten. *)
Theorem C93_styles {ar : Arith} : forall sel element ct (sp : sel -> N) (hits : element -> sel -> Prop) e applies ua author attr parent s author' parent' s',
  (forall x, applies x = true -> hits e x) ->
  element_style ct sp applies ua author attr parent s -> element_style ct sp applies ua author' attr parent' s' ->
  refactored ct sp hits (concat author) (concat author') -> same_parent parent parent' -> same_style s s'.
Proof.
  intros sel element ct sp hits e m ua au at_ p s au' p' s' Hm H H' R P. eapply w_style; [exact H|exact H'| |exact P].
  apply (refactored_winners ct sp hits e m); [exact Hm|exact R|]. exact (proj1 (C09_winner_exists_and_is_unique _ _ _ _ _ _ _ _ _ H)).
Qed.
Print Assumptions C93_styles.

(** Styles with the same values draw the same. *)
Theorem C93_drawing {ar : Arith} : forall style_of style_of' font_of width_of,
  (forall i p p', same_parent p p' -> same_style (style_of i p) (style_of' i p')) ->
  looks_at_values font_of -> looks_at_values width_of ->
  forall d root page, drawing_calls font_of width_of style_of' d root page = drawing_calls font_of width_of style_of d root page.
Proof.
  intros so so' fo wo Hs Hf Hw d root page.
  destruct (z_drawing same_style (fun s s' l H _ => eq_sym (proj1 H l)) (fun s s' H => eq_sym (proj2 H))) with (style_of := so) (style_of' := so') (Q := @eq (list dcall))
    (font_of := fo) (width_of := wo) (d := d) (root := root) (page := page) as [E1 E2]; auto.
  - intros s s' [H1 H2]. unfold anonymous_inheriting_from, style_new. split; [|reflexivity]. intros l. destruct l; cbn; rewrite ?H1; reflexivity.
  - intros i. split; [apply Hs; exact I|]. intros p p' H. apply Hs. exact H.
  - intros; subst; reflexivity.
  - intros st st' l x y f [H _]. rewrite H. reflexivity.
  - intros st st' ps w k [H _]. unfold to_rgba. rewrite !H. auto.
  - intros st st' b [H _]. unfold paint_background, to_rgba. rewrite !H. reflexivity.
  - destruct (drawing_calls fo wo so d root page), (drawing_calls fo wo so' d root page). cbn in *. congruence.
Qed.
Print Assumptions C93_drawing.

(** the unused first slot of the arena never holds an element *)
Definition no_element0 (d : doc) : Prop := exists n, nth_error (nodes d) 0 = Some n /\ forall x, n_data n <> DElement x.
Lemma setn0 d i f d' : (forall n x, n_data (f n) = DElement x -> exists y, nth_error (nodes d) i = Some n -> n_data n = DElement y) ->
  setn d i f = Ok d' -> no_element0 d -> no_element0 d'.
Proof.
  unfold setn, no_element0. intros Hf E (n & Hn & N). destruct d as [[|m ns] se]; [discriminate|]. cbn in *. injection Hn as ->.
  destruct i as [|i]; cbn in *.
  - injection E as <-. cbn. eexists. split; [reflexivity|]. intros x Ex. destruct (Hf n x Ex) as (y & Hy). exact (N y (Hy eq_refl)).
  - destruct (nth_error ns i); [|discriminate]. injection E as <-. cbn. eauto.
Qed.
Lemma setn0_links d i f d' : (forall n, n_data (f n) = n_data n) -> setn d i f = Ok d' -> no_element0 d -> no_element0 d'.
Proof. intros Hf. apply setn0. intros n x E. exists x. intros _. rewrite <- Hf. exact E. Qed.
Lemma push0 d n : no_element0 d -> no_element0 (fst (push_node d n)).
Proof. intros (m & E & N). exists m. split; [|exact N]. destruct d as [[|q ns] se]; [discriminate|]. exact E. Qed.
Ltac step0 := repeat match goal with
  | |- (bind ?x _) = Ok _ -> _ => let d := fresh "d" in let E := fresh "E" in destruct x as [d| |] eqn:E; cbn [bind]; try discriminate
  | H : (setn _ _ _) = Ok ?d |- _ => lazymatch goal with K : no_element0 d |- _ => fail | _ => assert (no_element0 d) by (eapply setn0_links; [|exact H|eassumption]; reflexivity) end
  | H : (match ?x with Some _ => _ | None => _ end) = Ok _ |- _ => destruct x; cbn [bind] in H
  | H : (bind ?x _) = Ok _ |- _ => let E := fresh "E" in destruct x eqn:E; cbn [bind] in H; try discriminate
  | H : Ok _ = Ok _ |- _ => injection H as <-
  end.
Lemma detach0 d k d' : detach d k = Ok d' -> no_element0 d -> no_element0 d'.
Proof.
  unfold detach. intros H N. step0; try discriminate; assumption.
Qed.
Lemma append0 d p c d' : DomModel.append d p c = Ok d' -> no_element0 d -> no_element0 d'.
Proof.
  unfold DomModel.append. intros H N. destruct (detach d c) as [d1| |] eqn:E1; cbn [bind] in H; try discriminate. pose proof (detach0 _ _ _ E1 N) as N1.
  step0; try discriminate; assumption.
Qed.
Lemma before0 d s c d' : insert_before d s c = Ok d' -> no_element0 d -> no_element0 d'.
Proof.
  unfold insert_before. intros H N. destruct (detach d c) as [d1| |] eqn:E1; cbn [bind] in H; try discriminate. pose proof (detach0 _ _ _ E1 N) as N1.
  step0; try discriminate; assumption.
Qed.
Lemma common0 d c prev app d' : (forall d n d', app d n = Ok d' -> no_element0 d -> no_element0 d') ->
  append_common d c prev app = Ok d' -> no_element0 d -> no_element0 d'.
Proof.
  intros Ha H N. unfold append_common in H. destruct c as [n|t]; [exact (Ha _ _ _ H N)|].
  destruct (prev d) as [o| |]; cbn [bind] in H; try discriminate.
  assert (F : app (fst (push_node d (new_node (DomModel.DText t)))) (snd (push_node d (new_node (DomModel.DText t)))) = Ok d' -> no_element0 d')
    by (intros E; exact (Ha _ _ _ E (push0 d _ N))).
  destruct o as [id|]; [|exact (F H)]. destruct (getn d id) as [n| |]; cbn [bind] in H; try discriminate. destruct (n_data n); try exact (F H).
  eapply setn0; [|exact H|exact N]. discriminate.
Qed.
Lemma reparent0 fuel : forall d n p nx d', reparent_loop fuel d n p nx = Ok d' -> no_element0 d -> no_element0 d'.
Proof.
  induction fuel as [|fuel IH]; intros d n p [c|] d' H N; cbn in H; try discriminate; try (injection H as <-; exact N).
  destruct (getn d c); cbn [bind] in H; try discriminate. destruct (check _); cbn [bind] in H; try discriminate.
  destruct (DomModel.append d p c) as [d1| |] eqn:E; cbn [bind] in H; try discriminate. destruct (getn d1 c); cbn [bind] in H; try discriminate.
  exact (IH _ _ _ _ _ H (append0 _ _ _ _ E N)).
Qed.
Lemma reach0 d : reach d -> no_element0 d.
Proof.
  induction 1 as [|d o d' Hd N A H]; [exists (new_node DDocument); split; [reflexivity|discriminate]|].
  destruct o; cbn [step] in H.
  - injection H as <-. unfold create_element. cbn. match goal with |- context [if ?x then _ else _] => destruct x end; exact (push0 d _ N).
  - injection H as <-. exact (push0 d _ N).
  - injection H as <-. exact (push0 d _ N).
  - eapply common0; [|exact H|exact N]. intros dd nn dd1 E0 N0. exact (append0 _ _ _ _ E0 N0).
  - eapply common0; [|exact H|exact N]. intros dd nn dd1 E0 N0. exact (before0 _ _ _ _ E0 N0).
  - unfold sink_append_based_on_parent_node in H. destruct (getn d element) as [n| |]; cbn [bind] in H; try discriminate.
    destruct (n_parent n); (eapply common0; [|exact H|exact N]); intros dd nn dd1 E0 N0; [exact (before0 _ _ _ _ E0 N0)|exact (append0 _ _ _ _ E0 N0)].
  - exact (append0 _ _ _ _ H (push0 d _ N)).
  - unfold add_attrs_if_missing, getn in H. destruct (nth_error (nodes d) target) as [n|] eqn:E; cbn [bind] in H; try discriminate. destruct (n_data n) eqn:D; try discriminate.
    eapply setn0; [|exact H|exact N]. intros m x _. exists e. rewrite E. intros [= <-]. exact D.
  - exact (detach0 _ _ _ H N).
  - unfold reparent_children in H. destruct (getn d node) as [n| |]; cbn [bind] in H; try discriminate. exact (reparent0 _ _ _ _ _ _ H N).
Qed.

(** The elements of a document a selector selects. *)
Definition selects (d : doc) (e : node_id) (s : selector) : Prop :=
  node_of d e /\ element d e /\ (SelSpec.supported (s_subject s) (s_rest s) -> selector_holds d (s_subject s) (s_rest s) e).

(** A document whose style sheets (the user's and those in the document) are rewritten looks the same. *)
Theorem C93_document : forall ct read_sheet attr_items fuel d user user' sources sources' style_of root style_of' root',
  styled_document ct read_sheet attr_items fuel d user sources style_of root ->
  styled_document ct read_sheet attr_items fuel d user' sources' style_of' root' ->
  refactored ct specificity (selects d) (concat (map read_sheet sources)) (concat (map read_sheet sources')) ->
  root' = root /\ (forall i p p', same_parent p p' -> same_style (style_of i p) (style_of' i p')) /\
  forall font_of width_of page, looks_at_values font_of -> looks_at_values width_of ->
    drawing_calls font_of width_of style_of' d root' page = drawing_calls font_of width_of style_of d root page.
Proof.
  intros ct rs ai fuel d user user' src src' so root so' root' (Hd & Hf & Hp & G & GA & H) (_ & _ & Hp' & G' & _ & H') R.
  pose proof (proj2 (document_input_styles ct rs ai _ _ _ _ _ _ Hd Hf Hp G GA H)) as SS.
  pose proof (proj2 (document_input_styles ct rs ai _ _ _ _ _ _ Hd Hf Hp' G' GA H')) as SS'.
  assert (root' = root /\ forall i p p', (~ node_of d i \/ forall x, data_of d i <> Some (DElement x)) -> same_parent p p' -> same_style (so i p) (so' i p')) as [-> N].
  { unfold document_input in H, H'. destruct (ua_style_set ct) as [ua| |]; try discriminate. cbn [bind] in H, H'.
    destruct (author_style_set ct rs fuel d user) as [au| |]; try discriminate. destruct (author_style_set ct rs fuel d user') as [au'| |]; try discriminate. cbn [bind] in H, H'.
    destruct (root_element fuel d) as [r| |]; try discriminate. cbn [bind] in H, H'. destruct (subtree fuel d r) as [t| |]; try discriminate. cbn [bind] in H, H'.
    injection H as <- <-. injection H' as <- <-. split; [reflexivity|].
    assert (A : forall p p', same_parent p p' -> same_style (anonymous_inheriting_from p) (anonymous_inheriting_from p')).
    { intros p p' P. destruct p as [s|], p' as [s'|]; cbn in P; try contradiction; unfold anonymous_inheriting_from, style_new; (split; [|reflexivity]); intros l; [|reflexivity].
      destruct P as [P _]. destruct l; cbn; rewrite ?P; reflexivity. }
    intros i p p' Hi P.
    assert (Q : forall x, data_of d i <> Some (DElement x)).
    { destruct Hi as [Hi|Hi]; [|exact Hi]. intros x Hx. apply Hi. unfold node_of. unfold data_of in Hx. pose proof (nth_error_Some (nodes d) i) as L.
      destruct i as [|i]; [|split; [lia|apply L; destruct (nth_error (nodes d) (S i)); [discriminate|discriminate Hx]]].
      exfalso. destruct (reach0 d Hd) as (n & E & D). rewrite E in Hx. cbn in Hx. injection Hx as Hx. exact (D x Hx). }
    unfold style_or_anonymous, node_style, getn. unfold data_of in Q. destruct (nth_error (nodes d) i) as [n|]; [|exact (A p p' P)]. cbn [bind option_map] in *.
    destruct (n_data n); try exact (A p p' P). exfalso. exact (Q e eq_refl). }
  split; [reflexivity|].
  assert (K : forall i p p', same_parent p p' -> same_style (so i p) (so' i p')).
  { intros i p p' P. destruct (data_of d i) as [dt|] eqn:Ed; [|apply N; [right; congruence|exact P]].
    destruct dt as [ | | | | x |]; try (apply N; [right; congruence|exact P]).
    assert (Dn : {node_of d i} + {~ node_of d i}) by (unfold node_of; destruct (le_lt_dec 1 i), (lt_dec i (length (nodes d))); [left|right|right|right]; lia).
    destruct Dn as [Ni|Ni]; [|apply N; auto].
    eapply (C93_styles _ _ ct specificity (selects d) i (matchb fuel d i)); [|exact (SS i x p Ni Ed)|exact (SS' i x p' Ni Ed)|exact R|exact P].
    intros s M. split; [exact Ni|]. split; [exists x; exact Ed|]. intros Sup.
    destruct (PropSel.C21_selectors d fuel Hd Hf s i Ni (ex_intro _ x Ed) Sup) as (b & Eb & Hb). unfold matchb in M. rewrite Eb in M. apply Hb. exact M. }
  split; [exact K|]. intros fo wo page Hfo Hwo. apply C93_drawing; assumption.
Qed.
Print Assumptions C93_document.

(* ------------------------------------------------------------------ *)
(** * Example *)

(** The document of C89 with `p, div { color: red; margin: 1px } li { color: blue } div { color: blue }`, rewritten as
    `div { margin: 1px; color: blue } p { color: red; margin-top: 1px; ... }`. *)
Definition color_is (c : string) : item := dcl "color" [TIdent c].
Definition margin_1px : item := dcl "margin" [TDim (px 1) "px"].
Definition margins_1px : list item := map (fun n => dcl n [TDim (px 1) "px"]) ["margin-top"; "margin-right"; "margin-bottom"; "margin-left"].
Definition long_sheet : list (rule selector) :=
  [RStyle [tag "p"; tag "div"] [color_is "red"; margin_1px]; RStyle [tag "li"] [color_is "blue"]; RStyle [tag "div"] [color_is "blue"]].
Definition short_sheet : list (rule selector) :=
  [RStyle [tag "div"] [margin_1px; color_is "blue"]; RStyle [tag "p"] (color_is "red" :: margins_1px)].
Definition read_either (t : text) : list (rule selector) := if list_eq_dec N.eq_dec t (txt "long") then long_sheet else short_sheet.
Definition either_drawing (user : string) : result (list dcall) :=
  do (style_of, root) <- document_input ex_ct read_either no_items 20 (attr_doc []) (Some (txt user));
  Ok (fst (drawing_calls ex_font_of ex_width style_of (attr_doc []) root ex_page)).
Lemma attr_reach : reach (attr_doc []).
Proof. apply (okrun_reach (attr_ops []) doc_new); [apply reach_new|vm_compute; reflexivity|vm_compute; reflexivity]. Qed.
Lemma tag_selected n e : selects (attr_doc []) e (tag n) -> matches 20 (attr_doc []) (tag n) e = Ok true.
Proof.
  intros (N & E & H). assert (Sup : SelSpec.supported (s_subject (tag n)) (s_rest (tag n))) by (split; repeat constructor).
  destruct (PropSel.C21_selectors (attr_doc []) 20 attr_reach ltac:(vm_compute; lia) (tag n) e N E Sup) as (r & -> & Hr). f_equal. apply Hr, H, Sup.
Qed.
Ltac each_node e N := unfold node_of in N; change (length (nodes (attr_doc []))) with 9 in N; do 9 (destruct e as [|e]; [try lia; vm_compute in *; try congruence|]); lia.
Lemma rewritten : refactored ex_ct specificity (selects (attr_doc [])) long_sheet short_sheet.
Proof.
  unfold long_sheet, short_sheet.
  eapply RThen; [eapply (RWithin _ _ _ [_] [RStyle [tag "li"] _] [] [_]); apply RUnused|].
  { intros e s [<-|[]] H. pose proof (tag_selected _ _ H) as M. destruct H as (N & _). each_node e N. }
  cbn [app]. eapply RThen; [eapply (RWithin _ _ _ [] [_] [_; _] [_]); apply (RGroup _ _ _ [tag "p"] [tag "div"])|]. cbn [app].
  eapply RThen; [eapply (RWithin _ _ _ [_] [_] [_; _] [_]); apply (RSplit _ _ _ [tag "div"] [color_is "red"] [margin_1px])|]. cbn [app].
  eapply RThen; [eapply (RWithin _ _ _ [_] [_; _; _] [_; _] []); apply (ROverridden _ _ _ [tag "div"] [color_is "red"] [_] [tag "div"] [color_is "blue"])|].
  { apply incl_refl. }
  { intros l i (d & [E|[]] & <-). right. injection E as <- <-. eexists. split; [left; reflexivity|reflexivity]. }
  cbn [app]. eapply RThen; [eapply (RWithin _ _ _ [_] [_; _] [_] []); apply RBack; apply (RSplit _ _ _ [tag "div"] [margin_1px] [color_is "blue"])|]. cbn [app].
  eapply RThen; [apply RSwap; right; left|].
  { intros e x y [<-|[]] [<-|[]] Hx Hy. pose proof (tag_selected _ _ Hx) as M. pose proof (tag_selected _ _ Hy) as M'. destruct Hx as (N & _). each_node e N. }
  eapply (RWithin _ _ _ [_] [_] [_] []). apply RBlock. intros l. destruct l; vm_compute; reflexivity.
Qed.
Lemma good_either l : good_sheets ex_ct (map read_either l).
Proof.
  assert (G : forall sheet, In sheet [long_sheet; short_sheet] -> forall sels items, In (RStyle sels items) sheet ->
    Forall (fun s => SelSpec.supported (s_subject s) (s_rest s)) sels /\ match parse_block ex_ct items with Panic => false | _ => true end = true).
  { intros sheet [<-|[<-|[]]] sels items H; cbn in H; repeat (destruct H as [H|H]; [injection H as <- <-; split; [repeat constructor|vm_compute; reflexivity]|]); destruct H. }
  intros sels items H. apply in_concat in H as (rs & H1 & H2). apply in_map_iff in H1 as (t & <- & _).
  destruct (G (read_either t)) with (sels := sels) (items := items) as [G1 G2]; [unfold read_either; destruct (list_eq_dec _ _ _); cbn; auto|exact H2|].
  split; [exact G1|]. intros i Hi L. assert (P : parse_block ex_ct items = Panic) by (apply PropStyle.C17_leftover_aborts; exists i; auto). rewrite P in G2. discriminate.
Qed.
Definition is_ok {A} (r : result A) : bool := match r with Ok _ => true | _ => false end.
Lemma is_ok_some {A} (r : result A) : is_ok r = true -> exists x, r = Ok x.
Proof. destruct r; try discriminate. eauto. Qed.
Example C93_case :
  long_sheet <> short_sheet /\ refactored ex_ct specificity (selects (attr_doc [])) long_sheet short_sheet /\
  looks_at_values ex_font_of /\ looks_at_values ex_width /\
  (exists so r, styled_document ex_ct read_either no_items 20 (attr_doc []) (Some (txt "long")) [txt "long"] so r) /\
  (exists so r, styled_document ex_ct read_either no_items 20 (attr_doc []) (Some (txt "short")) [txt "short"] so r) /\
  (do cs <- either_drawing "long"; Ok (map call_kind (filter (fun c => negb (String.eqb (call_kind c) "box")) cs))) = Ok ["hi"; "yo"; "bye"] /\
  (do cs <- either_drawing "short"; Ok (map call_color (filter (fun c => negb (String.eqb (call_kind c) "box")) cs))) = Ok [Some ex_red; Some ex_blue; Some ex_red].
Proof.
  split; [discriminate|]. split; [exact rewritten|]. split; [intros s s' _; reflexivity|]. split; [intros s s' _; reflexivity|].
  assert (S : forall u, is_ok (document_input ex_ct read_either no_items 20 (attr_doc []) (Some u)) = true -> parse_stylesheets 20 (attr_doc []) (Some u) = Ok [u] ->
    exists so r, styled_document ex_ct read_either no_items 20 (attr_doc []) (Some u) [u] so r).
  { intros u H P. apply is_ok_some in H as [[so t] E]. exists so, t.
    split; [exact attr_reach|]. split; [vm_compute; lia|]. split; [exact P|]. split; [apply good_either|]. split; [|exact E]. intros e x v i _ _ []. }
  split; [apply S; vm_compute; reflexivity|]. split; [apply S; vm_compute; reflexivity|]. split; vm_compute; reflexivity.
Qed.
