(** Colors never move anything (C90). *)
From Verif Require Import StyleModel StyleSpec StyleExample GeomModel InlineModel BlockModel TreeModel TreeSpec StyleFacts PropStyle PropTree PaintModel PaintSpec PropPaint PropText.
From Verif Require Import Base DomModel DomSpec SelModel SelSpec UnsetModel UaModel UaSpec UaProofs GfxModel RecolorSpec RecolorProofs RecolorStyle PropAttr.
Local Open Scope string_scope.
Local Open Scope list_scope.
Local Open Scope result_scope.

Lemma recolored_anonymous {ar : Arith} p p' : recolored_parent p p' -> recolored (anonymous_inheriting_from p) (anonymous_inheriting_from p').
Proof.
  intros H. destruct p as [s|], p' as [s'|]; cbn in H; try contradiction; unfold anonymous_inheriting_from, style_new; (split; [|reflexivity]); intros l Hl; [|reflexivity].
  destruct H as [H _]. destruct l; try discriminate Hl; cbn; rewrite ?H by reflexivity; reflexivity.
Qed.
Lemma reshaded_anonymous {ar : Arith} s s' : reshaded s s' -> reshaded (anonymous_inheriting_from (Some s)) (anonymous_inheriting_from (Some s')).
Proof. intros [H _]. split; [exact (recolored_anonymous (Some s) (Some s') H)|reflexivity]. Qed.

(** Recolor the styles of a document: apart from the backgrounds the same calls are made in the same order - the same
    texts in the same fonts, the same lines, the same boxes, all at the same places - and the rendering ends in the same
    way. *)
Theorem C90_nothing_moves {ar : Arith} : forall style_of style_of' font_of width_of,
  recolored_styles style_of style_of' -> colorless font_of -> colorless width_of ->
  forall d root page,
  Forall2 recolored_call (filter not_background (fst (drawing_calls font_of width_of style_of d root page)))
    (filter not_background (fst (drawing_calls font_of width_of style_of' d root page))) /\
  snd (drawing_calls font_of width_of style_of' d root page) = snd (drawing_calls font_of width_of style_of d root page).
Proof.
  intros so so' fo wo Hs Hf Hw d root page.
  apply (z_drawing recolored (fun s s' l H => proj1 H l) (fun s s' H => proj2 H) (fun s s' H => recolored_anonymous (Some s) (Some s') H)
    so so' Hs (fun a b => Forall2 recolored_call (filter not_background a) (filter not_background b))); auto.
  - constructor.
  - intros a a' b b' A B. rewrite !filter_app. apply Forall2_app; assumption.
  - cbn. repeat constructor.
  - intros. cbn. repeat constructor.
  - intros. cbn. repeat constructor.
  - intros st st' b _. unfold paint_background. destruct (_ <? _)%N, (_ <? _)%N; constructor.
Qed.
Print Assumptions C90_nothing_moves.

(** If moreover the same backgrounds can be seen, the backgrounds are the same rectangles as well. *)
Theorem C90_backgrounds_stay {ar : Arith} : forall style_of style_of' font_of width_of,
  reshaded_styles style_of style_of' -> colorless font_of -> colorless width_of ->
  forall d root page,
  Forall2 recolored_call (fst (drawing_calls font_of width_of style_of d root page))
    (fst (drawing_calls font_of width_of style_of' d root page)).
Proof.
  intros so so' fo wo Hs Hf Hw d root page.
  apply (z_drawing reshaded (fun s s' l H => proj1 (proj1 H) l) (fun s s' H => proj2 (proj1 H)) reshaded_anonymous
    so so' Hs (Forall2 recolored_call)); auto.
  - intros a a' b b' A B. apply Forall2_app; assumption.
  - intros. repeat constructor.
  - intros. repeat constructor.
  - intros. repeat constructor.
  - intros st st' b [_ E]. unfold seen_background in E. unfold paint_background.
    assert (V : (0 <? N_of_ascii (c_alpha (to_rgba st' (sv st' Lbackground_color))))%N = (0 <? N_of_ascii (c_alpha (to_rgba st (sv st Lbackground_color))))%N).
    { destruct (sv st Lbackground_color), (sv st' Lbackground_color); exact E. }
    cbv zeta. rewrite V. match goal with |- context [if ?x then _ else _] => destruct x end; repeat constructor.
  - intros s s' H. apply Hf, H.
  - intros s s' H. apply Hw, H.
Qed.
Print Assumptions C90_backgrounds_stay.

(** The styles are recolored when the style sheets and the style attribute are and the parent's style is. *)
Theorem C90_styles {ar : Arith} : forall sel ct (sp : sel -> N) m ua author attr parent s ua' author' attr' parent' s',
  element_style ct sp m ua author attr parent s -> element_style ct sp m ua' author' attr' parent' s' ->
  recolored_sheets ct ua ua' -> recolored_sheets ct author author' -> recolored_attr ct attr attr' ->
  recolored_parent parent parent' -> recolored s s'.
Proof.
  intros sel ct sp m ua au at_ p s ua' au' at_' p' s' H H' U A T P. eapply rv_style; [exact H|exact H'| |exact P].
  apply winners_recolored; [apply candidates_alike; assumption|apply candidates_ordered|apply candidates_ordered|].
  intros l. destruct (proj1 (C09_winner_exists_and_is_unique _ _ _ _ _ _ _ _ _ H) l) as [X|X]; [right|left]; exact X.
Qed.
Print Assumptions C90_styles.

(** the same selectors, in the same order *)
Definition same_selectors {ar : Arith} (a b : list (selector * block)) : Prop := Forall2 (fun x y => fst y = fst x) a b.
Lemma insert_same {ar : Arith} x y a b : fst y = fst x -> same_selectors a b -> same_selectors (insert_rule selector specificity x a) (insert_rule selector specificity y b).
Proof.
  intros E F. induction F as [|u v a b Huv F IH]; cbn; [repeat constructor; exact E|]. rewrite E, Huv.
  destruct (_ <=? _)%N; repeat constructor; auto.
Qed.
Lemma finish_same {ar : Arith} a b : same_selectors a b -> same_selectors (finish selector specificity a) (finish selector specificity b).
Proof. induction 1; cbn; [constructor|]. apply insert_same; assumption. Qed.
Lemma push_same {ar : Arith} fuel d e a b : same_selectors a b ->
  match push_matching_in fuel d e a, push_matching_in fuel d e b with Ok _, Ok _ => True | Panic, Panic => True | OutOfFuel, OutOfFuel => True | _, _ => False end.
Proof.
  induction 1 as [|[s x] [s' y] a b E _ IH]; cbn; [exact I|]. cbn in E. subst s'. destruct (matches fuel d s e); cbn; try exact I.
  destruct (push_matching_in fuel d e a), (push_matching_in fuel d e b); cbn; try contradiction; exact I.
Qed.
Lemma sheets_same {ar : Arith} ct s s' r r' : recolored_sheets ct s s' -> add_stylesheets ct selector [] s = Ok r -> add_stylesheets ct selector [] s' = Ok r' ->
  same_selectors r r'.
Proof.
  intros R E E'. destruct (add_sheets_parses _ _ _ _ _ E) as (l & -> & F). destruct (add_sheets_parses _ _ _ _ _ E') as (l' & -> & F').
  clear E E'. cbn. pose proof (rules_of_recolored ct s s' R) as G. clear R. revert l l' F F'. induction G as [|a b x y [G1 _] _ IH]; intros l l' F F'; inversion F; inversion F'; subst; constructor.
  - repeat match goal with H : parses_to _ _ _ _ |- _ => destruct H as [? _] end. congruence.
  - apply IH; assumption.
Qed.

(** A document with two user style sheets that differ in colors only: all its styles are recolored, so nothing moves. *)
Theorem C90_document : forall ct read_sheet attr_items fuel d user user' sources sources' style_of root style_of' root',
  document_input ct read_sheet attr_items fuel d user = Ok (style_of, root) ->
  document_input ct read_sheet attr_items fuel d user' = Ok (style_of', root') ->
  parse_stylesheets fuel d user = Ok sources -> parse_stylesheets fuel d user' = Ok sources' ->
  recolored_sheets ct (map read_sheet sources) (map read_sheet sources') ->
  root' = root /\ recolored_styles style_of style_of'.
Proof.
  intros ct rs ai fuel d user user' src src' so root so' root' E E' Es Es' R. unfold document_input in E, E'.
  destruct (ua_style_set ct) as [ua| |] eqn:Eu; try discriminate. cbn [bind] in E, E'.
  destruct (author_style_set ct rs fuel d user) as [au| |] eqn:Ea; try discriminate. destruct (author_style_set ct rs fuel d user') as [au'| |] eqn:Ea'; try discriminate.
  cbn [bind] in E, E'. destruct (root_element fuel d) as [r| |]; try discriminate. cbn [bind] in E, E'.
  destruct (subtree fuel d r) as [t| |]; try discriminate. cbn [bind] in E, E'. injection E as <- <-. injection E' as <- <-. split; [reflexivity|].
  destruct (ua_sheets ct ua Eu) as (ur & Hu & Ueq). destruct (author_sheets ct rs fuel d user au Ea) as (s1 & ar & H1 & Har & Aeq).
  destruct (author_sheets ct rs fuel d user' au' Ea') as (s1' & ar' & H1' & Har' & Aeq').
  assert (s1 = src) by congruence. assert (s1' = src') by congruence. subst s1 s1'.
  assert (S : same_selectors au au') by (subst; apply finish_same; exact (sheets_same ct _ _ _ _ R Har Har')).
  assert (K : forall i p p', recolored_parent p p' -> recolored (style_or_anonymous ct ai fuel ua au d i p) (style_or_anonymous ct ai fuel ua au' d i p')).
  { intros i p p' P. unfold style_or_anonymous.
    destruct (data_of d i) as [dt|] eqn:Ed.
    - destruct dt as [ | | | | x |];
        try (unfold node_style, getn, data_of in *; destruct (nth_error (nodes d) i) as [n|]; [|discriminate Ed]; cbn [option_map bind] in *; injection Ed as ->; exact (recolored_anonymous p p' P)).
      pose proof (push_same fuel d i au au' S) as Q.
      destruct (node_style ct ai fuel ua au d i p) as [s| |] eqn:N, (node_style ct ai fuel ua au' d i p') as [s'| |] eqn:N'; try exact (recolored_anonymous p p' P).
      + eapply (C90_styles _ ct specificity (matchb fuel d i) [user_agent] (map rs src) (option_map ai (inline_style x)) p s [user_agent] (map rs src') (option_map ai (inline_style x)) p' s').
        * exact (node_style_element ct ai fuel ua au d i p s x ur ar (map rs src) Hu Ueq Har Aeq Ed N).
        * exact (node_style_element ct ai fuel ua au' d i p' s' x ur ar' (map rs src') Hu Ueq Har' Aeq' Ed N').
        * repeat constructor; reflexivity.
        * exact R.
        * destruct (inline_style x); cbn; [reflexivity|exact I].
        * exact P.
      + exfalso. revert N N'. unfold node_style, getn, data_of in *. destruct (nth_error (nodes d) i) as [n|]; [|discriminate]. cbn [option_map bind] in *. injection Ed as ->.
        destruct (push_matching_in fuel d i ua); cbn [bind]; try discriminate. destruct (push_matching_in fuel d i au), (push_matching_in fuel d i au'); cbn [bind]; try contradiction; try discriminate.
        destruct (style_attribute x); [|discriminate]. destruct (parse_block ct (ai s0)); cbn; discriminate.
      + exfalso. revert N N'. unfold node_style, getn, data_of in *. destruct (nth_error (nodes d) i) as [n|]; [|discriminate]. cbn [option_map bind] in *. injection Ed as ->.
        destruct (push_matching_in fuel d i ua); cbn [bind]; try discriminate. destruct (push_matching_in fuel d i au), (push_matching_in fuel d i au'); cbn [bind]; try contradiction; try discriminate.
        destruct (style_attribute x); [|discriminate]. destruct (parse_block ct (ai s0)); cbn; discriminate.
      + exfalso. revert N N'. unfold node_style, getn, data_of in *. destruct (nth_error (nodes d) i) as [n|]; [|discriminate]. cbn [option_map bind] in *. injection Ed as ->.
        destruct (push_matching_in fuel d i ua); cbn [bind]; try discriminate. destruct (push_matching_in fuel d i au), (push_matching_in fuel d i au'); cbn [bind]; try contradiction; try discriminate.
        destruct (style_attribute x); [|discriminate]. destruct (parse_block ct (ai s)); cbn; discriminate.
      + exfalso. revert N N'. unfold node_style, getn, data_of in *. destruct (nth_error (nodes d) i) as [n|]; [|discriminate]. cbn [option_map bind] in *. injection Ed as ->.
        destruct (push_matching_in fuel d i ua); cbn [bind]; try discriminate. destruct (push_matching_in fuel d i au), (push_matching_in fuel d i au'); cbn [bind]; try contradiction; try discriminate.
        destruct (style_attribute x); [|discriminate]. destruct (parse_block ct (ai s)); cbn; discriminate.
    - unfold node_style, getn, data_of in *. destruct (nth_error (nodes d) i); [discriminate Ed|]. exact (recolored_anonymous p p' P). }
  intros i. split; [apply K; exact I|]. intros p p' P. apply K. exact P.
Qed.
Print Assumptions C90_document.

(* ------------------------------------------------------------------ *)
(** * Examples *)

(** The document of C89 with the user sheet `div { border-top-style: solid; background-color: c; color: c }`. *)
Definition color_sheet (t : text) : list (rule selector) :=
  [RStyle [Selector [SLocal "div" "div"] []]
     (dcl "border-top-style" [TIdent "solid"] ::
      if list_eq_dec N.eq_dec t (txt "red") then [dcl "background-color" [TIdent "red"]; dcl "color" [TIdent "red"]]
      else [dcl "color" [TIdent "blue"]])].
Definition color_drawing (user : string) : result (list dcall) :=
  do (style_of, root) <- document_input ex_ct color_sheet hide_items 20 (attr_doc []) (Some (txt user));
  Ok (fst (drawing_calls ex_font_of ex_width style_of (attr_doc []) root ex_page)).
Definition call_kind (c : dcall) : string :=
  match c with GfxModel.DText l _ _ _ _ => l | DRect _ _ _ _ _ => "rectangle" | DLine _ _ _ _ => "line" | DBBox _ _ _ _ => "box" end.
Definition call_color (c : dcall) : option rgba :=
  match c with GfxModel.DText _ _ _ _ c => Some c | DLine _ c _ _ => Some c | DRect _ _ _ _ c => Some c | DBBox _ _ _ _ => None end.
Example C90_case :
  colorless ex_font_of /\ colorless ex_width /\
  recolored_sheets ex_ct (map color_sheet [txt "red"]) (map color_sheet [txt "blue"]) /\
  parse_stylesheets 20 (attr_doc []) (Some (txt "red")) = Ok [txt "red"] /\
  parse_stylesheets 20 (attr_doc []) (Some (txt "blue")) = Ok [txt "blue"] /\
  (do cs <- color_drawing "red"; Ok (map call_kind (filter (fun c => negb (String.eqb (call_kind c) "box")) cs))) = Ok ["hi"; "rectangle"; "line"; "yo"; "bye"] /\
  (do cs <- color_drawing "blue"; Ok (map call_kind (filter (fun c => negb (String.eqb (call_kind c) "box")) cs))) = Ok ["hi"; "line"; "yo"; "bye"] /\
  (do cs <- color_drawing "red"; Ok (map call_color (filter (fun c => String.eqb (call_kind c) "yo") cs))) <>
  (do cs <- color_drawing "blue"; Ok (map call_color (filter (fun c => String.eqb (call_kind c) "yo") cs))).
Proof.
  split; [intros s s' [H _]; unfold ex_font_of; try rewrite !H by reflexivity; reflexivity|].
  split; [intros s s' [H _]; unfold ex_width; try rewrite !H by reflexivity; reflexivity|].
  split; [constructor; [|constructor]; constructor; [|constructor]; constructor; vm_compute; reflexivity|].
  repeat (split; [vm_compute; reflexivity|]). vm_compute. discriminate.
Qed.
(** Other properties do move things: a declaration of display instead of a color is not a recoloring. *)
Example C90_not_every_change : ~ recolored (css None [prop "display" "block"; prop "color" "red"]) (css None [prop "display" "none"; prop "color" "red"]).
Proof. intros [H _]. specialize (H Ldisplay eq_refl). vm_compute in H. discriminate H. Qed.
(** Every element with a border on a red or on a blue background: the same rectangles, texts and lines. *)
Definition shade_style (c : string) (i : nat) (parent : option style) : style :=
  css parent [prop "display" "block"; prop "border-top-style" "solid"; prop "background-color" c; prop "color" c].
Example C90_backgrounds_case : reshaded_styles (shade_style "red") (shade_style "blue") /\
  map call_kind (fst (drawing_calls ex_font_of ex_width (shade_style "red") ex_doc PropPaint.ex_root ex_page)) =
  ["box"; "rectangle"; "line"; "box"; "rectangle"; "line"; "box"; "box"; "hi"; "box"; "box"; "you"].
Proof.
  split; [|vm_compute; reflexivity]. intros i. split.
  - split; [|vm_compute; reflexivity]. split; [|vm_compute; reflexivity]. intros l Hl; destruct l; try discriminate Hl; vm_compute; reflexivity.
  - intros p p' [[H1 H2] _]. split; [|vm_compute; reflexivity]. split; [|vm_compute; reflexivity]. intros l Hl. generalize (H1 l Hl); clear H1 H2. destruct l; try discriminate Hl; clear Hl; intros E;
      first [clear; vm_compute; reflexivity | vm_compute in E; vm_compute; exact E].
Qed.
