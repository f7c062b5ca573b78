(** Horizontal properties change nothing down the page where text is not wrapped (C104). *)
From Verif Require Import StyleModel StyleSpec StyleExample GeomModel InlineModel BlockModel TreeModel TreeSpec StyleFacts PropStyle PropTree PaintModel PaintSpec PropPaint PropText PropAppend.
From Verif Require Import Base DomModel DomSpec SelModel SelSpec UnsetModel UaModel UaSpec UaProofs GfxModel PropAttr PropRecolor ExceptSpec ExceptStyle ExceptDoc LevelSpec DownSpec DownPaint.
Local Open Scope string_scope.
Local Open Scope list_scope.
Local Open Scope result_scope.

(** Change the widths, the margins, borders and paddings at the left and the right, the alignments of text and the offsets
    from the left and the right in the styles of a document, and the width of the page.  If no text is wrapped and no margin,
    border or padding at the top or the bottom is in percent, the same texts in the same fonts and colours are drawn in the
    same order at the same heights, and the backgrounds and boxes are at the same heights and as high - to the last bit, in
    any arithmetic, and the rendering ends in the same way.
    Missing: elements absolutely positioned with percentages or from the top and the bottom (see [C104_refuted]). *)
Theorem C104_nothing_down_partial {ar : Arith} : forall style_of style_of' font_of width_of,
  styles_but is_horizontal style_of style_of' -> by_font font_of -> by_font width_of ->
  forall d root page page', v_block page' = v_block page ->
  let fits := fun st => unwrapped st /\ no_percent st /\ by_lengths st in
  fits (root_style style_of root) -> Forall (elements_styled fits) (root_kids style_of d root) ->
  snd (drawing_calls font_of width_of style_of' d root page') = snd (drawing_calls font_of width_of style_of d root page) /\
  flat_map down_of (fst (drawing_calls font_of width_of style_of' d root page')) =
  flat_map down_of (fst (drawing_calls font_of width_of style_of d root page)).
Proof. intros so so' fo wo Hs Hf Hw d root page page' E fits N NK. destruct root as [i ts]. exact (z_drawing so so' fo wo Hs Hf Hw d (DT i ts) N NK page page' E). Qed.
Print Assumptions C104_nothing_down_partial.

Lemma horizontal_self_contained : self_contained is_horizontal.
Proof. unfold self_contained. cbn. tauto. Qed.
(** Styles differ in horizontal properties only when the style sheets and the style attribute do and the parent's style does. *)
Theorem C104_styles {ar : Arith} : forall sel ct (sp : sel -> N) m ua author attr parent s ua' author' attr' parent' s',
  element_style ct sp m ua author attr parent s -> element_style ct sp m ua' author' attr' parent' s' ->
  sheets_but is_horizontal ct ua ua' -> sheets_but is_horizontal ct author author' -> attr_but is_horizontal ct attr attr' ->
  parent_but is_horizontal parent parent' -> same_but is_horizontal s s'.
Proof. exact (but_styles is_horizontal horizontal_self_contained). Qed.
Print Assumptions C104_styles.

(** A document with two user style sheets that differ in declarations of horizontal properties only. *)
Theorem C104_document_partial : forall ct read_sheet attr_items fuel d user user' sources sources' style_of root style_of' root' font_of width_of page page',
  document_input ct read_sheet attr_items fuel d user = Ok (style_of, root) ->
  document_input ct read_sheet attr_items fuel d user' = Ok (style_of', root') ->
  parse_stylesheets fuel d user = Ok sources -> parse_stylesheets fuel d user' = Ok sources' ->
  sheets_but is_horizontal ct (map read_sheet sources) (map read_sheet sources') ->
  by_font font_of -> by_font width_of -> v_block page' = v_block page ->
  let fits := fun st => unwrapped st /\ no_percent st /\ by_lengths st in
  fits (root_style style_of root) -> Forall (elements_styled fits) (root_kids style_of d root) ->
  snd (drawing_calls font_of width_of style_of' d root' page') = snd (drawing_calls font_of width_of style_of d root page) /\
  flat_map down_of (fst (drawing_calls font_of width_of style_of' d root' page')) =
  flat_map down_of (fst (drawing_calls font_of width_of style_of d root page)).
Proof.
  intros ct rs ai fuel d user user' src src' so root so' root' fo wo page page' E E' Es Es' R Hf Hw Ep N NK.
  destruct (but_document is_horizontal horizontal_self_contained _ _ _ _ _ _ _ _ _ _ _ _ _ E E' Es Es' R) as [-> Hs]. apply C104_nothing_down_partial; assumption.
Qed.
Print Assumptions C104_document_partial.

(** <html><div>hi you<span>me</span></div></html> with unwrapped text.  The div is a containing block of width 40px or 80px with
    other margins; the span is in the text or taken out of the flow. *)
Definition wide_doc : doc :=
  Doc [Node None None None (Some 1%nat) (Some 1%nat) DDocument;
       Node (Some 0%nat) None None (Some 2%nat) (Some 2%nat) (DElement (ex_elem "html"));
       Node (Some 1%nat) None None (Some 3%nat) (Some 4%nat) (DElement (ex_elem "div"));
       Node (Some 2%nat) (Some 4%nat) None None None (DomModel.DText (txt "hi you"));
       Node (Some 2%nat) None (Some 3%nat) (Some 5%nat) (Some 5%nat) (DElement (ex_elem "span"));
       Node (Some 4%nat) None None None None (DomModel.DText (txt "me"))] [].
Definition wide_root : dtree := DT 1 [DT 2 [DT 3 []; DT 4 [DT 5 []]]].
Definition wide (span : list item) (w : Q) (i : nat) (parent : option style) : style :=
  match i with
  | 2%nat => css parent [prop "display" "block"; prop "position" "relative"; idecl "width" [TDim (px w) "px"]; idecl "margin-left" [TDim (px (w / 2)) "px"]; idecl "margin-top" [TDim (px 4) "px"]]
  | 4%nat => css parent (span ++ [idecl "left" [TDim (px (w / 10)) "px"]; idecl "padding-left" [TDim (px w) "px"]])
  | _ => css parent [prop "display" "block"; prop "white-space" "nowrap"]
  end.
Definition wide_places span w := places (fst (drawing_calls ex_font_of ex_width (wide span w) wide_doc wide_root ex_page)).
Definition half_down : list item := [prop "position" "absolute"; idecl "top" [TPercent (px (1#2))]].
Lemma css_but p p' its its' : (match parse_block ex_ct its with Ok _ => true | _ => false end) = true -> (match parse_block ex_ct its' with Ok _ => true | _ => false end) = true ->
  block_but is_horizontal ex_ct its its' -> parent_but is_horizontal p p' -> same_but is_horizontal (css p its) (css p' its').
Proof.
  assert (C : forall q its, (match parse_block ex_ct its with Ok _ => true | _ => false end) = true ->
    element_style ex_ct N.of_nat (fun _ => false) [] [] (Some its) q (css q its)).
  { intros q i O. exists [], []. repeat split. unfold css. cbn [style_for_element]. destruct (parse_block ex_ct i); [reflexivity|discriminate..]. }
  intros O O' B P. apply (C104_styles nat ex_ct N.of_nat (fun _ => false) [] [] (Some its) p _ [] [] (Some its') p'); try constructor; try assumption; apply C; assumption.
Qed.
Lemma wide_styles span : span = [] \/ span = half_down -> styles_but is_horizontal (wide span 40) (wide span 80).
Proof.
  intros Sp i. assert (K : forall p p', parent_but is_horizontal p p' -> same_but is_horizontal (wide span 40 i p) (wide span 80 i p')).
  { intros p p' P. unfold wide. destruct Sp as [-> | ->]; do 5 (destruct i as [|i]; [apply css_but; [vm_compute; reflexivity|vm_compute; reflexivity|vm_compute; reflexivity|exact P]|]);
      (apply css_but; [vm_compute; reflexivity|vm_compute; reflexivity|vm_compute; reflexivity|exact P]). }
  split; [apply K; exact I|]. intros p p' P. apply K. exact P.
Qed.
(** The conditions, as a computation for the examples *)
Definition len_lpb (v : lp Len) : bool := match v with LPLen _ => true | LPPct _ => false end.
Definition len_lpab (v : lpa Len) : bool := match v with LPAPct _ => false | _ => true end.
Definition fits0b (st : style) : bool :=
  match sv st Lwhite_space with WSNowrap | WSPre => true | _ => false end &&
  len_lpb (sv st Lpadding_top) && len_lpb (sv st Lpadding_bottom) && len_lpb (sv st Lborder_top_width) && len_lpb (sv st Lborder_bottom_width) &&
  len_lpab (sv st Lmargin_top) && len_lpab (sv st Lmargin_bottom).
Fixpoint elementsb (g : style -> bool) (n : snode) : bool :=
  match n with
  | SText _ | SOther => true
  | SElem br st kids => if br then g st else match sv st Ldisplay with DispNone => true | _ => g st && forallb (elementsb g) kids end
  end.
Lemma elementsb_ok (g : style -> bool) (G : style -> Prop) : (forall st, g st = true -> G st) -> forall n, elementsb g n = true -> elements_styled G n.
Proof.
  intros H. fix IH 1. intros [t| |br st kids]; cbn [elementsb elements_styled]; try exact (fun _ => I). destruct br; [apply H|].
  assert (K : g st && forallb (elementsb g) kids = true -> G st /\ fold_right (fun k R => elements_styled G k /\ R) True kids).
  { intros A. apply andb_prop in A as [A1 A2]. split; [apply H, A1|]. clear A1. induction kids as [|k ks IHk]; [exact I|]. cbn in A2 |- *. apply andb_prop in A2 as [B1 B2]. split; [apply IH, B1|apply IHk, B2]. }
  destruct (sv st Ldisplay); [intros _; exact I|exact K|exact K].
Qed.
Lemma fits0b_ok st : fits0b st = true -> unwrapped st /\ no_percent st.
Proof.
  unfold fits0b, len_lpb, len_lpab, unwrapped, no_percent, length_lp, length_lpa. intros H. repeat (apply andb_prop in H as [H ?]).
  split; [destruct (sv st Lwhite_space); try discriminate H; auto|]. repeat split; match goal with |- context [sv st ?l] => destruct (sv st l); try exact I; discriminate end.
Qed.
Definition fitsb (st : style) : bool := fits0b st && negb (is_absolutely_positioned (sv st Lposition)).
Lemma fitsb_ok st : fitsb st = true -> unwrapped st /\ no_percent st /\ by_lengths st.
Proof. intros H. apply andb_prop in H as [H A]. destruct (fits0b_ok st H). split; [assumption|]. split; [assumption|]. intros B. rewrite B in A. discriminate A. Qed.
Lemma all_fit (g : style -> bool) (G : style -> Prop) l : (forall st, g st = true -> G st) -> forallb (elementsb g) l = true -> Forall (elements_styled G) l.
Proof. intros H E. apply Forall_forall. intros n Hn. apply (elementsb_ok g G H). rewrite forallb_forall in E. apply E, Hn. Qed.
Example C104_case :
  let fits := fun st : style => unwrapped st /\ no_percent st /\ by_lengths st in
  styles_but is_horizontal (wide [] 40) (wide [] 80) /\ by_font (@ex_font_of Exact) /\ by_font (@ex_width Exact) /\
  fits (root_style (wide [] 40) wide_root) /\ Forall (elements_styled fits) (root_kids (wide [] 40) wide_doc wide_root) /\
  snd (drawing_calls ex_font_of ex_width (wide [] 40) wide_doc wide_root ex_page) = Finished /\
  wide_places [] 40 = [("hi you", 20, 88#5); ("me", 108, 88#5)]%Q /\
  wide_places [] 80 = [("hi you", 40, 88#5); ("me", 168, 88#5)]%Q.
Proof.
  cbv zeta. split; [apply wide_styles; left; reflexivity|].
  split; [intros s s' H1 H2 H3 H4; unfold ex_font_of; try rewrite !H4; try rewrite !H3; try rewrite H2; try rewrite H1; reflexivity|].
  split; [intros s s' H1 H2 H3 H4; reflexivity|].
  split; [apply fitsb_ok; vm_compute; reflexivity|].
  split; [apply (all_fit fitsb _ _ fitsb_ok); vm_compute; reflexivity|].
  repeat split; vm_compute; reflexivity.
Qed.
(** FINDING: an element that is absolutely positioned half way down its containing block moves down when the containing block
    gets wider, although its height stays the same (positioned.rs:219 solves the block axis against the width). *)
Theorem C104_refuted : exists style_of style_of' d root page,
  styles_but is_horizontal style_of style_of' /\
  Forall (elements_styled (fun st => unwrapped st /\ no_percent st)) (root_kids style_of d root) /\
  snd (drawing_calls ex_font_of ex_width style_of d root page) = Finished /\
  places (fst (drawing_calls ex_font_of ex_width style_of d root page)) = [("hi you", 20, 88#5); ("me", 64, 188#5)]%Q /\
  places (fst (drawing_calls ex_font_of ex_width style_of' d root page)) = [("hi you", 40, 88#5); ("me", 128, 288#5)]%Q.
Proof.
  exists (wide half_down 40), (wide half_down 80), wide_doc, wide_root, ex_page.
  split; [apply wide_styles; right; reflexivity|].
  split; [apply (all_fit fits0b _ _ fits0b_ok); vm_compute; reflexivity|].
  repeat split; vm_compute; reflexivity.
Qed.
Print Assumptions C104_refuted.
