(** A percentage means the same as the length it stands for (C110). *)
From Verif Require Import StyleModel StyleSpec StyleExample GeomModel InlineModel BlockModel TreeModel TreeSpec PropTree PaintModel PaintSpec PropPaint PropText.
From Verif Require Import Base Len DomModel DomSpec DomExample UnsetModel UaModel GfxModel LevelSpec PropUnseen PropAppend PropApply UsedSpec UsedProofs.
Local Open Scope string_scope.
Local Open Scope list_scope.
Local Open Scope nat_scope.

(** Two documents whose elements have styles that come to the same lengths in their containing blocks - margins, paddings,
    widths and line heights in pixels in one and in percent in the other, say - are drawn with the same calls in the same
    order, and end in the same way. *)
Theorem C110_lengths : forall font_of width_of, by_font font_of -> by_font width_of ->
  forall style_of style_of' d d' i ts i' ts' page_size,
  sv (style_of i None) Lposition <> PosAbsolute ->
  same_used (v_inline page_size) (style_of i None) (style_of' i' None) ->
  Forall2 (same_lengths (content_width (v_inline page_size) (style_of i None)))
    (map (styled style_of d (style_of i None)) ts) (map (styled style_of' d' (style_of' i' None)) ts') ->
  drawing_calls font_of width_of style_of' d' (DT i' ts') page_size = drawing_calls font_of width_of style_of d (DT i ts) page_size.
Proof.
  intros fo wo Hf Hw so so' d d' i ts i' ts' page Na A F.
  apply z_drawing.
  - intros s s' H. apply Hf; apply (z_sv_ s s' _ H); reflexivity.
  - intros s s' H. apply Hw; apply (z_sv_ s s' _ H); reflexivity.
  - cbn [construct_document]. apply z_construct_root; assumption.
Qed.
Print Assumptions C110_lengths.

(* ------------------------------------------------------------------ *)
(** * Examples *)

(** The document <html>one<span>two</span><p>three</p><div>four</div></html> of C109 on a page 40px wide, in percent and in
    pixels: the content box of <html> is 36px wide. *)
Definition percent_prop (n : string) (v : Q) : item := idecl n [TPercent (Q2Qc v)].
Definition measured (percent : bool) (i : node_id) (parent : option style) : style :=
  match i with
  | 2 => css parent (prop "display" "block" :: if percent then [percent_prop "padding-left" (1#10); percent_prop "padding-top" (1#20)] else [length_prop "padding-left" 4; length_prop "padding-top" 2])
  | 4 => css parent (prop "display" "inline" :: if percent then [percent_prop "line-height" 2; percent_prop "vertical-align" (1#4); percent_prop "margin-left" (1#12)]
                                                else [idecl "line-height" [TNumber (px 2)]; length_prop "vertical-align" 8; length_prop "margin-left" 3])
  | 6 => css parent (prop "display" "block" :: if percent then [percent_prop "width" (1#2); percent_prop "margin-left" (1#4); percent_prop "margin-top" (1#6)]
                                               else [length_prop "width" 18; length_prop "margin-left" 9; length_prop "margin-top" 6])
  | _ => css parent [prop "display" "block"]
  end.
Definition measured_places (percent : bool) := places (fst (drawing_calls ex_font_of ex_width (measured percent) idle_doc (DT 2 idle_kids) ex_page)).
Definition opt_eqb (a b : option Len) : bool := match a, b with Some x, Some y => leqb x y | None, None => true | _, _ => false end.
Lemma opt_eqb_eq a b : opt_eqb a b = true -> a = b.
Proof. destruct a, b; cbn [opt_eqb]; intros H; try discriminate H; [apply leqb_iff in H; subst|]; reflexivity. Qed.
Lemma leqb_eq (a b : Len) : leqb a b = true -> a = b.
Proof. apply leqb_iff. Qed.
Definition raise_eqb (a b : vertical_align Len) : bool := match a, b with VALen x, VALen y => leqb x y | VABaseline, VABaseline => true | _, _ => false end.
Lemma raise_eqb_eq a b : raise_eqb a b = true -> a = b.
Proof. destruct a, b; cbn [raise_eqb]; intros H; try discriminate H; [reflexivity|]. apply leqb_iff in H. subst. reflexivity. Qed.
Ltac comes_to_the_same :=
  split; [intros l Hl; destruct l; first [discriminate Hl | vm_compute; reflexivity]|];
  split; [vm_compute; reflexivity|]; split; [apply leqb_eq; vm_compute; reflexivity|]; split; [apply raise_eqb_eq; vm_compute; reflexivity|];
  do 5 (split; [apply opt_eqb_eq; vm_compute; reflexivity|]);
  do 7 (split; [apply leqb_eq; vm_compute; reflexivity|]); apply leqb_eq; vm_compute; reflexivity.
Example C110_case :
  sv (measured true 2 None) Lposition <> PosAbsolute /\
  same_used (v_inline ex_page) (measured true 2 None) (measured false 2 None) /\
  Forall2 (same_lengths (content_width (v_inline ex_page) (measured true 2 None)))
    (map (styled (measured true) idle_doc (measured true 2 None)) idle_kids) (map (styled (measured false) idle_doc (measured false 2 None)) idle_kids) /\
  sv (measured true 2 None) Lpadding_left <> sv (measured false 2 None) Lpadding_left.
Proof.
  split; [vm_compute; discriminate|]. split; [comes_to_the_same|]. split; [|vm_compute; discriminate].
  set (d := idle_doc). unfold idle_kids. cbn [map styled].
  assert (A3 : data_of d 3 = Some (DomModel.DText (txt "one"))) by (vm_compute; reflexivity).
  assert (A4 : data_of d 4 = Some (DElement (Elem (html_name "span") []))) by (vm_compute; reflexivity).
  assert (A5 : data_of d 5 = Some (DomModel.DText (txt "two"))) by (vm_compute; reflexivity).
  assert (A6 : data_of d 6 = Some (DElement (Elem (html_name "p") []))) by (vm_compute; reflexivity).
  assert (A7 : data_of d 7 = Some (DomModel.DText (txt "three"))) by (vm_compute; reflexivity).
  assert (A8 : data_of d 8 = Some (DElement (Elem (html_name "div") []))) by (vm_compute; reflexivity).
  assert (A9 : data_of d 9 = Some (DomModel.DText (txt "four"))) by (vm_compute; reflexivity).
  rewrite A3, A4, A5, A6, A7, A8, A9. cbn iota beta. clear.
  change (String.eqb _ "br") with false.
  assert (W : content_width (v_inline ex_page) (measured true 2 None) = px 36) by (apply leqb_eq; vm_compute; reflexivity).
  rewrite W. clear W.
  apply Forall2_cons; [apply Sl_text|].
  apply Forall2_cons; [apply Sl_element; [vm_compute; discriminate|comes_to_the_same|apply Forall2_cons; [apply Sl_text|apply Forall2_nil]]|].
  apply Forall2_cons; [apply Sl_element; [vm_compute; discriminate|comes_to_the_same|apply Forall2_cons; [apply Sl_text|apply Forall2_nil]]|].
  apply Forall2_cons; [apply Sl_element; [vm_compute; discriminate|comes_to_the_same|apply Forall2_cons; [apply Sl_text|apply Forall2_nil]]|apply Forall2_nil].
Qed.
Example C110_drawn :
  measured_places true = [("one", 4, 78 # 5); ("two", 4, 206 # 5); ("three", 13, 364 # 5); ("four", 4, 92)]%Q /\ measured_places false = measured_places true.
Proof. split; [vm_compute; reflexivity|]. vm_compute. reflexivity. Qed.
(** Percentages of another width are other lengths; and the offsets of relatively positioned blocks, which count from the
    width of the block itself (C32_percentage_refuted), are not among the properties: here <p> is 18px wide in a containing
    block of 36px, and 50% are not 18px. *)
Definition measured_p (items : list item) (i : node_id) (parent : option style) : style :=
  match i with 6 => css parent ([prop "display" "block"; length_prop "width" 18] ++ items) | _ => measured true i parent end.
Definition measured_p_places (items : list item) := places (fst (drawing_calls ex_font_of ex_width (measured_p items) idle_doc (DT 2 idle_kids) ex_page)).
Example C110_condition_needed :
  measured_p_places [percent_prop "margin-left" (1#4)] <> measured_p_places [length_prop "margin-left" 10] /\
  measured_p_places [prop "position" "relative"; percent_prop "left" (1#2)] <> measured_p_places [prop "position" "relative"; length_prop "left" 18].
Proof. split; vm_compute; discriminate. Qed.
