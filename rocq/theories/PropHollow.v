(** What absolutely positioned elements contain leaves everything else where it is (C111), and so do floats (C112). *)
From Verif Require Import StyleModel StyleSpec StyleExample GeomModel InlineModel BlockModel TreeModel TreeSpec PropTree PaintModel PaintSpec PropPaint PropText.
From Verif Require Import Base Len DomModel DomSpec DomExample UnsetModel UaModel GfxModel LevelSpec PropUnseen PropAppend PropApply PropRecolor HollowSpec HollowProofs.
Local Open Scope string_scope.
Local Open Scope list_scope.
Local Open Scope nat_scope.

Lemma part_refl {A} (l : list A) : part_of l l.
Proof. induction l; constructor; assumption. Qed.
Lemma part_app {A} (a a' b b' : list A) : part_of a a' -> part_of b b' -> part_of (a ++ b) (a' ++ b').
Proof. intros H K. induction H; cbn [app]; [exact K|apply Pt_more; assumption|apply Pt_same; assumption]. Qed.
Lemma part_nil {A} (l : list A) : part_of [] l.
Proof. induction l; constructor; assumption. Qed.

Lemma hollowed_z {ar : Arith} : forall n n', hollowed n n' -> zsnode True n n'.
Proof.
  fix IH 3. intros n n' H. destruct H as [t| |br st l l' F|st st' i i' l D P D' P' V]; [constructor..| |eapply ZSGone; eauto].
  constructor. induction F as [|x y l l' Hxy F IHF]; constructor; [exact (IH _ _ Hxy)|exact IHF].
Qed.
Lemma other_floats_z {ar : Arith} : forall n n', other_floats n n' -> zsnode False n n'.
Proof.
  fix IH 3. intros n n' H. destruct H as [t| |br st l l' F|st st' i i' l l' D P G D' P' G']; [constructor..| |eapply ZSFloat; eauto].
  constructor. induction F as [|x y l l' Hxy F IHF]; constructor; [exact (IH _ _ Hxy)|exact IHF].
Qed.
Lemma each_related {A B} (R R' : A -> B -> Prop) l l' : (forall a b, R a b -> R' a b) -> Forall2 R l l' -> Forall2 R' l l'.
Proof. intros H. induction 1; constructor; auto. Qed.

(** Make any absolutely positioned elements of a document empty and invisible, and give them any other sizes, offsets and
    margins.  If both documents are drawn to the end, what is still drawn was drawn before, at the same places and in the same
    order: the absolutely positioned elements took no space, and nothing else depended on what was in them. *)
Theorem C111_rest_stays {ar : Arith} : forall font_of width_of style_of style_of' d d' i ts i' ts' page_size cs cs',
  style_of' i' None = style_of i None ->
  Forall2 hollowed (map (styled style_of d (style_of i None)) ts) (map (styled style_of' d' (style_of' i' None)) ts') ->
  drawing_calls font_of width_of style_of d (DT i ts) page_size = (cs, Finished) ->
  drawing_calls font_of width_of style_of' d' (DT i' ts') page_size = (cs', Finished) ->
  part_of (filter seen cs') (filter seen cs).
Proof.
  intros fo wo so so' d d' i ts i' ts' page cs cs' Hr Hk.
  apply (z_drawing True so so' d d' i i' ts ts' Hr (each_related _ _ _ _ hollowed_z Hk) (fun c c' => part_of (filter seen c') (filter seen c))).
  - constructor.
  - intros a a' b b' A B. rewrite !filter_app. apply part_app; assumption.
  - intros. constructor.
  - intros l. apply part_refl.
  - intros. cbn. apply part_nil.
Qed.
Print Assumptions C111_rest_stays.

(** Two documents that differ in their floats only - what is in them, and their styles - are drawn with the same calls in the
    same order if both are drawn to the end: floats are neither drawn nor do they move anything. *)
Theorem C112_floats {ar : Arith} : forall font_of width_of style_of style_of' d d' i ts i' ts' page_size cs cs',
  style_of' i' None = style_of i None ->
  Forall2 other_floats (map (styled style_of d (style_of i None)) ts) (map (styled style_of' d' (style_of' i' None)) ts') ->
  drawing_calls font_of width_of style_of d (DT i ts) page_size = (cs, Finished) ->
  drawing_calls font_of width_of style_of' d' (DT i' ts') page_size = (cs', Finished) ->
  cs' = cs.
Proof.
  intros fo wo so so' d d' i ts i' ts' page cs cs' Hr Hk.
  apply (z_drawing False so so' d d' i i' ts ts' Hr (each_related _ _ _ _ other_floats_z Hk) (fun c c' => c' = c)).
  - reflexivity.
  - intros a a' b b' -> ->. reflexivity.
  - reflexivity.
  - reflexivity.
  - intros [].
Qed.
Print Assumptions C112_floats.

(* ------------------------------------------------------------------ *)
(** * Examples *)

(** The document <html>one<span>two</span><p>three</p><div>four</div></html> of C109; <p> is absolutely positioned and red,
    with a border.  In the other document it is empty, and as large as can be. *)
Definition hollow_style (pos : string) (full : bool) (i : node_id) (parent : option style) : style :=
  match i with
  | 4 => css parent [prop "display" "inline"]
  | 6 => css parent ([prop "display" "block"; prop "position" pos] ++
           if full then [prop "background-color" "red"; prop "border-top-style" "solid"; length_prop "border-top-width" 2; length_prop "padding-left" 5] else [length_prop "width" 1000; length_prop "margin-top" 70])
  | _ => css parent [prop "display" "block"]
  end.
Definition hollow_kids : list dtree := [DT 3 []; DT 4 [DT 5 []]; DT 6 []; DT 8 [DT 9 []]].
Definition full_drawing (pos : string) := drawing_calls ex_font_of ex_width (hollow_style pos true) idle_doc (DT 2 idle_kids) ex_page.
Definition hollow_drawing (pos : string) := drawing_calls ex_font_of ex_width (hollow_style pos false) idle_doc (DT 2 hollow_kids) ex_page.
Example C111_case :
  hollow_style "absolute" false 2 None = hollow_style "absolute" true 2 None /\
  Forall2 hollowed (map (styled (hollow_style "absolute" true) idle_doc (hollow_style "absolute" true 2 None)) idle_kids)
    (map (styled (hollow_style "absolute" false) idle_doc (hollow_style "absolute" false 2 None)) hollow_kids) /\
  snd (full_drawing "absolute") = Finished /\ snd (hollow_drawing "absolute") = Finished.
Proof.
  split; [reflexivity|]. split; [|split; vm_compute; reflexivity].
  set (d := idle_doc). unfold idle_kids, hollow_kids. cbn [map styled].
  assert (A3 : data_of d 3 = Some (DomModel.DText (txt "one"))) by (vm_compute; reflexivity).
  assert (A4 : data_of d 4 = Some (DElement (Elem (html_name "span") []))) by (vm_compute; reflexivity).
  assert (A5 : data_of d 5 = Some (DomModel.DText (txt "two"))) by (vm_compute; reflexivity).
  assert (A6 : data_of d 6 = Some (DElement (Elem (html_name "p") []))) by (vm_compute; reflexivity).
  assert (A7 : data_of d 7 = Some (DomModel.DText (txt "three"))) by (vm_compute; reflexivity).
  assert (A8 : data_of d 8 = Some (DElement (Elem (html_name "div") []))) by (vm_compute; reflexivity).
  assert (A9 : data_of d 9 = Some (DomModel.DText (txt "four"))) by (vm_compute; reflexivity).
  rewrite A3, A4, A5, A6, A7, A8, A9. cbn iota beta. clear.
  change (String.eqb _ "br") with false.
  apply Forall2_cons; [apply Ho_text|].
  apply Forall2_cons; [apply Ho_element; apply Forall2_cons; [apply Ho_text|apply Forall2_nil]|].
  apply Forall2_cons; [eapply Ho_absolute; [vm_compute; reflexivity..|]|].
  - split; [vm_compute; reflexivity|]. split; [vm_compute; reflexivity|]. split; [vm_compute; reflexivity|]. split; vm_compute; reflexivity.
  - apply Forall2_cons; [apply Ho_element; apply Forall2_cons; [apply Ho_text|apply Forall2_nil]|apply Forall2_nil].
Qed.
Example C111_drawn :
  map call_kind (filter seen (fst (full_drawing "absolute"))) = ["one"; "two"; "four"; "rectangle"; "line"; "three"] /\
  map call_kind (filter seen (fst (hollow_drawing "absolute"))) = ["one"; "two"; "four"] /\
  places (fst (hollow_drawing "absolute")) = firstn 3 (places (fst (full_drawing "absolute"))).
Proof. split; [vm_compute; reflexivity|]. split; vm_compute; reflexivity. Qed.
(** With <p> in the flow, "four" is at another place. *)
Example C111_condition_needed :
  nth 2 (places (fst (hollow_drawing "static"))) ("", 0%Q, 0%Q) <> nth 3 (places (fst (full_drawing "static"))) ("", 0%Q, 0%Q).
Proof. vm_compute. discriminate. Qed.

(** The same document with <p> a float, with text and borders or empty with a large margin *)
Definition float_style (full : bool) (i : node_id) (parent : option style) : style :=
  match i with
  | 4 => css parent [prop "display" "inline"]
  | 6 => css parent ([prop "display" "block"; prop "float" (if full then "left" else "right")] ++
           if full then [prop "background-color" "red"; prop "border-top-style" "solid"; length_prop "border-top-width" 2] else [length_prop "width" 1000; length_prop "margin-top" 70])
  | _ => css parent [prop "display" "block"]
  end.
Definition float_drawing (full : bool) := drawing_calls ex_font_of ex_width (float_style full) idle_doc (DT 2 (if full then idle_kids else hollow_kids)) ex_page.
Example C112_case :
  float_style false 2 None = float_style true 2 None /\
  Forall2 other_floats (map (styled (float_style true) idle_doc (float_style true 2 None)) idle_kids)
    (map (styled (float_style false) idle_doc (float_style false 2 None)) hollow_kids) /\
  snd (float_drawing true) = Finished /\ snd (float_drawing false) = Finished /\
  map call_kind (filter seen (fst (float_drawing true))) = ["one"; "two"; "four"].
Proof.
  split; [reflexivity|]. split; [|split; [vm_compute; reflexivity|split; vm_compute; reflexivity]].
  set (d := idle_doc). unfold idle_kids, hollow_kids. cbn [map styled].
  assert (A3 : data_of d 3 = Some (DomModel.DText (txt "one"))) by (vm_compute; reflexivity).
  assert (A4 : data_of d 4 = Some (DElement (Elem (html_name "span") []))) by (vm_compute; reflexivity).
  assert (A5 : data_of d 5 = Some (DomModel.DText (txt "two"))) by (vm_compute; reflexivity).
  assert (A6 : data_of d 6 = Some (DElement (Elem (html_name "p") []))) by (vm_compute; reflexivity).
  assert (A7 : data_of d 7 = Some (DomModel.DText (txt "three"))) by (vm_compute; reflexivity).
  assert (A8 : data_of d 8 = Some (DElement (Elem (html_name "div") []))) by (vm_compute; reflexivity).
  assert (A9 : data_of d 9 = Some (DomModel.DText (txt "four"))) by (vm_compute; reflexivity).
  rewrite A3, A4, A5, A6, A7, A8, A9. cbn iota beta. clear.
  change (String.eqb _ "br") with false.
  apply Forall2_cons; [apply Fl_text|].
  apply Forall2_cons; [apply Fl_element; apply Forall2_cons; [apply Fl_text|apply Forall2_nil]|].
  apply Forall2_cons; [eapply Fl_float; first [vm_compute; reflexivity | vm_compute; discriminate]|].
  apply Forall2_cons; [apply Fl_element; apply Forall2_cons; [apply Fl_text|apply Forall2_nil]|apply Forall2_nil].
Qed.
(** Floats that are absolutely positioned are not floats: they are drawn. *)
Example C112_condition_needed :
  map call_kind (filter seen (fst (drawing_calls ex_font_of ex_width
    (fun i p => match i with 6 => css p [prop "display" "block"; prop "float" "left"; prop "position" "absolute"] | _ => float_style true i p end) idle_doc (DT 2 idle_kids) ex_page))) =
  ["one"; "two"; "four"; "three"].
Proof. vm_compute. reflexivity. Qed.
