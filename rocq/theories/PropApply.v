(** Properties change nothing where they do not apply (C109). *)
From Verif Require Import StyleModel StyleSpec StyleExample GeomModel InlineModel BlockModel TreeModel TreeSpec PropTree PaintModel PaintSpec PropPaint PropText.
From Verif Require Import Base DomModel DomSpec DomExample UnsetModel UaModel GfxModel LevelSpec PropUnseen PropAppend ApplySpec ApplyProofs.
Local Open Scope string_scope.
Local Open Scope list_scope.
Local Open Scope nat_scope.

(** Two documents whose elements have the same values of all properties that apply to them - the root counts as a block -
    are drawn with the same calls in the same order, and end in the same way, in any arithmetic. *)
Theorem C109_where_it_applies {ar : Len.Arith} : forall font_of width_of, by_font font_of -> by_font width_of ->
  forall style_of style_of' d d' i ts i' ts' page_size,
  agree Block (style_of i None) (style_of' i' None) ->
  Forall2 alike (map (styled style_of d (style_of i None)) ts) (map (styled style_of' d' (style_of' i' None)) ts') ->
  drawing_calls font_of width_of style_of' d' (DT i' ts') page_size = drawing_calls font_of width_of style_of d (DT i ts) page_size.
Proof.
  intros fo wo Hf Hw so so' d d' i ts i' ts' page A F.
  apply z_drawing.
  - intros s s' H. apply Hf; apply (z_sv_ s s' _ H); reflexivity.
  - intros s s' H. apply Hw; apply (z_sv_ s s' _ H); reflexivity.
  - cbn [construct_document]. apply z_construct_root; assumption.
Qed.
Print Assumptions C109_where_it_applies.

(* ------------------------------------------------------------------ *)
(** * Examples *)

(** <html>one<span>two</span><p>three</p><div>four</div></html>, where <div> is `display: contents`; plain, and with the size
    and the offsets of <span>, the offsets and the vertical alignment of <p>, and the padding, the border, the background
    and the text alignment of <div> set. *)
Definition idle_ops : list op :=
  [ OCreateElement (html_name "html") []; OAppend 1 (CNode 2); OAppend 2 (CText (txt "one"));
    OCreateElement (html_name "span") []; OAppend 2 (CNode 4); OAppend 4 (CText (txt "two"));
    OCreateElement (html_name "p") []; OAppend 2 (CNode 6); OAppend 6 (CText (txt "three"));
    OCreateElement (html_name "div") []; OAppend 2 (CNode 8); OAppend 8 (CText (txt "four")) ].
Definition idle_doc : doc := made idle_ops.
Definition idle_kids : list dtree := [DT 3 []; DT 4 [DT 5 []]; DT 6 [DT 7 []]; DT 8 [DT 9 []]].
Definition length_prop (n : string) (v : Q) : item := idecl n [TDim (px v) "px"].
Definition idle_style (more : bool) (i : node_id) (parent : option style) : style :=
  match i with
  | 4 => css parent ([prop "display" "inline"; length_prop "margin-left" 3] ++
           if more then [length_prop "width" 100; length_prop "height" 50; length_prop "top" 7; prop "text-align" "right"] else [])
  | 6 => css parent ([prop "display" "block"; length_prop "height" 30] ++
           if more then [prop "vertical-align" "super"; length_prop "left" 9; length_prop "bottom" 9] else [])
  | 8 => css parent ([prop "display" "contents"] ++
           if more then [length_prop "padding-left" 11; prop "border-top-style" "solid"; prop "background-color" "red"; prop "text-align" "center"; length_prop "margin-top" 12] else [])
  | _ => css parent [prop "display" "block"]
  end.
Definition idle_places (more : bool) := places (fst (drawing_calls ex_font_of ex_width (idle_style more) idle_doc (DT 2 idle_kids) ex_page)).
Ltac agrees :=
  split; [intros l Hl; match type of Hl with applies _ ?p _ = _ => replace p with false in Hl by (vm_compute; reflexivity) end;
          destruct l; first [discriminate Hl | vm_compute; reflexivity] | vm_compute; reflexivity].
Example C109_case :
  by_font (@ex_font_of Len.Exact) /\ by_font (@ex_width Len.Exact) /\
  subtree 20 idle_doc 2 = Ok (DT 2 idle_kids) /\
  agree Block (idle_style false 2 None) (idle_style true 2 None) /\
  Forall2 alike (map (styled (idle_style false) idle_doc (idle_style false 2 None)) idle_kids)
    (map (styled (idle_style true) idle_doc (idle_style true 2 None)) idle_kids) /\
  sv (idle_style true 4 None) Lwidth <> sv (idle_style false 4 None) Lwidth /\
  sv (idle_style true 8 None) Lpadding_left <> sv (idle_style false 8 None) Lpadding_left.
Proof.
  split; [intros s s' H1 H2 H3 H4; unfold ex_font_of; rewrite ?H1, ?H2, ?H3, ?H4; reflexivity|].
  split; [intros s s' H1 H2 H3 H4; unfold ex_width; rewrite ?H1, ?H2, ?H3, ?H4; reflexivity|].
  split; [vm_compute; reflexivity|].
  split; [split; reflexivity|]. split; [|split; vm_compute; discriminate].
  set (d := idle_doc). unfold idle_kids. cbn [map styled].
  assert (A3 : data_of d 3 = Some (DomModel.DText (txt "one"))) by (vm_compute; reflexivity).
  assert (A4 : data_of d 4 = Some (DElement (Elem (html_name "span") []))) by (vm_compute; reflexivity).
  assert (A5 : data_of d 5 = Some (DomModel.DText (txt "two"))) by (vm_compute; reflexivity).
  assert (A6 : data_of d 6 = Some (DElement (Elem (html_name "p") []))) by (vm_compute; reflexivity).
  assert (A7 : data_of d 7 = Some (DomModel.DText (txt "three"))) by (vm_compute; reflexivity).
  assert (A8 : data_of d 8 = Some (DElement (Elem (html_name "div") []))) by (vm_compute; reflexivity).
  assert (A9 : data_of d 9 = Some (DomModel.DText (txt "four"))) by (vm_compute; reflexivity).
  rewrite A3, A4, A5, A6, A7, A8, A9. cbn iota beta. clear.
  change (String.eqb _ "br") with false.
  apply Forall2_cons; [apply Al_text|].
  apply Forall2_cons; [apply Al_element; [|apply Forall2_cons; [apply Al_text|apply Forall2_nil]]|].
  { match goal with |- agree ?k _ _ => replace k with Inline by (vm_compute; reflexivity) end. agrees. }
  apply Forall2_cons; [apply Al_element; [|apply Forall2_cons; [apply Al_text|apply Forall2_nil]]|].
  { match goal with |- agree ?k _ _ => replace k with Block by (vm_compute; reflexivity) end. agrees. }
  apply Forall2_cons; [apply Al_element; [|apply Forall2_cons; [apply Al_text|apply Forall2_nil]]|apply Forall2_nil].
  match goal with |- agree ?k _ _ => replace k with NoBox by (vm_compute; reflexivity) end. agrees.
Qed.
(** What is drawn in both cases. *)
Example C109_drawn : idle_places true = [("one", 0, 68 # 5); ("two", 0, 164 # 5); ("three", 0, 52); ("four", 0, 82)]%Q /\ idle_places false = idle_places true.
Proof. split; [vm_compute; reflexivity|]. vm_compute. reflexivity. Qed.
(** Where they apply the same properties do count: the vertical alignment of <span>, and the offset of <p> once its position is
    relative, move the text; so would the height of <p>. *)
Definition busy_style (d4 d6 : list item) (i : node_id) (parent : option style) : style :=
  match i with
  | 4 => css parent ([prop "display" "inline"; length_prop "margin-left" 3] ++ d4)
  | 6 => css parent ([prop "display" "block"; length_prop "height" 30] ++ d6)
  | _ => idle_style false i parent
  end.
Definition busy_places (d4 d6 : list item) := places (fst (drawing_calls ex_font_of ex_width (busy_style d4 d6) idle_doc (DT 2 idle_kids) ex_page)).
Example C109_condition_needed :
  busy_places [] [] = idle_places true /\
  busy_places [prop "vertical-align" "super"] [] <> idle_places true /\
  busy_places [] [prop "position" "relative"; length_prop "left" 9] <> busy_places [] [prop "position" "relative"] /\
  busy_places [] [length_prop "height" 40] <> idle_places true.
Proof. split; [vm_compute; reflexivity|]. split; [vm_compute; discriminate|]. split; vm_compute; discriminate. Qed.
