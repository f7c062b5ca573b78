(** The height of the page (C107). *)
From Verif Require Import StyleModel StyleSpec StyleExample GeomModel InlineModel BlockModel TreeModel TreeSpec PropTree PaintModel PaintSpec PropPaint PropText PropAppend.
From Verif Require Import Base DomModel DomSpec UnsetModel UaModel GfxModel PropAttr PropRecolor PropLevel TallSpec TallProofs.
Local Open Scope string_scope.
Local Open Scope list_scope.
Local Open Scope result_scope.

(** A document is drawn with the same calls on a page of another height, to the last bit, in any arithmetic, and ends the same
    way, unless the root element's height is a percentage or something is positioned by its distance from the bottom only.
    Missing: elements absolutely positioned by their distance from the right edge only (see [C107_refuted]). *)
Theorem C107_height_of_page_partial {ar : Arith} : forall font_of width_of style_of d root w h h',
  is_absolutely_positioned (sv (root_style style_of root) Lposition) = true \/ not_percent (sv (root_style style_of root) Lheight) ->
  from_start (root_style style_of root) -> Forall (boxes_styled from_start) (root_kids style_of d root) ->
  drawing_calls font_of width_of style_of d root (Vec2 w h) = drawing_calls font_of width_of style_of d root (Vec2 w h').
Proof.
  intros fo wo so d root w h h' N F S. unfold drawing_calls, construct_document. destruct root as [i ts]. cbn [root_style root_kids] in *.
  destruct (construct_root _ _) as [r| |] eqn:E; [|reflexivity..].
  rewrite (root_height _ _ wo _ _ r w h h' N F S E). destruct (layout_root _ _ _ _ _); [|reflexivity..]. rewrite (page_origin fo _ w h h'). reflexivity.
Qed.
Print Assumptions C107_height_of_page_partial.

(** The document of C103: <html><div>hi <span>you</span></div></html>, where the span is absolutely positioned, here with the
    page as its containing block. *)
Definition tall (span : list item) (i : nat) (parent : option style) : style :=
  match i with
  | 2%nat => css parent [prop "display" "block"; idecl "height" [TDim (px 20) "px"]; idecl "margin-top" [TDim (px 10) "px"]]
  | 4%nat => css parent (prop "position" "absolute" :: span)
  | _ => css parent [prop "display" "block"]
  end.
Definition tall_calls span h := drawing_calls ex_font_of ex_width (tall span) high_doc high_root (Vec2 (px 200) (px h)).
Definition tall_places span h := places (fst (tall_calls span h)).
Definition at_top : list item := [idecl "top" [TDim (px 7) "px"]; idecl "left" [TDim (px 3) "px"]; idecl "bottom" [TDim (px 9) "px"]].
Definition at_bottom : list item := [idecl "bottom" [TDim (px 7) "px"]].
Definition at_right : list item := [idecl "right" [TDim (px 7) "px"]].
Example C107_case :
  (is_absolutely_positioned (sv (root_style (tall at_top) high_root) Lposition) = true \/ not_percent (sv (root_style (tall at_top) high_root) Lheight)) /\
  from_start (root_style (tall at_top) high_root) /\ Forall (boxes_styled from_start) (root_kids (tall at_top) high_doc high_root) /\
  snd (tall_calls at_top 100) = Finished /\ tall_places at_top 100 = [("hi ", 0, 118#5); ("you", 3, 103#5)]%Q.
Proof.
  split; [right; vm_compute; exact I|].
  split; [intros A; vm_compute in A; discriminate A|].
  split; [constructor; [|constructor]; split; [intros A; vm_compute in A; discriminate A|]; split; [exact I|]; split; [|exact I]; split;
    [intros _; split; intros A; exfalso; revert A; vm_compute; discriminate|]; split; exact I|].
  split; vm_compute; reflexivity.
Qed.
Example C107_conditions_needed :
  tall_places at_bottom 100 <> tall_places at_bottom 300 /\
  fst (drawing_calls ex_font_of ex_width (fun i p => css p [prop "display" "block"; idecl "height" [TPercent (px (1#2))]]) high_doc high_root (Vec2 (px 200) (px 100))) <>
  fst (drawing_calls ex_font_of ex_width (fun i p => css p [prop "display" "block"; idecl "height" [TPercent (px (1#2))]]) high_doc high_root (Vec2 (px 200) (px 300))).
Proof. split; vm_compute; discriminate. Qed.
(** FINDING: an element positioned by its distance from the right edge only moves sideways with the height of the page
    (positioned.rs:265). *)
Theorem C107_refuted : snd (tall_calls at_right 100) = Finished /\ snd (tall_calls at_right 300) = Finished /\
  tall_places at_right 100 = [("hi ", 0, 118#5); ("you", -100#1, 118#5)]%Q /\ tall_places at_right 300 = [("hi ", 0, 118#5); ("you", 100, 118#5)]%Q.
Proof. repeat split; vm_compute; reflexivity. Qed.
Print Assumptions C107_refuted.
