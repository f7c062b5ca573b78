(** Relative positioning over whole pages (C32). *)
From Verif Require Import StyleModel StyleExample GeomModel InlineModel BlockModel TreeModel PropTree PaintModel PropPaint.
From Verif Require Import Base DomModel DomSpec UnsetModel GfxModel OffsetSpec OffsetProofs.
Local Open Scope string_scope.
Local Open Scope list_scope.
Local Open Scope len_scope.

Lemma reoffset_anonymous free s s' : reoffset free s s' -> reoffset free (anonymous_inheriting_from (Some s)) (anonymous_inheriting_from (Some s')).
Proof.
  intros (H & _). unfold anonymous_inheriting_from, style_new. split; [|split; [reflexivity|exact I]].
  intros l Hl. destruct l; try discriminate Hl; cbn; rewrite ?H by reflexivity; reflexivity.
Qed.

(** Give the boxes of a document other offsets (and, if none is absolutely positioned, other positions): the same boxes are made and laid out to the same fragments, and corner by
    corner (each relative to its parent's) nothing has moved but the relatively positioned boxes, and these exactly by the
    change of their offsets.  So a box takes all that is inside it along, and nothing outside it moves or changes its size.
    On later lines of a relatively positioned inline box only the vertical part counts (C32_later_lines_refuted).
    MISSING: percentages (C32_percentage_refuted). *)
Theorem C32_page_partial : forall free style_of style_of' m_ascent m_descent (m_width : style -> text -> Len),
  restyled_by (reoffset free) style_of style_of' -> offsetless m_ascent -> offsetless m_descent -> offsetless m_width ->
  forall d root page boxes fs,
  construct_document style_of d root = TreeModel.Done boxes -> layout_root m_ascent m_descent m_width boxes page = Ok fs ->
  exists boxes' fs', construct_document style_of' d root = TreeModel.Done boxes' /\
    layout_root m_ascent m_descent m_width boxes' page = Ok fs' /\ Forall2 (displaced (reoffset free) false) fs fs'.
Proof.
  intros free so so' ma md mw Hs Ha Hd Hw d root page boxes fs Eb Ef.
  pose proof (z_construct_document free (reoffset free) (fun s s' H => H) (reoffset_anonymous free) so so' Hs d root) as C. rewrite Eb in C.
  destruct (construct_document so' d root) as [boxes'| |]; try contradiction.
  pose proof (z_layout_root free (reoffset free) (fun s s' H => H) ma md mw (Ha free) (Hd free) (Hw free) boxes boxes' page C) as L. rewrite Ef in L.
  destruct (layout_root ma md mw boxes' page) as [fs'| |] eqn:Ef'; try contradiction. exists boxes', fs'. split; [reflexivity|]. split; [exact Ef'|exact L].
Qed.
Print Assumptions C32_page_partial.

(** On the device: the same calls in the same order - the same texts in the same fonts and colors, rectangles, lines and
    boxes of the same sizes - each at most at another place; and the rendering ends in the same way. *)
Theorem C32_drawing_partial : forall free style_of style_of' font_of width_of,
  restyled_by (reoffset free) style_of style_of' -> offsetless font_of -> offsetless width_of ->
  forall d root page,
  Forall2 (fun c c' => exists m, moved_call m c c') (fst (drawing_calls font_of width_of style_of d root page))
    (fst (drawing_calls font_of width_of style_of' d root page)) /\
  snd (drawing_calls font_of width_of style_of' d root page) = snd (drawing_calls font_of width_of style_of d root page).
Proof.
  intros free so so' fo wo Hs Hf Hw d root page.
  destruct (z_drawing free (reoffset free) (fun s s' H => H) (reoffset_anonymous free) so so' Hs (fun _ => True)) with (font_of := fo) (width_of := wo) (d := d) (root := root) (page := page) as [F E]; auto; [exact (Hf free)|exact (Hw free)|].
  split; [|exact E]. clear E. induction F as [|c c' cs cs' (m & _ & M) _ IH]; constructor; [exists m; exact M|exact IH].
Qed.
Print Assumptions C32_drawing_partial.

(** The offsets of boxes that are not positioned do nothing: change offsets without changing where any relatively
    positioned box is moved to, and exactly the same is drawn. *)
Definition same_offset (s s' : style) : Prop := reoffset false s s' /\ offset_of s' = offset_of s.
Theorem C32_static_partial : forall style_of style_of' font_of width_of,
  restyled_by same_offset style_of style_of' -> offsetless font_of -> offsetless width_of ->
  forall d root page,
  drawing_calls font_of width_of style_of' d root page = drawing_calls font_of width_of style_of d root page.
Proof.
  intros so so' fo wo Hs Hf Hw d root page.
  assert (Z : forall s s', same_offset s s' -> displacement s s' = vec2_zero).
  { intros s s' [_ E]. unfold displacement. rewrite E. unfold vec2_zero. f_equal; ring. }
  destruct (z_drawing false same_offset (fun s s' H => proj1 H)) with (style_of := so) (style_of' := so') (D := fun m => m = (l0, l0)) (font_of := fo) (width_of := wo) (d := d) (root := root) (page := page) as [F E].
  - intros s s' [H _]. split; [apply reoffset_anonymous, H|reflexivity].
  - exact Hs.
  - reflexivity.
  - intros a b -> ->. cbn. f_equal; ring.
  - intros s s' H. rewrite (Z s s' H). reflexivity.
  - intros s s' H. rewrite (Z s s' H). reflexivity.
  - intros s s' H. apply (Hf false), H.
  - intros s s' H. apply (Hw false), H.
  - destruct (drawing_calls fo wo so d root page) as [cs e], (drawing_calls fo wo so' d root page) as [cs' e']. cbn in *. subst e'. f_equal.
    induction F as [|c c' cs cs' (m & -> & M) _ IH]; [reflexivity|]. rewrite IH. f_equal. clear - M.
    destruct M; cbn [fst snd]; repeat match goal with |- context [?x + l0] => replace (x + l0) with x by ring end; reflexivity.
Qed.
Print Assumptions C32_static_partial.

(* ------------------------------------------------------------------ *)
(** * Examples *)

(** `<html><p>hi you</p></html>` where p has `display: dis; position: pos; left: l; top: t` and html the offset `left: l`, but
    no position. *)
Definition px_item (n : string) (v : Q) : item := idecl n [TDim (px v) "px"].
Definition off_style (dis pos : string) (l t : Q) (i : nat) (parent : option style) : style :=
  if Nat.eqb i 2 then css parent [prop "display" dis; prop "position" pos; px_item "left" l; px_item "top" t]
  else css parent [prop "display" "block"; px_item "left" l].
Definition text_places (cs : list dcall) : list (string * Q * Q) :=
  flat_map (fun c => match c with GfxModel.DText l x y _ _ => [(l, this x, this y)] | _ => [] end) cs.
Definition off_calls (dis pos : string) (l t : Q) : list (string * Q * Q) :=
  text_places (fst (drawing_calls ex_font_of ex_width (off_style dis pos l t) ex_doc PropPaint.ex_root ex_page)).
Ltac offs := intros i; unfold off_style; destruct (Nat.eqb i 2); (split; [|intros p p' H; repeat match goal with X : same_offset _ _ |- _ => destruct X as [X _] | X : reoffset _ _ _ |- _ => destruct X as (X & _) end]);
  repeat match goal with
  | |- same_offset _ _ => split
  | |- reoffset _ _ _ => split
  | |- _ /\ _ => split
  | |- s_specified_display _ = _ => vm_compute; reflexivity
  | |- match _ with PosStatic => _ | _ => _ end => vm_compute; repeat split
  | |- offset_of _ = _ => vm_compute; reflexivity
  | |- forall l, _ => let l := fresh "l" in let Hl := fresh "Hl" in intros l Hl; try match goal with X : forall k, is_offset k = false -> _ |- _ => generalize (X l Hl) end; clear - Hl; destruct l; try discriminate Hl; clear Hl;
      first [vm_compute; reflexivity | let E := fresh "E" in intros E; first [clear; vm_compute; reflexivity | vm_compute in E; vm_compute; exact E]]
  end.
Example C32_page_case :
  offsetless ex_font_of /\ offsetless ex_width /\
  restyled_by (reoffset false) (off_style "block" "relative" 0 0) (off_style "block" "relative" 5 7) /\
  off_calls "block" "relative" 0 0 = [("hi", 0%Q, (68 # 5)%Q); ("you", 0%Q, (164 # 5)%Q)] /\
  off_calls "block" "relative" 5 7 = [("hi", 5%Q, (103 # 5)%Q); ("you", 5%Q, (199 # 5)%Q)].
Proof. split; [intros ? ? ? _; reflexivity|]. split; [intros ? ? ? _; reflexivity|]. split; [offs|]. split; vm_compute; reflexivity. Qed.
(** from static to relative *)
Example C32_free_case :
  restyled_by (reoffset true) (off_style "block" "static" 1 2) (off_style "block" "relative" 5 7) /\
  off_calls "block" "static" 1 2 = [("hi", 0%Q, (68 # 5)%Q); ("you", 0%Q, (164 # 5)%Q)].
Proof. split; [offs|]. vm_compute; reflexivity. Qed.
Example C32_static_case :
  restyled_by same_offset (off_style "block" "static" 0 0) (off_style "block" "static" 5 7) /\
  off_calls "block" "static" 5 7 = [("hi", 0%Q, (68 # 5)%Q); ("you", 0%Q, (164 # 5)%Q)].
Proof. split; [offs|]. vm_compute; reflexivity. Qed.

(** As an inline box p is split into two lines.  `left: 5px` moves what it shows on the first line and not what it shows on
    the second, although all of it is inside p. *)
Theorem C32_later_lines_refuted : exists style_of style_of' d root page,
  restyled_by (reoffset false) style_of style_of' /\ root = DT 1 [DT 2 [DT 3 []]] /\
  (forall parent, sv (style_of 2%nat parent) Lposition = PosRelative /\ displacement (style_of 2%nat parent) (style_of' 2%nat parent) = Vec2 (px 5) l0) /\
  text_places (fst (drawing_calls ex_font_of ex_width style_of d root page)) = [("hi", 0%Q, (68 # 5)%Q); ("you", 0%Q, (164 # 5)%Q)] /\
  text_places (fst (drawing_calls ex_font_of ex_width style_of' d root page)) = [("hi", 5%Q, (68 # 5)%Q); ("you", 0%Q, (164 # 5)%Q)].
Proof.
  exists (off_style "inline" "relative" 0 0), (off_style "inline" "relative" 5 0), ex_doc, PropPaint.ex_root, ex_page.
  split; [offs|]. split; [reflexivity|]. split; [intros parent; split; [vm_compute; reflexivity|]; vm_compute; reflexivity|].
  split; vm_compute; reflexivity.
Qed.
Print Assumptions C32_later_lines_refuted.
