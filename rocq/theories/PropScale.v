(** Enlarging (C87). *)
From Verif Require Import StyleModel StyleSpec StyleExample GeomModel InlineModel BlockModel TreeModel TreeSpec PropStyle PropTree PaintModel PaintSpec PropPaint.
From Verif Require Import Base DomModel DomSpec UnsetModel GfxModel ScaleSpec ScaleProofs ScaleStyle.
Local Open Scope string_scope.
Local Open Scope list_scope.
Local Open Scope len_scope.

(** Enlarge the styles, the fonts, the measured texts and the page by one factor: the same things are drawn, in the same
    order, enlarged by that factor, and the rendering ends in the same way. *)
Theorem C87_drawing : forall k, (0 < k)%len -> forall style_of style_of' font_of font_of' width_of width_of',
  zoomed_styles k style_of style_of' -> zoomed_fonts k font_of font_of' -> zoomed_widths k width_of width_of' ->
  forall d root w h,
  Forall2 (zoomed_call k) (fst (drawing_calls font_of width_of style_of d root (Vec2 w h)))
    (fst (drawing_calls font_of' width_of' style_of' d root (Vec2 (k * w) (k * h)))) /\
  snd (drawing_calls font_of' width_of' style_of' d root (Vec2 (k * w) (k * h))) =
  snd (drawing_calls font_of width_of style_of d root (Vec2 w h)).
Proof.
  intros k Hk so so' fo fo' wo wo' Hs Hf Hw d root w h.
  exact (z_drawing k Hk so so' Hs fo fo' Hf wo wo' Hw d root (Vec2 w h)).
Qed.
Print Assumptions C87_drawing.

(** The styles are enlarged when the absolute lengths in the declarations are and no built-in length is used. *)
Theorem C87_styles : forall k sel sel' ct (sp : sel -> N) (sp' : sel' -> N) m m' ua author ua' author' attr attr' parent parent' s s',
  element_style ct sp m ua author attr parent s -> element_style ct sp' m' ua' author' attr' parent' s' ->
  zoomed_winners k (candidates ct sp m ua author attr) (candidates ct sp' m' ua' author' attr') ->
  zoomed_parent k parent parent' ->
  no_default_length (candidates ct sp m ua author attr) parent s ->
  zoomed_style k s s'.
Proof. intros. eapply zv_style; eassumption. Qed.
Print Assumptions C87_styles.

(* ------------------------------------------------------------------ *)
(** * A document *)

(** body and paragraph in a font of [n] px with borders of [n] tenths and margins in em and per cent; text is measured
    with half the font size for a character *)
Definition len_style (n : Q) (i : nat) (parent : option style) : style :=
  css parent [prop "display" "block"; idecl "font-size" [TDim (px n) "px"]; prop "border-top-style" "solid";
              idecl "border-top-width" [TDim (px (n * (1#10))) "px"]; idecl "margin-left" [TDim (px 1) "em"];
              idecl "padding-top" [TPercent (px (1#10))]; prop "background-color" "red"].
Definition len_font (st : style) : font :=
  Font "serif" FSNormal FWNormal (sv st Lfont_size) (sv st Lfont_size * px (3#4)) (sv st Lfont_size * px (1#4)) (sv st Lfont_size * px (1#2)) 0.
Definition len_width (st : style) (t : text) : Len := sv st Lfont_size * px (inject_Z (Z.of_nat (List.length t)) * (1#2)).


(** what is drawn, as numbers *)
Definition call_numbers (c : dcall) : string * list Q :=
  match c with
  | GfxModel.DText l x y f _ => (l, [this x; this y; this (f_size f)])
  | DRect x y w h _ => ("rectangle", map this [x; y; w; h])
  | DLine ps _ w _ => ("line", map this (flat_map (fun p => [fst p; snd p]) ps ++ [w]))
  | DBBox x y w h => ("box", map this [x; y; w; h])
  end.

(** the hypotheses hold with the factor 2, and the drawing at 10 px *)
Ltac zoom_num := vm_compute; repeat match goal with
  | |- ?f ?a = ?f ?b => lazymatch type of a with Qc => apply (f_equal f) | _ => fail end end; apply Qc_is_canon; vm_compute; reflexivity.
Example C87_case :
  zoomed_styles (px 2) (len_style 10) (len_style 20) /\ zoomed_fonts (px 2) len_font len_font /\ zoomed_widths (px 2) len_width len_width /\
  map call_numbers (fst (drawing_calls len_font len_width (len_style 10) ex_doc PropPaint.ex_root (Vec2 (px 40) (px 100)))) =
  [("box", [0%Q; 0%Q; 40%Q; 33%Q]); ("rectangle", [10%Q; 0%Q; 30%Q; 33%Q]);
   ("line", [10%Q; (1 # 2)%Q; 40%Q; (1 # 2)%Q; 1%Q]);
   ("box", [10%Q; 5%Q; 30%Q; 28%Q]); ("rectangle", [20%Q; 5%Q; 20%Q; 28%Q]);
   ("line", [20%Q; (11 # 2)%Q; 40%Q; (11 # 2)%Q; 1%Q]);
   ("box", [20%Q; 9%Q; 20%Q; 12%Q]); ("box", [20%Q; 10%Q; 10%Q; 12%Q]);
   ("hi", [20%Q; (35 # 2)%Q; 10%Q]); ("box", [20%Q; 21%Q; 20%Q; 12%Q]);
   ("box", [20%Q; 22%Q; 15%Q; 12%Q]); ("you", [20%Q; (59 # 2)%Q; 10%Q])].
Proof.
  split; [|split; [|split]].
  - intros i. split.
    + split; [intros l; destruct l; first [vm_compute; reflexivity | zoom_num]|vm_compute; reflexivity].
    + intros p p' [H1 H2]. split; [|vm_compute; reflexivity]. intros l; generalize (H1 l); clear; destruct l; intros E;
      first [clear; vm_compute; reflexivity | clear; zoom_num | vm_compute in E; vm_compute; exact E].
  - intros s s' [H _]. unfold zoomed_font, len_font; cbn. rewrite (H Lfont_size). cbn. repeat (split; [reflexivity || ring|]); ring.
  - intros s s' [H _] t. unfold len_width. rewrite (H Lfont_size). cbn. ring.
  - vm_compute. reflexivity.
Qed.

(** an element with a style attribute: font-size: n px; border-top-style: solid; border-top-width: n/10 px; margin-left: 1em *)
Definition len_attr (n : Q) : list item :=
  [idecl "font-size" [TDim (px n) "px"]; prop "border-top-style" "solid"; idecl "border-top-width" [TDim (px (n * (1#10))) "px"];
   idecl "margin-left" [TDim (px 1) "em"]].
Definition len_result (n : Q) : result style :=
  style_for_element ex_ct nat (finish nat N.of_nat []) (finish nat N.of_nat []) ex_matches (Some (len_attr n)) None.
Definition len_element (n : Q) : style := match len_result n with Ok s => s | _ => initial_style end.
Definition len_cands (n : Q) : list cand := candidates ex_ct N.of_nat ex_matches [] [] (Some (len_attr n)).
Definition len_cand (i : nat) (d : decl) : cand := Cand false false None 0 i d.
Definition len_list (n : Q) : list cand :=
  [len_cand 0 (DVal Lfont_size (SAbs (px n))); len_cand 1 (DVal Lborder_top_style LSSolid);
   len_cand 2 (DVal Lborder_top_width (LPLen (SAbs (px (n * (1#10)))))); len_cand 3 (DVal Lmargin_left (LPALen (SEm (px 1))))].
Lemma len_cands_eq : len_cands 10 = len_list 10 /\ len_cands 20 = len_list 20.
Proof.
  split; unfold len_list, len_cand; vm_compute; repeat (f_equal; try reflexivity); apply Qc_is_canon; reflexivity.
Qed.
Lemma len_wins : forall n c, In c (len_list n) -> wins (len_list n) c.
Proof.
  intros n c H. split; [exact H|]. intros c' H'. unfold len_list in *. cbn [In] in H, H'.
  intuition subst; cbn in *; first [left; reflexivity | discriminate].
Qed.
Example C87_styles_case :
  element_style ex_ct N.of_nat ex_matches [] [] (Some (len_attr 10)) None (len_element 10) /\
  element_style ex_ct N.of_nat ex_matches [] [] (Some (len_attr 20)) None (len_element 20) /\
  zoomed_winners (px 2) (len_cands 10) (len_cands 20) /\ zoomed_parent (px 2) None None /\
  no_default_length (len_cands 10) None (len_element 10) /\
  this (sv (len_element 10) Lfont_size) = 10%Q /\ this (sv (len_element 20) Lfont_size) = 20%Q /\
  sv (len_element 20) Lmargin_left = LPALen (px 20).
Proof.
  destruct len_cands_eq as [E1 E2]. rewrite E1, E2.
  split; [|split; [|split; [|split; [|split]]]].
  - exists [], []. split; [reflexivity|split; [reflexivity|]]. unfold len_element.
    assert (H : match len_result 10 with Ok _ => true | _ => false end = true) by (vm_compute; reflexivity).
    change (len_result 10 = Ok (match len_result 10 with Ok s => s | _ => initial_style end)). destruct (len_result 10); [reflexivity|discriminate..].
  - exists [], []. split; [reflexivity|split; [reflexivity|]]. unfold len_element.
    assert (H : match len_result 20 with Ok _ => true | _ => false end = true) by (vm_compute; reflexivity).
    change (len_result 20 = Ok (match len_result 20 with Ok s => s | _ => initial_style end)). destruct (len_result 20); [reflexivity|discriminate..].
  - intros l.
    assert (K : forall i c c', nth_error (len_list 10) i = Some c -> nth_error (len_list 20) i = Some c' ->
      c_decl c' = zoom_decl (px 2) (c_decl c) -> decl_longhand (c_decl c) = l ->
      exists c c', wins (len_list 10) c /\ wins (len_list 20) c' /\ c_decl c' = zoom_decl (px 2) (c_decl c) /\ decl_longhand (c_decl c) = l).
    { intros i c c' N1 N2 D L. exists c, c'. split; [apply len_wins; eapply nth_error_In; exact N1|split; [apply len_wins; eapply nth_error_In; exact N2|auto]]. }
    assert (P : forall a b : Q, Qeq (2 * a) b -> px b = px 2 * px a).
    { intros a b H. apply Qc_is_canon. rewrite this_mul, !this_px. rewrite <- H. reflexivity. }
    destruct l; try (left; split; intros c H; unfold len_list in H; cbn [In] in H; intuition subst; discriminate); right.
    all: first [eapply (K 0%nat); [reflexivity|reflexivity| |reflexivity] | eapply (K 1%nat); [reflexivity|reflexivity| |reflexivity]
               |eapply (K 2%nat); [reflexivity|reflexivity| |reflexivity] | eapply (K 3%nat); [reflexivity|reflexivity| |reflexivity]].
    all: cbn; repeat f_equal; try (apply P; reflexivity).
  - exact I.
  - split.
    + left. exists (len_cand 0 (DVal Lfont_size (SAbs (px 10)))), (px 10). split; [apply len_wins; now left|reflexivity].
    + intros l st G N. destruct l; cbn [governing_style] in G; try discriminate G.
      all: try (exfalso; apply N; cbn [governing_style] in G; injection G as <-; vm_compute; reflexivity).
      exists (len_cand 2 (DVal Lborder_top_width (LPLen (SAbs (px (10 * (1#10))))))), (LPLen (SAbs (px (10 * (1#10))))).
      split; [apply len_wins; right; right; now left|reflexivity].
  - split; [vm_compute; reflexivity|split; [vm_compute; reflexivity|]]. vm_compute. reflexivity.
Qed.
