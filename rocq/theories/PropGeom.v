(** Properties of box geometry and margin collapsing (C25-C27). *)
From Coq Require Import Permutation.
From Verif Require Import GeomModel GeomSpec GeomProofs.
Local Open Scope len_scope.

(** C25 *)
Theorem C25_sides_follow_css_table : forall T (w : writing_mode) (d : direction) (s : psides T),
  s_block_start (sides_to_flow_relative (w, d) s) = pick s (css_block_start w) /\
  s_block_end (sides_to_flow_relative (w, d) s) = pick s (opposite (css_block_start w)) /\
  s_inline_start (sides_to_flow_relative (w, d) s) = pick s (css_inline_start w d) /\
  s_inline_end (sides_to_flow_relative (w, d) s) = pick s (opposite (css_inline_start w d)).
Proof. exact sides_table. Qed.
Print Assumptions C25_sides_follow_css_table.
Theorem C25_each_side_once : forall T (m : wmode) (s : psides T),
  Permutation
    [s_block_start (sides_to_flow_relative m s); s_block_end (sides_to_flow_relative m s);
     s_inline_start (sides_to_flow_relative m s); s_inline_end (sides_to_flow_relative m s)]
    [p_top s; p_right s; p_bottom s; p_left s].
Proof. exact sides_permutation. Qed.
Print Assumptions C25_each_side_once.
Theorem C25_size_roundtrip : forall T (m : wmode) (v : pvec T) (u : vec2 T),
  size_to_physical m (size_to_flow_relative m v) = v /\ size_to_flow_relative m (size_to_physical m u) = u.
Proof. exact (fun T m v u => conj (size_roundtrip T m v) (size_roundtrip' T m u)). Qed.
Print Assumptions C25_size_roundtrip.

(** C26 *)
Theorem C26_rects_grow_exactly : forall content padding border margin,
  grown content padding (padding_rect_of content padding) /\
  grown (padding_rect_of content padding) border (border_rect_of content padding border) /\
  grown (border_rect_of content padding border) margin (margin_rect_of content padding border margin).
Proof. exact (fun c p b m => conj (inflate_grown c p) (conj (inflate_grown _ b) (inflate_grown _ m))). Qed.
Print Assumptions C26_rects_grow_exactly.
Theorem C26_grow_twice : forall r s t u, grown r s t -> forall s', grown t s' u -> grown r (sides_add s s') u.
Proof.
  exact (fun r s t u H s' H' => eq_ind_r (fun x => grown r (sides_add s s') x)
    (eq_ind _ (fun x => grown r (sides_add s s') x) (inflate_grown r (sides_add s s')) _
       (eq_sym (inflate_inflate r s s'))) (eq_trans (grown_unique t s' u H') (f_equal (fun x => inflate x s') (grown_unique r s t H)))).
Qed.
Print Assumptions C26_grow_twice.
Theorem C26_containment : forall content padding border margin,
  nonneg_sides padding -> nonneg_sides border -> nonneg_sides margin ->
  rect_inside content (padding_rect_of content padding) /\
  rect_inside (padding_rect_of content padding) (border_rect_of content padding border) /\
  rect_inside (border_rect_of content padding border) (margin_rect_of content padding border margin).
Proof. exact (fun c p b m Hp Hb Hm => conj (inflate_inside c p Hp) (conj (inflate_inside _ b Hb) (inflate_inside _ m Hm))). Qed.
Print Assumptions C26_containment.
Example C26_nonvacuous : nonneg_sides (Sides (px 1) (px 2) (px 3) (px 0)).
Proof. repeat split; vm_compute; discriminate. Qed.

(** C27 *)
Theorem C27_collapsed_margin : forall g, css_collapsed (margins_of g) (cm_solve (collapse g)).
Proof. exact collapse_correct. Qed.
Print Assumptions C27_collapsed_margin.
Theorem C27_order_and_grouping_irrelevant : forall g h,
  Permutation (margins_of g) (margins_of h) -> collapse g = collapse h.
Proof. exact collapse_state. Qed.
Print Assumptions C27_order_and_grouping_irrelevant.
Theorem C27_value_unique : forall l v w, css_collapsed l v -> css_collapsed l w -> v = w.
Proof. exact css_collapsed_fun. Qed.
Print Assumptions C27_value_unique.
Example C27_nonvacuous :
  cm_solve (collapse (GBoth (GBoth (GOne (px 10)) (GOne (px (-4)))) (GBoth (GOne (px 3)) (GOne (px (-7)))))) = px 3.
Proof. apply Qc_is_canon. reflexivity. Qed.
