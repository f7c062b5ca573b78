From Coq Require Import Permutation.
From Verif Require Import GeomModel GeomSpec.
Local Open Scope len_scope.

Lemma sides_table T (w : writing_mode) (d : direction) (s : psides T) :
  let f := sides_to_flow_relative (w, d) s in
  s_block_start f = pick s (css_block_start w) /\
  s_block_end f = pick s (opposite (css_block_start w)) /\
  s_inline_start f = pick s (css_inline_start w d) /\
  s_inline_end f = pick s (opposite (css_inline_start w d)).
Proof. destruct w, d; cbn; auto. Qed.

Lemma sides_permutation T (m : wmode) (s : psides T) :
  Permutation
    [s_block_start (sides_to_flow_relative m s); s_block_end (sides_to_flow_relative m s);
     s_inline_start (sides_to_flow_relative m s); s_inline_end (sides_to_flow_relative m s)]
    [p_top s; p_right s; p_bottom s; p_left s].
Proof.
  destruct m as [w d], s as [t l b r]. destruct w, d; cbn;
  repeat first [ apply Permutation_refl
    | match goal with |- Permutation (?x :: ?xs) ?ys =>
        match ys with context [x :: ?tl] =>
          let pre := fresh in
          (apply (Permutation_cons_app []) || apply (Permutation_cons_app [_]) || apply (Permutation_cons_app [_; _]) || apply (Permutation_cons_app [_; _; _])); cbn
        end end ].
Qed.

Lemma size_roundtrip T (m : wmode) (v : pvec T) : size_to_physical m (size_to_flow_relative m v) = v.
Proof. destruct m as [[] d], v; reflexivity. Qed.
Lemma size_roundtrip' T (m : wmode) (v : vec2 T) : size_to_flow_relative m (size_to_physical m v) = v.
Proof. destruct m as [[] d], v; reflexivity. Qed.

Ltac rects := unfold grown, rect_inside, nonneg_sides, edge_is, edge_ie, edge_bs, edge_be, inflate, inline_sum, block_sum, sides_add in *; cbn [r_start r_size v_inline v_block s_inline_start s_inline_end s_block_start s_block_end] in *.

Lemma inflate_grown r s : grown r s (inflate r s).
Proof. rects. repeat split; lenq. Qed.
Lemma grown_unique r s b : grown r s b -> b = inflate r s.
Proof.
  destruct r as [[a1 a2] [a3 a4]], s as [s1 s2 s3 s4], b as [[b1 b2] [b3 b4]]. rects. intros (H1 & H2 & H3 & H4).
  f_equal; f_equal; lenq.
Qed.
Lemma inflate_inflate r s t : inflate (inflate r s) t = inflate r (sides_add s t).
Proof. unfold inflate, sides_add, inline_sum, block_sum. cbn. f_equal; f_equal; lenq. Qed.
Lemma inflate_inside r s : nonneg_sides s -> rect_inside r (inflate r s).
Proof. rects. intros (H1 & H2 & H3 & H4). repeat split; lenq. Qed.

(* margins *)
Definition cm_ok (c : cmargin) (l : list Len) : Prop := greatest (l0 :: l) (max_positive c) /\ least (l0 :: l) (min_negative c).

Lemma lmax_cases a b : lmax a b = a \/ lmax a b = b.
Proof. rewrite lmax_def. destruct (lleb a b); auto. Qed.
Lemma lmin_cases a b : lmin a b = a \/ lmin a b = b.
Proof. rewrite lmin_def. destruct (lleb a b); auto. Qed.
Lemma lmax_l a b : a <= lmax a b. Proof. lenq. Qed.
Lemma lmax_r a b : b <= lmax a b. Proof. lenq. Qed.
Lemma lmin_l a b : lmin a b <= a. Proof. lenq. Qed.
Lemma lmin_r a b : lmin a b <= b. Proof. lenq. Qed.

Lemma collapse_ok g : cm_ok (collapse g) (margins_of g).
Proof.
  induction g as [|m|a [[Ga Ba] [La Ca]] b [[Gb Bb] [Lb Cb]]]; cbn [collapse margins_of].
  - split; split; cbn; auto; intros x [<-|[]]; lenq.
  - split; split; cbn [cm_new max_positive min_negative].
    + destruct (lmax_cases m l0) as [->| ->]; cbn; auto.
    + intros x [<-|[<-|[]]]; [apply lmax_r|apply lmax_l].
    + destruct (lmin_cases m l0) as [->| ->]; cbn; auto.
    + intros x [<-|[<-|[]]]; [apply lmin_r|apply lmin_l].
  - split; split; cbn [cm_adjoin max_positive min_negative].
    + assert (forall x, In x (l0 :: margins_of a) \/ In x (l0 :: margins_of b) -> In x (l0 :: margins_of a ++ margins_of b)) as Hin.
      { intros x [[H|H]|[H|H]]; cbn; auto; right; apply in_or_app; auto. }
      destruct (lmax_cases (max_positive (collapse a)) (max_positive (collapse b))) as [->| ->]; apply Hin; auto.
    + intros x [<-|Hx].
      * eapply Qcle_trans; [apply (Ba l0); left; reflexivity|apply lmax_l].
      * apply in_app_or in Hx. destruct Hx as [Hx|Hx].
        -- eapply Qcle_trans; [apply (Ba x); right; exact Hx|apply lmax_l].
        -- eapply Qcle_trans; [apply (Bb x); right; exact Hx|apply lmax_r].
    + assert (forall x, In x (l0 :: margins_of a) \/ In x (l0 :: margins_of b) -> In x (l0 :: margins_of a ++ margins_of b)) as Hin.
      { intros x [[H|H]|[H|H]]; cbn; auto; right; apply in_or_app; auto. }
      destruct (lmin_cases (min_negative (collapse a)) (min_negative (collapse b))) as [->| ->]; apply Hin; auto.
    + intros x [<-|Hx].
      * eapply Qcle_trans; [apply lmin_l|apply (Ca l0); left; reflexivity].
      * apply in_app_or in Hx. destruct Hx as [Hx|Hx].
        -- eapply Qcle_trans; [apply lmin_l|apply (Ca x); right; exact Hx].
        -- eapply Qcle_trans; [apply lmin_r|apply (Cb x); right; exact Hx].
Qed.

Lemma collapse_correct g : css_collapsed (margins_of g) (cm_solve (collapse g)).
Proof. destruct (collapse_ok g) as [HG HL]. exists (max_positive (collapse g)), (min_negative (collapse g)). auto. Qed.

Lemma css_collapsed_fun l v w : css_collapsed l v -> css_collapsed l w -> v = w.
Proof.
  intros (p & n & [Hp Gp] & [Hn Ln] & ->) (q & m & [Hq Gq] & [Hm Lm] & ->). f_equal; apply Qcle_antisym; auto.
Qed.
Lemma css_collapsed_perm l l' v : Permutation l l' -> css_collapsed l v -> css_collapsed l' v.
Proof.
  intros HP (p & n & [Hp Gp] & [Hn Ln] & ->). assert (forall x, In x (l0 :: l) <-> In x (l0 :: l')) as Hin.
  { intros x. split; apply Permutation_in; [|apply Permutation_sym]; constructor; exact HP. }
  exists p, n. repeat split; try (apply Hin; assumption); intros x Hx; apply Hin in Hx; auto.
Qed.
Lemma collapse_grouping g h : Permutation (margins_of g) (margins_of h) -> cm_solve (collapse g) = cm_solve (collapse h).
Proof.
  intros HP. eapply css_collapsed_fun; [|apply collapse_correct].
  eapply css_collapsed_perm; [exact HP|apply collapse_correct].
Qed.
(** The collapsed state itself (not only its value) is independent of order and grouping. *)
Lemma collapse_state g h : Permutation (margins_of g) (margins_of h) -> collapse g = collapse h.
Proof.
  intros HP. destruct (collapse_ok g) as [[Hp Gp] [Hn Ln]], (collapse_ok h) as [[Hq Gq] [Hm Lm]].
  assert (forall x, In x (l0 :: margins_of g) <-> In x (l0 :: margins_of h)) as Hin.
  { intros x. split; apply Permutation_in; [|apply Permutation_sym]; constructor; exact HP. }
  destruct (collapse g) as [p n], (collapse h) as [q m]. cbn in *. f_equal; apply Qcle_antisym; auto.
  - apply Gq. apply Hin. exact Hp.
  - apply Gp. apply Hin. exact Hq.
  - apply Ln. apply Hin. exact Hm.
  - apply Lm. apply Hin. exact Hn.
Qed.
