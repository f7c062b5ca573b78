(** Static positions of absolutely positioned boxes: C80. *)
From Verif Require Import BlockModel InlineSpec InlineProofs GeomSpec GeomProofs BlockSpec BlockFrame BlockStack BlockProofs BlockFlow BlockAbs BlockMove PageSpec PageProofs StaticSpec StaticProofs PropBlock.
Local Open Scope len_scope.

Notation page_in_place m_width := (page_kept m_width in_flow_spot in_line_spot stays).
Lemma collapsed_is l v : css_collapsed l v -> forall p n, greatest (l0 :: l) p -> least (l0 :: l) n -> v = p + n.
Proof.
  intros (p' & n' & [P1 P2] & [N1 N2] & ->) p n [Q1 Q2] [M1 M2]. f_equal; apply Qcle_antisym; auto.
Qed.
Ltac inv H := inversion H; clear H; subst; try discriminate.
Ltac peel := repeat match goal with
  | H : kept_boxes _ _ _ _ _ (_ :: _) _ |- _ => inv H
  | H : kept_boxes _ _ _ _ _ [] _ |- _ => inv H
  | H : kept _ _ _ _ _ (BlockLevelBoxes _) _ |- _ => inv H
  | H : spots _ _ _ _ _ (BlockLevelBoxes _) _ _ |- _ => inv H
  | H : spots_from _ _ _ _ _ _ [] _ _ |- _ => inv H
  | H : spots_from _ _ _ _ _ _ (_ :: _) _ _ |- _ => inv H
  | H : contents_of _ = Some _ |- _ => injection H as <- <-
  end.

(** An absolutely positioned box whose offsets are auto does not always stay where it would be in normal flow: it
    is too far to the left and too high by the padding of its containing block. *)
Definition auto_abs : style := set_sv bare Lposition PosAbsolute.
Definition auto_box : blb := BAbspos auto_abs (BFC false empty).
Definition padded_parent : style := set_sv (set_sv bare Lposition PosRelative) Lpadding_left (LPLen (px 5)).
Definition padded_page : bcontainer := BlockLevelBoxes [SameFC padded_parent (BlockLevelBoxes [auto_box])].
Theorem C80_padding_refuted : exists c viewport fs, wf_container c /\
  layout_root ex_ascent ex_descent mono (BFC false c) viewport = Ok fs /\ ~ page_in_place mono viewport c fs.
Proof.
  exists padded_page, view.
  assert (L : forall fs, page_in_place mono view padded_page fs -> exists f g h, fs = [f] /\ frag_children f = [g] ++ abs_group f [h] /\
    margin_left_edge h = v_inline (padding_start f) + l0).
  { intros fs (ch & ps & abs & E & Hk & Hs & Ha). unfold padded_page, auto_box, empty in *. peel.
    match goal with H : kept_abs _ _ _ _ _ [] _ |- _ => inv H end.
    match goal with H : kept_box _ _ _ _ _ _ _ |- _ => inv H end. peel.
    match goal with H : kept_abs _ _ _ _ _ _ _ |- _ => inv H end.
    repeat match goal with H : kept_abs _ _ _ _ _ [] _ |- _ => inv H end.
    match goal with H : stays _ _ _ _ |- _ => destruct H as [H _]; specialize (H (conj eq_refl eq_refl)) end.
    do 3 eexists. split; [reflexivity|]. split; [eassumption|]. assumption. }
  eexists. split; [cbn; tauto|]. split; [vm_compute; reflexivity|]. intros H. apply L in H.
  destruct H as (f & g & h & E1 & E2 & E3). injection E1 as <-. cbn [frag_children app abs_group] in E2.
  injection E2 as _ <-. apply (f_equal this) in E3. revert E3. vm_compute. discriminate.
Qed.
Print Assumptions C80_padding_refuted.
(** It is too high by the margin that ends at the bottom of the box in front of it. *)
Definition margin_page : bcontainer := BlockLevelBoxes [block 20 0 10; auto_box].
Theorem C80_margin_refuted : exists c viewport fs, wf_container c /\
  layout_root ex_ascent ex_descent mono (BFC false c) viewport = Ok fs /\ ~ page_in_place mono viewport c fs.
Proof.
  exists margin_page, view.
  assert (L : forall fs, page_in_place mono view margin_page fs -> exists f g h y, fs = [f; g; h] /\
    in_flow_spot (LALen (px 500)) false [(block 20 0 10, f)] y /\ margin_top_edge h = l0 + y).
  { intros fs (ch & ps & abs & E & Hk & Hs & Ha). unfold margin_page, auto_box, block, empty in *. peel.
    cbn [map app] in *.
    match goal with H : kept_abs _ _ _ _ _ _ _ |- _ => inv H end.
    repeat match goal with H : kept_abs _ _ _ _ _ [] _ |- _ => inv H end.
    match goal with H : stays _ _ _ _ |- _ => destruct H as [_ H]; specialize (H (conj eq_refl eq_refl)) end.
    do 4 eexists. split; [reflexivity|]. split; [eassumption|]. assumption. }
  eexists. split; [cbn; tauto|]. split; [vm_compute; reflexivity|]. intros H. apply L in H.
  destruct H as (f & g & h & y & E1 & E2 & E3). injection E1 as <- <- <-.
  unfold in_flow_spot in E2. cbn [andb] in E2. destruct E2 as (v & Hv & ->).
  apply (collapsed_is _ _) with (p := px 10) (n := l0) in Hv.
  - subst v. apply (f_equal this) in E3. revert E3. vm_compute. discriminate.
  - split; [vm_compute; tauto|]. intros x Hx. vm_compute in Hx. destruct Hx as [<-|[<-|[]]]; vm_compute; discriminate.
  - split; [vm_compute; tauto|]. intros x Hx. vm_compute in Hx. destruct Hx as [<-|[<-|[]]]; vm_compute; discriminate.
Qed.
Print Assumptions C80_margin_refuted.
(** In a line that is not aligned at the start, it is at the place it would have without the alignment. *)
Definition right_aligned : style := set_sv (set_sv bare Ltext_align TARight) Lwhite_space WSPre.
Definition aligned_page : bcontainer := InlineFC right_aligned [TextRun right_aligned (txt "ab") right_aligned; IAbspos auto_abs (BFC false empty)].
Theorem C80_alignment_refuted : exists c viewport fs, wf_container c /\
  layout_root ex_ascent ex_descent mono (BFC false c) viewport = Ok fs /\ ~ page_in_place mono viewport c fs.
Proof.
  exists aligned_page, view.
  assert (L : forall fs, page_in_place mono view aligned_page fs -> exists line h, fs = [line; h] /\
    margin_left_edge h = l0 + (v_inline (frag_start line) + mono right_aligned (txt "ab"))).
  { intros fs (ch & ps & abs & E & Hk & Hs & Ha). unfold aligned_page in *. inv Hs.

    match goal with H : boxes_spots _ _ _ _ _ _ _ |- _ => inversion H as [|? ? ? ? e1 es1 sp1 sps1 B1 B2]; subst; clear H end.
    inversion B1 as [|? ? ? ? ? ls R| |]; subst; clear B1.
    inversion B2 as [|? ? ? ? e2 es2 sp2 sps2 B3 B4]; subst; clear B2. inversion B3; subst; clear B3. inversion B4; subst; clear B4.
    assert (ls = split_nl (txt "ab")) as -> by (inversion R as [|? ? R']; subst; [reflexivity | contradiction R'; reflexivity]). clear R.
    match goal with H : Forall2 _ _ _ |- _ => inversion H as [|? [[st c] p] ? ? [Fs (line & Hn & Hp)] F]; subst; clear H; inversion F; subst; clear F end.
    match goal with H : map line_marks ch = _ |- _ => cbn in H; destruct ch as [|line1 [|]]; try discriminate; clear H end.
    cbn in Fs. injection Fs as -> ->. cbn in Hn. injection Hn as <-.
    match goal with H : kept_abs _ _ _ _ _ _ _ |- _ => inv H end.
    repeat match goal with H : kept_abs _ _ _ _ _ [] _ |- _ => inv H end.
    match goal with H : stays _ _ _ _ |- _ => destruct H as [H _]; specialize (H (conj eq_refl eq_refl)) end.
    cbn in Hp. subst p. do 2 eexists. split; [reflexivity|]. 
    match goal with H : margin_left_edge _ = _ |- _ => rewrite H end. cbn [v_inline vec2_zero].
    reflexivity. }
  eexists. split; [cbn; tauto|]. split; [vm_compute; reflexivity|]. intros H. apply L in H.
  destruct H as (line & h & E1 & E3). injection E1 as <- <-. apply (f_equal this) in E3. revert E3. vm_compute. discriminate.
Qed.
Print Assumptions C80_alignment_refuted.

(** What holds: every absolutely positioned box with auto offsets in an axis, at any depth, has its margin edge
    exactly at the bottom of the last box in front of it that does not collapse through, or behind the content in
    front of it in its line, in the coordinates of its containing block. *)
Theorem C80_exactly_partial : forall m_ascent m_descent m_width floats c viewport fs, wf_container c ->
  layout_root m_ascent m_descent m_width (BFC floats c) viewport = Ok fs ->
  page_kept m_width code_spot code_line_spot code_stays viewport c fs.
Proof. exact page_static. Qed.
Print Assumptions C80_exactly_partial.

(** This is where it would be in normal flow if no margin is pending there, the line starts at the edge of its
    container and the containing block has no padding there. *)
Definition right_spot (h : la) (open : bool) (pre : list (blb * fragment)) (y : Len) : Prop :=
  open && all_through (pair_sets h pre) = true \/ (forall x, In x (trailing (pair_sets h pre)) -> x = l0) -> in_flow_spot h open pre y.
Definition right_line_spot (st : style) (line : fragment) (x : Len) (p : vec2 Len) : Prop :=
  v_inline (frag_start line) = l0 -> in_line_spot st line x p.
Definition right_place (pad : vec2 Len) (st : style) (p : vec2 Len) (f : fragment) : Prop :=
  (v_inline pad = l0 -> both_auto (sv st Lleft) (sv st Lright) -> margin_left_edge f = v_inline pad + v_inline p) /\
  (v_block pad = l0 -> both_auto (sv st Ltop) (sv st Lbottom) -> margin_top_edge f = v_block pad + v_block p).
Theorem C80_partial : forall m_ascent m_descent m_width floats c viewport fs, wf_container c ->
  layout_root m_ascent m_descent m_width (BFC floats c) viewport = Ok fs ->
  page_kept m_width right_spot right_line_spot right_place viewport c fs.
Proof.
  intros ma md mw floats c viewport fs W E.
  apply (page_kept_mono mw code_spot _ code_line_spot _ code_stays).
  - intros h open pre y ->  H. unfold in_flow_spot.
    destruct (open && all_through (pair_sets h pre)) eqn:O.
    + apply andb_prop in O. destruct O as [_ O]. exact (bottom_through h pre O).
    + destruct H as [H|H]; [discriminate|]. exists l0. split; [|lring].
      exists l0, l0. split; [|split; [|lring]]; (split; [left; reflexivity|]); intros x [<-|Hx]; try apply Qcle_refl; rewrite (H x Hx); apply Qcle_refl.
  - intros st line x p H H0. unfold code_line_spot, in_line_spot in *. destruct (s_specified_display st) as [| |[]]; try exact I.
    rewrite H0, H. f_equal. lring.
  - intros pad st p f [H1 H2]. split; intros -> H; [rewrite (H1 H) | rewrite (H2 H)]; lring.
  - exact (page_static ma md mw floats c viewport fs W E).
Qed.
Print Assumptions C80_partial.
(** A page with absolutely positioned boxes behind a block, inside a box that is not positioned, and in the second
    line of a paragraph; their containing block is a relatively positioned box. *)
Definition pre_line : style := set_sv bare Lwhite_space WSPre.
Definition paragraph : bcontainer :=
  InlineFC pre_line [TextRun pre_line (txt "abc" ++ nl :: txt "de") pre_line; IAbspos auto_abs (BFC false empty); TextRun pre_line (txt "fg") pre_line].
Definition static_page : bcontainer :=
  BlockLevelBoxes [block 5 0 0;
    SameFC (set_sv bare Lposition PosRelative)
      (BlockLevelBoxes [block 20 0 0; auto_box; SameFC bare (BlockLevelBoxes [block 30 0 0; auto_box]); SameFC bare paragraph])].
Definition abs_q (f : fragment) : Q * Q := (this (margin_left_edge f), this (margin_top_edge f)).
Example C80_case : wf_container static_page /\
  match layout_root ex_ascent ex_descent mono (BFC false static_page) view with
  | Ok [_; FBox _ ch _ _ _ _ _] => match List.last ch (FAnon (Rect vec2_zero vec2_zero) []) with
                                   | FAnon _ l => map abs_q l = [(0, 20)%Q; (0, 50)%Q; (2, 346 # 5)%Q]
                                   | _ => False
                                   end
  | _ => False
  end.
Proof. split; [cbn; intuition; try discriminate; repeat constructor; discriminate | vm_compute; reflexivity]. Qed.
