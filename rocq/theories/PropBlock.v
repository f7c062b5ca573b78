(** Properties of block and positioned layout: C28-C34, C63.

    m_ascent, m_descent, m_width are the font metrics of the graphics device; the theorems hold for all of them.
    Box trees are well formed ([wf_blb], [wf_container], [wf_bfc]): absolutely positioned boxes inside inline
    content have a style that generates a box, which is what box construction gives (PropTree). *)
From Verif Require Import BlockModel InlineSpec InlineProofs GeomSpec GeomProofs BlockSpec BlockFrame BlockGen BlockStack BlockProofs BlockFlow BlockAbs BlockRel BlockMove PageSpec PageProofs.
Local Open Scope len_scope.

(* ------------------------------------------------------------------ *)
(** * Concrete cases, used beside the theorems *)
Definition mono : style -> text -> Len := fun _ t => px (Z.of_nat (List.length t) # 1).
Definition ex_ascent : style -> Len := fun _ => px 8.
Definition ex_descent : style -> Len := fun _ => px 2.
(** no borders *)
Definition bare : style :=
  set_sv (set_sv (set_sv (set_sv initial_style Lborder_left_width (LPLen l0)) Lborder_right_width (LPLen l0))
    Lborder_top_width (LPLen l0)) Lborder_bottom_width (LPLen l0).
Definition with_margins (st : style) (t b : Q) : style := set_sv (set_sv st Lmargin_top (LPALen (px t))) Lmargin_bottom (LPALen (px b)).
Definition with_height (st : style) (h : Q) : style := set_sv st Lheight (LPALen (px h)).
Definition with_width (st : style) (w : Q) : style := set_sv st Lwidth (LPALen (px w)).
Definition with_side_margins (st : style) (l r : lpa Len) : style := set_sv (set_sv st Lmargin_left l) Lmargin_right r.
Definition empty : bcontainer := BlockLevelBoxes [].
Definition block (h mt mb : Q) : blb := SameFC (with_height (with_margins bare mt mb) h) empty.
Definition thin (mt mb : Q) : blb := SameFC (with_margins bare mt mb) empty.
Definition abspos : blb := BAbspos (set_sv bare Lposition PosAbsolute) (BFC false (BlockLevelBoxes [block 7 1 1])).
(** a padded box with two blocks, a box that collapses through and an absolutely positioned one between them *)
Definition nest : blb :=
  SameFC (set_sv (with_margins bare 2 2) Lpadding_bottom (LPLen (px 1)))
    (BlockLevelBoxes [block 10 5 8; thin 3 (-2); abspos; block 20 4 6]).
Definition page : bfc := BFC false (BlockLevelBoxes [nest; block 5 9 1]).
Definition view : vec2 Len := Vec2 (px 100) (px 500).
Definition ex_root (root : bfc) := layout_root ex_ascent ex_descent mono root view.
Definition ex_lay (b : blb) := layout_blb ex_ascent ex_descent mono b (CBlock (px 100) LAAuto) O [] false.
Definition rect_q (r : rect Len) : Q * Q * Q * Q :=
  (this (v_inline (r_start r)), this (v_block (r_start r)), this (v_inline (r_size r)), this (v_block (r_size r))).
Definition frag_q (f : fragment) : Q * Q * Q * Q :=
  match f with FBox _ _ r _ _ _ _ => rect_q r | FAnon r _ => rect_q r | FText _ r _ _ => rect_q r end.

(* ------------------------------------------------------------------ *)
(** * C28 *)

(** In a block container, successive boxes that do not collapse through are separated by exactly the collapsed
    value of the margins between them; the first is at the top if its margin collapses with the container's
    ([col]), else below the collapsed value of the margins in front of it; the content ends at the last one. *)
Theorem C28_siblings : forall m_ascent m_descent m_width l cb rank abs floats col fl abs',
  wf_container (BlockLevelBoxes l) ->
  layout_container m_ascent m_descent m_width (BlockLevelBoxes l) cb rank abs floats col = Ok (fl, abs') ->
  List.length (fl_fragments fl) = List.length l /\
  stacked (cb_block cb) l (fl_fragments fl) /\
  first_child (cb_block cb) col l (fl_fragments fl) /\
  fl_block_size fl = last_bottom (cb_block cb) (combine l (fl_fragments fl)).
Proof.
  intros ma md mw l cb rank abs floats col fl abs' W E. pose proof (container_stacked _ _ _ _ _ _ _ _ _ _ _ W E) as P.
  destruct (children_stacked _ _ _ _ [] P) as [S1 S2]. rewrite app_nil_r in S1, S2.
  split; [exact (children_length _ _ _ _ P)|]. split; [exact S1|]. split; [exact S2 | exact (children_bottom _ _ _ _ P)].
Qed.
Print Assumptions C28_siblings.

(** The same in every block container of a page, at any depth; the content height of every box is its height, or
    if that is auto the bottom of the last box plus the margins that do not collapse with those of the box. *)
Theorem C28_everywhere : forall m_ascent m_descent m_width floats c viewport fs, wf_container c ->
  layout_root m_ascent m_descent m_width (BFC floats c) viewport = Ok fs ->
  page_laid block_ok (fun _ _ _ => True) viewport c fs /\
  match c with
  | BlockLevelBoxes l => stacked (LALen (v_block viewport)) l fs /\ first_child (LALen (v_block viewport)) false l fs
  | InlineFC _ _ => True
  end.
Proof.
  intros ma md mw floats c viewport fs W E. split.
  - exact (page_everywhere ma md mw block_ok _ block_ok_put (block_ok_laid ma md mw) (fun _ _ _ _ _ => I) _ (fun _ _ _ _ _ _ _ _ _ => I) floats c viewport fs W E).
  - destruct c as [l|]; [|exact I]. unfold layout_root in E.
    destruct (layout_bfc _ _ _ _ _ _ _) as [[fl abs]| |] eqn:El; cbn [bind] in E; try discriminate.
    destruct (mapR _ abs) as [fs'| |]; cbn [bind] in E; try discriminate. injection E as <-.
    apply bfc_inv in El. destruct El as (fl1 & El & -> & _).
    pose proof (container_stacked _ _ _ _ _ _ _ _ _ _ _ W El) as P. exact (children_stacked _ _ _ _ fs' P).
Qed.
Print Assumptions C28_everywhere.

(** With non-negative margins successive boxes do not overlap. *)
Theorem C28_no_overlap : forall h l fs pre bf1 mid bf2 post i1 i2, stacked h l fs ->
  combine l fs = pre ++ bf1 :: mid ++ bf2 :: post ->
  stands h bf1 i1 -> stands h bf2 i2 -> Forall (vanishes h) mid ->
  Forall (fun m => l0 <= m) (ms_end i1 ++ flat_map ms_all (pair_sets h mid) ++ ms_start i2) ->
  border_bottom h (snd bf1) <= border_top h (snd bf2).
Proof.
  intros h l fs pre bf1 mid bf2 post i1 i2 S E S1 S2 V N.
  destruct (S _ _ _ _ _ _ _ E S1 S2 V) as (v & (p & n & [Hp Gp] & [Hn _] & ->) & ->).
  assert (Hp0 : l0 <= p) by (apply Gp; left; reflexivity).
  assert (Hn0 : l0 <= n). { destruct Hn as [<-|Hn]; [apply Qcle_refl|]. rewrite Forall_forall in N. exact (N n Hn). }
  lenq.
Qed.
Print Assumptions C28_no_overlap.
(** The gap between the two inner blocks is max(8, 3, 4) + min(-2) = 6; the box that collapses through and the
    absolutely positioned one take no space; the content ends 6 below the last one, since there is padding. *)
Example C28_case : wf_bfc page /\
  match ex_root page with
  | Ok [FBox _ [a; b; c; d] r _ _ _ _; e; _] =>
      map frag_q [a; b; c; d; e] = [(0, 0, 100, 10); (0, 18, 100, 0); (0, 10, 0, 0); (0, 16, 100, 20); (0, 57, 100, 5)]%Q /\
      rect_q r = (0, 5, 100, 42)%Q
  | _ => False
  end.
Proof. split; [cbn; tauto|]. vm_compute. split; reflexivity. Qed.

(* ------------------------------------------------------------------ *)
(** * C29 *)

Notation everywhere P := (page_laid P (fun _ _ _ => True)).
Lemma every_horizontal (P : cblock -> blb -> fragment -> Prop) :
  (forall cb b f, horizontal cb b f -> P cb b f) -> (forall cb b f y, P cb b f -> P cb b (put_top y f)) ->
  forall m_ascent m_descent m_width floats c viewport fs, wf_container c ->
  layout_root m_ascent m_descent m_width (BFC floats c) viewport = Ok fs -> everywhere P viewport c fs.
Proof.
  intros H HS ma md mw floats c viewport fs W E. apply (page_everywhere ma md mw P _ HS) with (floats := floats); [| | |exact W | exact E].
  - intros b cb rank abs fl f abs' _ Hb Eb. apply H. exact (horizontal_laid ma md mw b cb rank abs fl f abs' Hb Eb).
  - intros. exact I.
  - intros. exact I.
Qed.
Lemma extent_put y f : horizontal_extent (put_top y f) = horizontal_extent f.
Proof. destruct f as [? ? [[? ?] ?] ? ? ? ?| |]; reflexivity. Qed.

(** The horizontal equation fails where a width is specified together with a margin other than 0: the code
    forgets the specified margin when it computes the other one. *)
Theorem C29_refuted : exists c viewport fs, wf_container c /\
  layout_root ex_ascent ex_descent mono (BFC false c) viewport = Ok fs /\
  ~ everywhere box_equation viewport c fs.
Proof.
  exists (BlockLevelBoxes [SameFC (with_side_margins (with_width bare 50) (LPALen (px 10)) LPAAuto) empty]), view.
  eexists. split; [cbn; tauto|]. split; [vm_compute; reflexivity|].
  intros (ch & abs & E & Hc & Ha). cbn in Ha. inversion Ha; subst. rewrite app_nil_r in E. subst ch.
  inversion Hc as [? ? ? Hb|]; subst. inversion Hb as [|? ? ? ? ? H1 _]; subst. inversion H1 as [|? ? ? ? ? ? ? _ H _ _ _]; subst. apply (f_equal this) in H. revert H. vm_compute. discriminate.
Qed.
Print Assumptions C29_refuted.
(** Otherwise it holds, for every in-flow box of the page against the content box of its parent: with an auto
    width, with both margins auto, and with specified margins if the left one (or if that is auto the right one)
    is 0. *)
Definition no_forgotten_margin {ar : Arith} (w : Len) (st : style) : Prop :=
  resolve w (sv st Lwidth) = None \/
  match resolve w (sv st Lmargin_left), resolve w (sv st Lmargin_right) with
  | None, None => True
  | None, Some e => e = l0
  | Some s, _ => s = l0
  end.
Theorem C29_box_equation_partial : forall m_ascent m_descent m_width floats c viewport fs, wf_container c ->
  layout_root m_ascent m_descent m_width (BFC floats c) viewport = Ok fs ->
  everywhere (fun cb b f => no_forgotten_margin (cb_inline cb) (box_style b) -> horizontal_extent f = cb_inline cb)
    viewport c fs.
Proof.
  apply every_horizontal.
  - intros cb b f H Hn. destruct f as [st ch r p bd m cm| |]; try contradiction. destruct H as (_ & -> & _).
    unfold surplus. unfold no_forgotten_margin in Hn. destruct (resolve (cb_inline cb) (sv (box_style b) Lwidth)); [|ring].
    destruct Hn as [Hn|Hn]; [discriminate|].
    destruct (resolve (cb_inline cb) (sv (box_style b) Lmargin_left)), (resolve (cb_inline cb) (sv (box_style b) Lmargin_right)); subst; ring.
  - intros cb b f d H. rewrite extent_put. exact H.
Qed.
Print Assumptions C29_box_equation_partial.
(** In general it is off by exactly the forgotten margin. *)
Definition forgotten_margin (w : Len) (st : style) : Len :=
  match resolve w (sv st Lwidth), resolve w (sv st Lmargin_left), resolve w (sv st Lmargin_right) with
  | Some _, Some s, _ => s
  | Some _, None, Some e => e
  | _, _, _ => l0
  end.
Theorem C29_exact : forall m_ascent m_descent m_width floats c viewport fs, wf_container c ->
  layout_root m_ascent m_descent m_width (BFC floats c) viewport = Ok fs ->
  everywhere (fun cb b f => horizontal_extent f = cb_inline cb + forgotten_margin (cb_inline cb) (box_style b))
    viewport c fs.
Proof.
  apply every_horizontal.
  - intros cb b f H. destruct f as [st ch r p bd m cm| |]; try contradiction. destruct H as (_ & -> & _).
    unfold surplus, forgotten_margin. destruct (resolve (cb_inline cb) (sv (box_style b) Lwidth)); [|reflexivity].
    destruct (resolve (cb_inline cb) (sv (box_style b) Lmargin_left)), (resolve (cb_inline cb) (sv (box_style b) Lmargin_right)); reflexivity.
  - intros cb b f d H. rewrite extent_put. exact H.
Qed.
Print Assumptions C29_exact.
(** The extents themselves, whatever the rounding of lengths. *)
Theorem C29_used_values {ar : Arith} {Z : ZeroLaws ar} : forall m_ascent m_descent m_width floats c viewport fs, wf_container c ->
  layout_root m_ascent m_descent m_width (BFC floats c) viewport = Ok fs ->
  everywhere used_values viewport c fs.
Proof.
  intros ma md mw floats c viewport fs W E. eapply page_everywhere; [| | | |exact W|exact E]; try (intros; exact I).
  - intros cb b f d H. unfold used_values in *. destruct f as [st ch r p bd m cm| |]; try contradiction. exact H.
  - intros b cb rank abs fl f abs' _ Hb Eb. destruct b as [st c0|st c0|st c0|st c0]; try discriminate; cbn [layout_blb] in Eb; apply in_flow_inv in Eb;
      destruct Eb as (fl1 & abs1 & extra & _ & -> & _); apply used_in_flow; reflexivity.
Qed.
Print Assumptions C29_used_values.
Example C29_case :
  let st := set_sv (with_side_margins bare (LPALen (px 10)) (LPAPct (px (1 # 20)))) Lpadding_left (LPPct (px (1 # 10))) in
  let c := BlockLevelBoxes [SameFC st (BlockLevelBoxes [SameFC (with_width bare 30) empty])] in
  wf_container c /\ no_forgotten_margin (px 100) st /\
  match ex_root (BFC false c) with
  | Ok [FBox _ [f] r _ _ _ _] => rect_q r = (20, 0, 75, 0)%Q /\ frag_q f = (0, 0, 30, 0)%Q
  | _ => False
  end.
Proof. cbv zeta. split; [cbn; tauto|]. split; [left; reflexivity|]. vm_compute. split; reflexivity. Qed.

(* ------------------------------------------------------------------ *)
(** * C30 *)

(** A box with a width and auto horizontal margins is centred: both margins are equal, and together with the
    border box they fill the containing block. *)
Theorem C30_centred : forall m_ascent m_descent m_width floats c viewport fs, wf_container c ->
  layout_root m_ascent m_descent m_width (BFC floats c) viewport = Ok fs ->
  everywhere (fun cb b f =>
    forall x, resolve (cb_inline cb) (sv (box_style b) Lwidth) = Some x ->
    sv (box_style b) Lmargin_left = LPAAuto -> sv (box_style b) Lmargin_right = LPAAuto ->
    match f with
    | FBox _ _ r p bd m _ =>
        s_inline_start m = s_inline_end m /\ v_inline (r_size r) = x /\ horizontal_extent f = cb_inline cb
    | _ => False
    end) viewport c fs.
Proof.
  apply every_horizontal.
  - intros cb b f H x Hx Hl Hr. destruct f as [st ch r p bd m cm| |]; try contradiction.
    destruct H as (_ & H1 & _ & _ & H4 & _ & _ & _ & _ & H9 & _).
    assert (E1 : resolve (cb_inline cb) (sv (box_style b) Lmargin_left) = None) by (rewrite Hl; reflexivity).
    assert (E2 : resolve (cb_inline cb) (sv (box_style b) Lmargin_right) = None) by (rewrite Hr; reflexivity).
    split; [exact (H9 x Hx E1 E2)|]. split; [exact (H4 x Hx)|]. rewrite H1. unfold surplus. rewrite Hx, E1, E2. ring.
  - intros cb b f d H x Hx Hl Hr. specialize (H x Hx Hl Hr). destruct f as [st ch r p bd m cm| |]; exact H.
Qed.
Print Assumptions C30_centred.
(** one box narrower and one wider than its containing block *)
Example C30_case :
  let st w := with_side_margins (with_width bare w) LPAAuto LPAAuto in
  let c := BlockLevelBoxes [SameFC (st 30%Q) (BlockLevelBoxes [Indep (st 50%Q) (BFC false empty)])] in
  wf_container c /\
  match ex_root (BFC false c) with
  | Ok [FBox _ [f] r _ _ _ _] => rect_q r = (35, 0, 30, 0)%Q /\ frag_q f = ((-10), 0, 50, 0)%Q
  | _ => False
  end.
Proof. cbv zeta. split; [cbn; tauto|]. vm_compute. split; reflexivity. Qed.

(* ------------------------------------------------------------------ *)
(** * C32 *)

Lemma no_escape ma md mw b : wf_blb b -> in_flow b = true ->
  match contents_of b with Some (c, _) => escaping c = [] | None => False end -> none_escape ma md mw b.
Proof.
  destruct (page_all ma md mw (fun _ _ _ => True) (fun _ _ _ => True) (fun _ _ _ _ H => H) (fun _ _ _ _ _ _ _ _ _ _ => I) (fun _ _ _ _ _ => I) (fun _ _ _ _ => True) (fun _ _ _ _ _ _ _ _ _ => I)) as (_ & Hc & _).
  intros W Hf He. destruct b as [st c|st c|st c|st [fl c]]; try discriminate; cbn [contents_of] in He; cbn [none_escape].
  - intros cb floats col fl abs E. destruct (proj2 (Hc c W) _ _ _ _ _ _ _ E) as (_ & g & -> & H). rewrite He in H. inversion H. reflexivity.
  - intros cb fl1 abs E. apply bfc_inv in E. destruct E as (fl2 & E & _). destruct (proj2 (Hc c W) _ _ _ _ _ _ _ E) as (_ & g & -> & H).
    rewrite He in H. inversion H. reflexivity.
Qed.
(** Giving an in-flow box other values of position, top, right, bottom and left (position static or relative)
    moves its fragment and changes nothing else in the container: the fragments before and behind it, the size,
    the margins and the absolutely positioned boxes are the same.  It moves by the difference of the offsets.
    Provided that no absolutely positioned box changes its containing block by this. *)
Theorem C32_moves_only_itself_partial : forall m_ascent m_descent m_width pre b post cb rank abs floats col pos t r bo l,
  in_flow b = true -> wf_container (BlockLevelBoxes (pre ++ b :: post)) ->
  let st := box_style b in
  let st' := repositioned st pos t r bo l in
  (positioned st' = positioned st \/ match contents_of b with Some (c, _) => escaping c = [] | None => False end) ->
  exists A f B bs cm abs',
    let dx := v_inline (own_offset st' cb f) - v_inline (own_offset st cb f) in
    let dy := v_block (own_offset st' cb f) - v_block (own_offset st cb f) in
    layout_container m_ascent m_descent m_width (BlockLevelBoxes (pre ++ b :: post)) cb rank abs floats col =
      Ok (Flow (A ++ f :: B) bs cm, abs') /\
    layout_container m_ascent m_descent m_width (BlockLevelBoxes (pre ++ restyled b st' :: post)) cb rank abs floats col =
      Ok (Flow (A ++ moved st' dx dy f :: B) bs cm, abs') /\
    List.length A = List.length pre.
Proof.
  intros ma md mw pre b post cb rank abs floats col pos t r bo l Hf W st st' Hp.
  apply (relative_moves_one ma md mw pre b post cb rank abs floats col pos t r bo l Hf W).
  destruct Hp as [Hp|Hp]; [left | right].
  - unfold st', positioned in Hp. cbn in Hp. fold st. destruct pos, (sv st Lposition); try discriminate; reflexivity.
  - apply no_escape; [|exact Hf | exact Hp]. cbn [wf_container] in W. rewrite wf_list_app in W. destruct W as [_ [W _]]. exact W.
Qed.
Print Assumptions C32_moves_only_itself_partial.
(** For offsets given as lengths the offset is that of CSS 2.2, 9.4.3. *)
Theorem C32_length_offsets_partial : forall st cb f t r bo l,
  let st' := repositioned st PosRelative (LPALen t) (LPALen r) (LPALen bo) (LPALen l) in
  match f with FBox _ _ _ _ _ _ _ => True | _ => False end ->
  own_offset st' cb f = Vec2 l t /\
  own_offset (set_sv st' Lleft LPAAuto) cb f = Vec2 (- r) t /\
  own_offset (set_sv st' Ltop LPAAuto) cb f = Vec2 l (- bo) /\
  own_offset (set_sv (set_sv st' Lleft LPAAuto) Lright LPAAuto) cb f = Vec2 l0 t /\
  own_offset (set_sv (set_sv st' Ltop LPAAuto) Lbottom LPAAuto) cb f = Vec2 l l0.
Proof. intros st cb f t r bo l st' Hf. destruct f; try contradiction. repeat split. Qed.
Print Assumptions C32_length_offsets_partial.
(** Percentages are of the box's own size, not of the containing block's: left: 10% on a box of width 50 in a
    containing block of width 100 moves it by 5. *)
Theorem C32_percentage_refuted : exists b cb f f' a a',
  let st := box_style b in
  in_flow b = true /\ wf_blb b /\ sv st Lposition = PosStatic /\ cb_inline cb = px 100 /\
  layout_blb ex_ascent ex_descent mono b cb O [] false = Ok (f, a) /\
  layout_blb ex_ascent ex_descent mono
    (restyled b (repositioned st PosRelative LPAAuto LPAAuto LPAAuto (LPAPct (px (1 # 10))))) cb O [] false = Ok (f', a') /\
  margin_left_edge f' <> margin_left_edge f + cb_inline cb * px (1 # 10).
Proof.
  exists (SameFC (with_width bare 50) empty), (CBlock (px 100) LAAuto). eexists _, _, _, _. cbv zeta.
  split; [reflexivity|]. split; [cbn; tauto|]. split; [reflexivity|]. split; [reflexivity|]. split; [vm_compute; reflexivity|]. split; [vm_compute; reflexivity|].
  intros H. apply (f_equal this) in H. revert H. vm_compute. discriminate.
Qed.
Print Assumptions C32_percentage_refuted.
Example C32_case :
  let b := block 10 2 3 in
  let st' := repositioned (box_style b) PosRelative (LPALen (px 4)) LPAAuto LPAAuto (LPALen (px (-7))) in
  in_flow b = true /\ escaping empty = [] /\ wf_container (BlockLevelBoxes ([nest] ++ b :: [thin 1 1; block 5 1 1])) /\
  match ex_root (BFC false (BlockLevelBoxes ([nest] ++ b :: [thin 1 1; block 5 1 1]))),
        ex_root (BFC false (BlockLevelBoxes ([nest] ++ restyled b st' :: [thin 1 1; block 5 1 1]))) with
  | Ok fs, Ok fs' =>
      map frag_q (firstn 4 fs) = [(0, 5, 100, 42); (0, 50, 100, 10); (0, 63, 100, 0); (0, 63, 100, 5)]%Q /\
      map frag_q (firstn 4 fs') = [(0, 5, 100, 42); (-7, 54, 100, 10); (0, 63, 100, 0); (0, 63, 100, 5)]%Q
  | _, _ => False
  end.
Proof. cbv zeta. split; [reflexivity|]. split; [reflexivity|]. split; [cbn; tauto|]. vm_compute. split; reflexivity. Qed.

(* ------------------------------------------------------------------ *)
(** * C33, C64 *)

Lemma kinds c s e size ms me ds de de' x :
  axis_ok c (absolute_box_offsets x s e) size ms me ds de ->
  (match s, e with LPAAuto, LPAAuto => True | LPAAuto, _ => de' = de | _, LPAAuto => True | _, _ => de' = de end) ->
  inset_ok c s e size ms me ds de'.
Proof.
  unfold inset_ok, axis_ok, absolute_box_offsets. intros H K. destruct s, e; cbn [lpa_non_auto resolve resolve_lp] in *; try exact I; try exact H; rewrite K; exact H.
Qed.
Lemma kinds_block c c' s e size ms me ds de x :
  axis_ok c (absolute_box_offsets x s e) size ms me ds de ->
  match s, e with LPAAuto, LPAAuto => True | LPAAuto, LPALen _ => True | LPALen _, LPAAuto => True | _, _ => False end ->
  inset_ok c' s e size ms me ds de.
Proof.
  unfold inset_ok, axis_ok, absolute_box_offsets. intros H K. destruct s, e; try contradiction; first [exact I | exact H].
Qed.
Lemma page_abs {ar : Arith} {Z : ZeroLaws ar} (A : vec2 Len -> style -> fragment -> Prop) :
  (forall ma md mw st c size f, ends_at ma md mw st c size f -> A size st f) ->
  forall m_ascent m_descent m_width floats c viewport fs, wf_container c ->
  layout_root m_ascent m_descent m_width (BFC floats c) viewport = Ok fs -> page_laid (fun _ _ _ => True) A viewport c fs.
Proof.
  intros H ma md mw floats c viewport fs W E. apply (page_everywhere ma md mw _ A) with (floats := floats); try assumption; auto.
  intros st c' size f. apply H.
Qed.

(** Every absolutely positioned box that is not in a float is laid out once, in tree order, against the padding
    box of the nearest positioned ancestor, or against the viewport; percentages of its padding, borders and
    margins are of the containing block's width; its specified width is honoured. *)
Theorem C64_containing_block {ar : Arith} {Z : ZeroLaws ar} : forall m_ascent m_descent m_width floats c viewport fs, wf_container c ->
  layout_root m_ascent m_descent m_width (BFC floats c) viewport = Ok fs ->
  page_laid (fun _ _ _ => True) abs_used_values viewport c fs.
Proof. apply page_abs. intros ma md mw st c size f (x & y & E). exact (abs_layout_used _ _ _ _ _ _ E). Qed.
Print Assumptions C64_containing_block.

(** The constraint equation fails in the block axis if both top and bottom are given: it is solved against the
    width of the containing block. *)
Theorem C33_block_refuted : exists c viewport fs, wf_container c /\
  layout_root ex_ascent ex_descent mono (BFC false c) viewport = Ok fs /\
  ~ page_laid (fun _ _ _ => True) vertical_inset_ok viewport c fs.
Proof.
  exists (BlockLevelBoxes [BAbspos (set_sv (set_sv (set_sv bare Lposition PosAbsolute) Ltop (LPALen l0)) Lbottom (LPALen l0)) (BFC false empty)]), view.
  eexists. split; [cbn; tauto|]. split; [vm_compute; reflexivity|].
  intros (ch & abs & E & Hc & Ha). inversion Hc as [? ? ? Hb|]; subst. inversion Hb as [|? ? ? ? ? H1 H2]; subst. inversion H2; subst.
  cbn [app] in E. injection E as _ E. subst abs. cbn in Ha. inversion Ha as [|? ? ? ? ? ? ? ? ? ? H _ _ _ _ _]; subst.
  unfold vertical_inset_ok, inset_ok in H. cbn in H. destruct H as [_ H]. specialize (H (or_introl eq_refl)). apply (f_equal this) in H. revert H. vm_compute. discriminate.
Qed.
Print Assumptions C33_block_refuted.
(** It fails in the inline axis if right is given and left is auto: the distance is taken from the height of the
    containing block. *)
Theorem C33_inline_refuted : exists c viewport fs, wf_container c /\
  layout_root ex_ascent ex_descent mono (BFC false c) viewport = Ok fs /\
  ~ page_laid (fun _ _ _ => True) horizontal_inset_ok viewport c fs.
Proof.
  exists (BlockLevelBoxes [BAbspos (set_sv (set_sv (with_width bare 20) Lposition PosAbsolute) Lright (LPALen l0)) (BFC false empty)]), view.
  eexists. split; [cbn; tauto|]. split; [vm_compute; reflexivity|].
  intros (ch & abs & E & Hc & Ha). inversion Hc as [? ? ? Hb|]; subst. inversion Hb as [|? ? ? ? ? H1 H2]; subst. inversion H2; subst.
  cbn [app] in E. injection E as _ E. subst abs. cbn in Ha. inversion Ha as [|? ? ? ? ? ? ? ? ? ? H _ _ _ _ _]; subst.
  unfold horizontal_inset_ok, inset_ok in H. cbn in H. apply (f_equal this) in H. revert H. vm_compute. discriminate.
Qed.
Print Assumptions C33_inline_refuted.
(** Otherwise it holds: in the inline axis unless left is auto and right is not; in the block axis for one of top
    and bottom, as a length; in both axes if the containing block is square. *)
Theorem C33_partial : forall m_ascent m_descent m_width floats c viewport fs, wf_container c ->
  layout_root m_ascent m_descent m_width (BFC floats c) viewport = Ok fs ->
  page_laid (fun _ _ _ => True) (fun size st f =>
    (sv st Lleft <> LPAAuto \/ sv st Lright = LPAAuto -> horizontal_inset_ok size st f) /\
    (match sv st Ltop, sv st Lbottom with
     | LPAAuto, LPAAuto | LPAAuto, LPALen _ | LPALen _, LPAAuto => True
     | _, _ => False
     end -> vertical_inset_ok size st f) /\
    (v_inline size = v_block size -> horizontal_inset_ok size st f /\ vertical_inset_ok size st f)) viewport c fs.
Proof.
  apply page_abs. intros ma md mw st c size f (x & y & E). apply abs_layout_axes in E.
  destruct E as (ch & r & p & bd & m & -> & _ & _ & _ & _ & _ & _ & _ & _ & HI & HB).
  unfold horizontal_inset_ok, vertical_inset_ok. split; [|split].
  - intros Hn. eapply kinds; [exact HI|]. unfold absolute_box_offsets.
    destruct (sv st Lleft), (sv st Lright); cbn [lpa_non_auto]; try exact I; try reflexivity; destruct Hn as [Hn|Hn]; try discriminate; contradiction Hn; reflexivity.
  - intros Hn. assert (HB' := kinds_block _ (v_block size) _ _ _ _ _ _ _ _ HB Hn). unfold absolute_box_offsets in HB'.
    destruct (sv st Ltop), (sv st Lbottom); try contradiction; cbn [lpa_non_auto] in HB'; exact HB'.
  - intros Hs. rewrite <- Hs in *. split.
    + eapply kinds; [exact HI|]. unfold absolute_box_offsets. destruct (sv st Lleft), (sv st Lright); cbn [lpa_non_auto]; reflexivity || exact I.
    + eapply kinds; [exact HB|]. unfold absolute_box_offsets. destruct (sv st Ltop), (sv st Lbottom); cbn [lpa_non_auto]; reflexivity || exact I.
Qed.
Print Assumptions C33_partial.

(** one box with left and right in a relatively positioned one with padding, nested another one; and one in the
    viewport, which is not square *)
Example C33_case :
  let abs_st := set_sv bare Lposition PosAbsolute in
  let inner := BAbspos (set_sv (set_sv (set_sv abs_st Lleft (LPALen (px 2))) Lright (LPAPct (px (1 # 10)))) Ltop (LPALen (px 3)))
    (BFC false (BlockLevelBoxes [block 4 0 0; BAbspos (set_sv abs_st Lbottom (LPALen (px 1))) (BFC false (BlockLevelBoxes [block 1 0 0]))])) in
  let host := SameFC (set_sv (set_sv (with_height bare 60) Lposition PosRelative) Lpadding_left (LPLen (px 10))) (BlockLevelBoxes [block 5 0 0; inner]) in
  let c := BlockLevelBoxes [host; inner] in
  wf_container c /\
  match ex_root (BFC false c) with
  | Ok [FBox _ [_; _; FAnon pr [FBox _ [_; _; FAnon pr' [f']] r _ _ _ _]] _ _ _ _ _; _; FBox _ _ r2 _ _ _ _] =>
      rect_q pr = (-10, 0, 100, 60)%Q /\ rect_q r = (2, 3, 88, 4)%Q /\ rect_q pr' = (0, 0, 88, 4)%Q /\ frag_q f' = (0, 2, 88, 1)%Q /\
      rect_q r2 = (2, 3, 88, 4)%Q
  | _ => False
  end.
Proof. cbv zeta. split; [cbn; tauto|]. vm_compute. repeat split. Qed.

(* ------------------------------------------------------------------ *)
(** * C34 *)

(** Absolutely positioned and floated boxes take no space: the page without them has the same in-flow fragments,
    at the same places and of the same sizes. *)
Theorem C34_page {ar : Arith} {Z : ZeroLaws ar} : forall m_ascent m_descent m_width floats c viewport, wf_container c ->
  exists fs fs', layout_root m_ascent m_descent m_width (BFC floats c) viewport = Ok fs /\
    layout_root m_ascent m_descent m_width (BFC floats (strip_container c)) viewport = Ok fs' /\
    same_children c fs fs'.
Proof.
  intros ma md mw floats c viewport W.
  destruct (proj2 (strips_all ma md mw) c W (CBlock (v_inline viewport) (LALen (v_block viewport))) false) as (fl & fl' & g & Tg & E & E' & _ & _ & Hsame).
  unfold flow_framed_as in E, E'.
  destruct (mapR_total (fun a => af_layout a (af_inline a) (af_block a) viewport) (map (with_rank O) g)) as (afs & Ea).
  { intros a Ha. apply in_map_iff in Ha. destruct Ha as (a' & <- & Ha). rewrite Forall_forall in Tg. apply (Tg a' Ha). }
  exists (fl_fragments fl ++ afs), (fl_fragments fl'). split; [|split].
  - unfold layout_root. change (layout_bfc ma md mw (BFC floats c)) with (fun cb rank abs => bfc_finish (layout_container ma md mw c cb rank abs floats false)).
    cbv beta. rewrite E. cbn [bfc_finish bind app]. rewrite Ea. cbn [bind fl_fragments]. reflexivity.
  - unfold layout_root. change (layout_bfc ma md mw (BFC floats (strip_container c))) with (fun cb rank abs => bfc_finish (layout_container ma md mw (strip_container c) cb rank abs floats false)).
    cbv beta. rewrite E'. cbn [bfc_finish bind app map mapR fl_fragments]. rewrite app_nil_r. reflexivity.
  - apply Hsame.
Qed.
Print Assumptions C34_page.
(** So for every container in every state of the layout; its size and margins are the same. *)
Theorem C34_container {ar : Arith} {Z : ZeroLaws ar} : forall m_ascent m_descent m_width c cb rank abs floats col, wf_container c ->
  exists fl fl' g, layout_container m_ascent m_descent m_width c cb rank abs floats col = Ok (fl, abs ++ g) /\
    layout_container m_ascent m_descent m_width (strip_container c) cb rank abs floats col = Ok (fl', abs) /\
    fl_block_size fl' = fl_block_size fl /\ fl_margins fl' = fl_margins fl /\
    same_children c (fl_fragments fl) (fl_fragments fl').
Proof.
  intros ma md mw c cb rank abs floats col W.
  destruct (proj2 (strips_all ma md mw) c W cb col) as (fl & fl' & g & _ & E & E' & H1 & H2 & H3).
  exists fl, fl', (map (with_rank rank) g). split; [exact (E rank abs floats)|]. split; [rewrite (E' rank abs floats); cbn [map]; rewrite app_nil_r; reflexivity|].
  split; [exact H1|]. split; [exact H2|]. specialize (H3 []). rewrite app_nil_r in H3. exact H3.
Qed.
Print Assumptions C34_container.
Example C34_case :
  wf_container (BlockLevelBoxes [abspos; nest; BFloat bare (BFC false (BlockLevelBoxes [block 1 1 1])); block 5 9 1]) /\
  strip_container (BlockLevelBoxes [abspos; nest; BFloat bare (BFC false (BlockLevelBoxes [block 1 1 1])); block 5 9 1]) =
    BlockLevelBoxes [SameFC (box_style nest) (BlockLevelBoxes [block 10 5 8; thin 3 (-2); block 20 4 6]); block 5 9 1].
Proof. split; [cbn; tauto | reflexivity]. Qed.

(* ------------------------------------------------------------------ *)
(** * C31, C63 *)

(** Layout of a well-formed page never fails: no assertion, no unreachable branch, no index out of range. *)
Theorem C31_layout_never_fails {ar : Arith} {Z : ZeroLaws ar} : forall m_ascent m_descent m_width root viewport, wf_bfc root ->
  exists fs, layout_root m_ascent m_descent m_width root viewport = Ok fs.
Proof. exact layout_root_ok. Qed.
Print Assumptions C31_layout_never_fails.
(** So for every container by itself, in every state of the surrounding layout. *)
Theorem C31_container_never_fails {ar : Arith} {Z : ZeroLaws ar} : forall m_ascent m_descent m_width c cb rank abs floats col, wf_container c ->
  exists fl g, layout_container m_ascent m_descent m_width c cb rank abs floats col = Ok (fl, abs ++ g).
Proof.
  intros ma md mw c cb rank abs floats col W. destruct (proj1 (proj2 (layout_framed ma md mw)) c W cb col) as (fl & g & _ & F).
  exists fl, (map (with_rank rank) g). exact (F rank abs floats).
Qed.
Print Assumptions C31_container_never_fails.
Example C31_case : wf_bfc page /\ match ex_root page with Ok fs => List.length fs = 3%nat | _ => False end.
Proof. split; [cbn; tauto|]. vm_compute. reflexivity. Qed.

(** Whether a formatting context is marked as containing floats changes nothing. *)
Theorem C63_float_flag_irrelevant {ar : Arith} {Z : ZeroLaws ar} : forall m_ascent m_descent m_width c cb rank abs, wf_container c ->
  layout_bfc m_ascent m_descent m_width (BFC true c) cb rank abs = layout_bfc m_ascent m_descent m_width (BFC false c) cb rank abs.
Proof.
  intros ma md mw c cb rank abs W. destruct (proj1 (proj2 (layout_framed ma md mw)) c W cb false) as (fl & g & _ & F).
  change (bfc_finish (layout_container ma md mw c cb rank abs true false) = bfc_finish (layout_container ma md mw c cb rank abs false false)).
  f_equal. rewrite (F rank abs true). symmetry. exact (F rank abs false).
Qed.
Print Assumptions C63_float_flag_irrelevant.
(** What a container is laid out as does not depend on the absolutely positioned boxes met before it, nor on its
    tree rank. *)
Theorem C63_context_irrelevant {ar : Arith} {Z : ZeroLaws ar} : forall m_ascent m_descent m_width c cb col rank rank' abs abs' floats floats' fl fl' a a',
  wf_container c ->
  layout_container m_ascent m_descent m_width c cb rank abs floats col = Ok (fl, a) ->
  layout_container m_ascent m_descent m_width c cb rank' abs' floats' col = Ok (fl', a') -> fl = fl'.
Proof.
  intros ma md mw c cb col rank rank' abs abs' floats floats' fl fl' a a' W E E'.
  destruct (proj1 (proj2 (layout_framed ma md mw)) c W cb col) as (fl0 & g & _ & F). unfold flow_framed_as in F.
  rewrite F in E, E'. congruence.
Qed.
Print Assumptions C63_context_irrelevant.
Example C63_case : wf_container (BlockLevelBoxes [nest; abspos]) /\
  match layout_bfc ex_ascent ex_descent mono (BFC true (BlockLevelBoxes [nest; abspos])) (CBlock (px 100) LAAuto) O [] with
  | Ok (fl, a) => List.length (fl_fragments fl) = 2%nat /\ List.length a = 2%nat
  | _ => False
  end.
Proof. split; [cbn; tauto|]. vm_compute. split; reflexivity. Qed.
