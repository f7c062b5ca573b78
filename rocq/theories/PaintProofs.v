(** Proofs about painting. *)
From Verif Require Import Base Len StyleModel GeomModel GfxModel GfxSpec InlineModel CStrModel CStrProofs GfxProofs GfxDevice PaintModel PaintSpec.
Local Open Scope len_scope.
Local Open Scope result_scope.

Definition fragment_ind' {ar : Arith} (P : fragment -> Prop)
  (Hb : forall st ch r p b m cm, Forall P ch -> P (FBox st ch r p b m cm))
  (Ha : forall r ch, Forall P ch -> P (FAnon r ch))
  (Ht : forall st r fo sg, P (FText st r fo sg)) : forall f, P f :=
  fix go f :=
    let all := fix all (l : list fragment) : Forall P l :=
      match l with [] => Forall_nil _ | x :: l => Forall_cons _ (go x) (all l) end in
    match f with
    | FBox st ch r p b m cm => Hb st ch r p b m cm (all ch)
    | FAnon r ch => Ha r ch (all ch)
    | FText st r fo sg => Ht st r fo sg
    end.

(** * Painting in any arithmetic: it never fails, and the texts drawn are those of the page *)
Section Any.
Context {ar : Arith} (font_of : style -> font).
Definition paints_texts (ts : list string) (r : result (list dcall)) : Prop := exists cs, r = Ok cs /\ flat_map text_of cs = ts.
Lemma each_texts (g : fragment -> list string) cb ch : Forall (fun f => forall cb, paints_texts (g f) (paint font_of cb f)) ch ->
  paints_texts (flat_map g ch) (each (paint font_of cb) ch).
Proof.
  induction 1 as [|f ch Hf _ (c2 & E2 & T2)]; [exists []; split; reflexivity|].
  destruct (Hf cb) as (c1 & E1 & T1). exists (c1 ++ c2). change (each (paint font_of cb) (f :: ch)) with (do c <- paint font_of cb f; do cs <- each (paint font_of cb) ch; Ok (c ++ cs)).
  rewrite E1. cbn [bind]. rewrite E2.
  split; [reflexivity|]. rewrite flat_map_app, T1, T2. reflexivity.
Qed.
Lemma placed_any f : forall o o', flat_map visible_text (placed o f) = flat_map visible_text (placed o' f).
Proof.
  assert (L : forall ch, Forall (fun f => forall o o', flat_map visible_text (placed o f) = flat_map visible_text (placed o' f)) ch ->
    forall o o', flat_map visible_text (flat_map (placed o) ch) = flat_map visible_text (flat_map (placed o') ch)).
  { induction 1 as [|x ch Hx _ IH]; intros o o'; [reflexivity|]. cbn [flat_map]. rewrite !flat_map_app, (Hx o o'), (IH o o'). reflexivity. }
  induction f as [st ch r p b m cm IH|r ch IH|st r fo sg] using fragment_ind'; intros o o'; cbn [placed flat_map visible_text snd app];
    [apply L; exact IH|apply L; exact IH|reflexivity].
Qed.
Lemma side_no_text (b : bool) c : (text_of c = []) -> flat_map text_of (if b then [c] else []) = [].
Proof. intros H. destruct b; cbn; rewrite ?H; reflexivity. Qed.
Lemma paint_texts f : forall cb, paints_texts (flat_map visible_text (placed (l0, l0) f)) (paint font_of cb f).
Proof.
  assert (L : forall ch o, flat_map visible_text (flat_map (placed o) ch) = flat_map (fun f => flat_map visible_text (placed (l0, l0) f)) ch).
  { induction ch as [|x ch IH]; intros o; [reflexivity|]. cbn [flat_map]. rewrite flat_map_app, IH, (placed_any x o (l0, l0)). reflexivity. }
  induction f as [st ch r p b m cm IH|r ch IH|st r fo sg] using fragment_ind'; intros cb; cbn [placed flat_map visible_text snd app].
  - rewrite L. cbn [paint]. unfold physical at 1 2 3 4. cbn [bind rect_to_physical the_writing_mode].
    match goal with |- context [each (paint font_of ?c) ch] => destruct (each_texts _ c ch IH) as (cs & E & T); rewrite E end.
    cbn [bind]. eexists. split; [reflexivity|].
    match goal with |- flat_map text_of (?x :: ?l) = _ => change (flat_map text_of l = flat_map (fun f => flat_map visible_text (placed (l0, l0) f)) ch) end.
    unfold paint_background, paint_top, paint_right, paint_bottom, paint_left.
    rewrite !flat_map_app, !side_no_text by reflexivity. exact T.
  - rewrite L. cbn [paint]. unfold physical at 1. cbn [bind rect_to_physical the_writing_mode].
    match goal with |- context [each (paint font_of ?c) ch] => destruct (each_texts _ c ch IH) as (cs & E & T); rewrite E end.
    cbn [bind]. eexists. split; [reflexivity|]. exact T.
  - cbn [paint]. unfold physical. cbn [bind rect_to_physical the_writing_mode]. eexists. split; reflexivity.
Qed.
Lemma page_paints fs size : paints_texts (flat_map visible_text (placed_page fs)) (paint_page font_of fs size).
Proof.
  unfold paint_page.
  assert (L : flat_map visible_text (placed_page fs) = flat_map (fun f => flat_map visible_text (placed (l0, l0) f)) fs).
  { unfold placed_page. induction fs as [|x fs IH]; [reflexivity|]. cbn [flat_map]. rewrite flat_map_app, IH. reflexivity. }
  rewrite L. apply each_texts. apply Forall_forall. intros f _. apply paint_texts.
Qed.
End Any.

Definition origin (cb : prect Len) : point := (px_ (p_top_left cb), py_ (p_top_left cb)).
(** The physical rectangle of [r] at [o]. *)
Definition phys (o : point) (r : rect Len) : prect Len :=
  PRect (PVec (v_inline (r_start r) + fst o) (v_block (r_start r) + snd o)) (PVec (v_inline (r_size r)) (v_block (r_size r))).
Lemma physical_ok r cb : physical r cb = Ok (phys (origin cb) r).
Proof. reflexivity. Qed.

Lemma box_eq a b c d a' b' c' d' : a = a' -> b = b' -> c = c' -> d = d' -> Box a b c d = Box a' b' c' d'.
Proof. congruence. Qed.
Ltac boxq := apply box_eq; cbn; unfold inline_sum, block_sum; lenq.
Ltac unbox := cbn [content_box padding_box border_box margin_box box_of outset b_xmin b_ymin b_xmax b_ymax side_width
  p_top_left p_size px_ py_ phys r_start r_size v_inline v_block inflate fst snd centre_line
  padding_rect_of border_rect_of margin_rect_of]; unfold inline_sum, block_sum, middle.

Lemma bbox_records o r b : box_of o r = b -> records b (bbox_call (phys o r)).
Proof. intros <-. cbn. unfold call_box. boxq. Qed.

Lemma background_ok st o r b : box_of o r = b -> background_drawn st b (paint_background st (phys o r)).
Proof.
  intros <-. unfold background_drawn, paint_background, transparent_color.
  change (to_rgba st (sv st Lbackground_color)) with (background st).
  destruct (0 <? N_of_ascii (c_alpha (background st)))%N eqn:E.
  - apply N.ltb_lt in E. left. split; [lia|]. do 4 eexists. split; [reflexivity|]. unfold call_box. boxq.
  - apply N.ltb_ge in E. right. split; [lia|reflexivity].
Qed.

Lemma not_none_iff s : not_none s = true <-> s <> LSNone.
Proof. destruct s; cbn; split; congruence. Qed.

Lemma side_gen s st bb pb w ps : w = side_width s bb pb -> ps = centre_line s bb pb ->
  side_drawn s st bb pb (if lltb l0 w && not_none (side_style s st) then [DLine ps (side_color s st) w (side_style s st)] else []).
Proof.
  intros -> ->. unfold side_drawn, side_visible.
  destruct (lltb l0 (side_width s bb pb)) eqn:E1; destruct (not_none (side_style s st)) eqn:E2; cbn [andb].
  - left. split; [|reflexivity]. split; [apply lltb_iff; exact E1|apply not_none_iff; exact E2].
  - right. split; [|reflexivity]. intros [_ V]. apply not_none_iff in V. congruence.
  - right. split; [|reflexivity]. intros [V _]. apply lltb_iff in V. congruence.
  - right. split; [|reflexivity]. intros [V _]. apply lltb_iff in V. congruence.
Qed.

Lemma point_eq (x y x' y' : Len) : x = x' -> y = y' -> (x, y) = (x', y'). Proof. congruence. Qed.
Lemma line_eq (p1 q1 p2 q2 : point) : p1 = p2 -> q1 = q2 -> [p1; q1] = [p2; q2]. Proof. congruence. Qed.
Section Sides.
  Context (st : style) (o : point) (ch : list fragment) (r : rect Len) (p b m : sides Len) (cm : cbmargins).
  Let f := FBox st ch r p b m cm.
  Let pb := phys o (border_rect_of r p b).
  Let pp := phys o (padding_rect_of r p).
  Lemma top_ok : side_drawn Top st (border_box o f) (padding_box o f) (paint_top st pb pp).
  Proof. refine (side_gen Top st _ _ _ _ _ _); unfold pb, pp, f; [unbox; lenq|unbox; apply line_eq; apply point_eq; lenq]. Qed.
  Lemma right_ok : side_drawn Right st (border_box o f) (padding_box o f) (paint_right st pb pp).
  Proof. refine (side_gen Right st _ _ _ _ _ _); unfold pb, pp, f; [unbox; lenq|unbox; apply line_eq; apply point_eq; lenq]. Qed.
  Lemma bottom_ok : side_drawn Bottom st (border_box o f) (padding_box o f) (paint_bottom st pb pp).
  Proof. refine (side_gen Bottom st _ _ _ _ _ _); unfold pb, pp, f; [unbox; lenq|unbox; apply line_eq; apply point_eq; lenq]. Qed.
  Lemma left_ok : side_drawn Left st (border_box o f) (padding_box o f) (paint_left st pb pp).
  Proof. refine (side_gen Left st _ _ _ _ _ _); unfold pb, pp, f; [unbox; lenq|unbox; apply line_eq; apply point_eq; lenq]. Qed.
End Sides.

Lemma border_at o st ch r p b m cm : box_of o (border_rect_of r p b) = border_box o (FBox st ch r p b m cm).
Proof. unfold border_rect_of. unfold border_box, padding_box, content_box, outset, box_of. boxq. Qed.
Lemma margin_at o st ch r p b m cm : box_of o (margin_rect_of r p b m) = margin_box o (FBox st ch r p b m cm).
Proof. unfold margin_rect_of. unfold margin_box, border_box, padding_box, content_box, outset, box_of. boxq. Qed.

Section Groups.
  Context (font_of : style -> font).
  Definition grouped (o : point) (f : fragment) (r : result (list dcall)) : Prop :=
    exists groups, r = Ok (concat groups) /\
      Forall2 (fun p g => own_calls font_of (fst p) (snd p) g) (placed o f) groups.
  Definition grouped_all (o : point) (fs : list fragment) (r : result (list dcall)) : Prop :=
    exists groups, r = Ok (concat groups) /\
      Forall2 (fun p g => own_calls font_of (fst p) (snd p) g) (flat_map (placed o) fs) groups.
  Lemma each_grouped cb ch : Forall (fun f => forall cb, grouped (origin cb) f (paint font_of cb f)) ch ->
    grouped_all (origin cb) ch (each (paint font_of cb) ch).
  Proof.
    induction 1 as [|f ch Hf _ IH]; [exists []; split; [reflexivity|constructor]|].
    destruct (Hf cb) as (g1 & E1 & F1). destruct IH as (g2 & E2 & F2). exists (g1 ++ g2). cbn. rewrite E1. cbn.
    change ((fix go (l : list fragment) := match l with [] => Ok [] | x :: l0 => do c <- paint font_of cb x; do cs <- go l0; Ok (c ++ cs) end) ch)
      with (each (paint font_of cb) ch). rewrite E2. cbn. rewrite concat_app.
    split; [reflexivity|]. apply Forall2_app; assumption.
  Qed.
  Lemma paint_grouped f : forall cb, grouped (origin cb) f (paint font_of cb f).
  Proof.
    induction f as [st ch r p b m cm IH|r ch IH|st r fo sg] using fragment_ind'; intros cb.
    - cbn [paint]. rewrite !physical_ok. cbn [bind].
      assert (O : origin (phys (origin cb) r) = moved (v_inline (r_start r), v_block (r_start r)) (origin cb)).
      { unfold moved, origin, phys. apply point_eq; cbn; lenq. }
      destruct (each_grouped (phys (origin cb) r) ch IH) as (g & E & F). rewrite E. cbn [bind]. rewrite O in F.
      match goal with |- grouped _ _ (Ok (?x :: ?a ++ ?b ++ ?c ++ ?d ++ ?e ++ _)) => exists ((x :: a ++ b ++ c ++ d ++ e) :: g) end.
      split; [cbn [concat app]; rewrite <- !app_assoc; reflexivity|].
      cbn [placed]. constructor; [|exact F]. cbn [fst snd own_calls].
      do 6 eexists. split; [reflexivity|]. split; [apply bbox_records, margin_at|].
      split; [apply background_ok, border_at|].
      split; [apply top_ok|]. split; [apply right_ok|]. split; [apply bottom_ok|apply left_ok].
    - cbn [paint]. rewrite physical_ok. cbn [bind].
      assert (O : origin (phys (origin cb) r) = moved (v_inline (r_start r), v_block (r_start r)) (origin cb)).
      { unfold moved, origin, phys. apply point_eq; cbn; lenq. }
      destruct (each_grouped (phys (origin cb) r) ch IH) as (g & E & F). rewrite E. cbn [bind]. rewrite O in F.
      eexists ([_] :: g). split; [reflexivity|]. cbn [placed]. constructor; [|exact F]. cbn [fst snd own_calls].
      eexists. split; [reflexivity|]. apply bbox_records. reflexivity.
    - cbn [paint]. rewrite physical_ok. cbn [bind]. eexists [[_; _]]. split; [reflexivity|].
      cbn [placed]. constructor; [|constructor]. cbn [fst snd own_calls].
      eexists. split; [f_equal; f_equal; f_equal; cbn; lenq|]. apply bbox_records. reflexivity.
  Qed.
  Lemma page_grouped fs size : grouped_all (l0, l0) fs (paint_page font_of fs size).
  Proof.
    unfold paint_page. apply (each_grouped (PRect (PVec l0 l0) (PVec (v_inline size) (v_block size)))).
    apply Forall_forall. intros f _. apply paint_grouped.
  Qed.
End Groups.
(** * By kind *)
Lemma side_lines s st b q cs : side_drawn s st b q cs ->
  flat_map line_of cs = (if lltb l0 (side_width s b q) && not_none (side_style s st)
    then [(centre_line s b q, side_color s st, side_width s b q, side_style s st)] else []) /\
  flat_map rect_of cs = [] /\ flat_map text_of cs = [] /\ recorded cs = [].
Proof.
  intros [[[V1 V2] ->]|[V ->]].
  - apply lltb_iff in V1. apply not_none_iff in V2. rewrite V1, V2. repeat split.
  - destruct (lltb l0 (side_width s b q)) eqn:E1; destruct (not_none (side_style s st)) eqn:E2; try (repeat split; fail).
    exfalso. apply V. split; [apply lltb_iff; exact E1|apply not_none_iff; exact E2].
Qed.
Lemma background_kinds st b cs : background_drawn st b cs ->
  flat_map rect_of cs = (if N.eq_dec (N_of_ascii (c_alpha (background st))) 0 then [] else [(b, background st)]) /\
  flat_map line_of cs = [] /\ flat_map text_of cs = [] /\ recorded cs = [].
Proof.
  unfold background_drawn, transparent_color. intros [[V (x & y & w & h & -> & <-)]|[V ->]];
    destruct (N.eq_dec _ _); try contradiction; repeat split.
Qed.
Lemma recorded_app a b : recorded (a ++ b) = recorded a ++ recorded b.
Proof. induction a as [|[] a IH]; cbn; rewrite ?IH; reflexivity. Qed.
Lemma records_kinds b c : records b c -> rect_of c = [] /\ line_of c = [] /\ text_of c = [] /\ recorded [c] = box_corners b.
Proof. destruct c; cbn; try contradiction. intros <-. repeat split. Qed.

Section Kinds.
  Context (font_of : style -> font) (o : point) (f : fragment) (cs : list dcall) (H : own_calls font_of o f cs).
  Lemma own_kinds : flat_map rect_of cs = visible_background (o, f) /\ flat_map line_of cs = visible_borders (o, f) /\
    flat_map text_of cs = visible_text (o, f) /\ recorded cs = box_corners (margin_box o f).
  Proof.
    destruct f as [st ch r p b m cm|r ch|st r fo sg]; cbn [own_calls] in H.
    - destruct H as (c & bg & t & ri & bo & l & -> & Hc & Hbg & Ht & Hri & Hbo & Hl).
      apply records_kinds in Hc as (C1 & C2 & C3 & C4). apply background_kinds in Hbg as (B1 & B2 & B3 & B4).
      apply side_lines in Ht as (T1 & T2 & T3 & T4). apply side_lines in Hri as (R1 & R2 & R3 & R4).
      apply side_lines in Hbo as (O1 & O2 & O3 & O4). apply side_lines in Hl as (L1 & L2 & L3 & L4).
      change (c :: bg ++ t ++ ri ++ bo ++ l) with ([c] ++ bg ++ t ++ ri ++ bo ++ l).
      rewrite !flat_map_app, !recorded_app. cbn [flat_map].
      rewrite C1, C2, C3, C4, B1, B2, B3, B4, T1, T2, T3, T4, R1, R2, R3, R4, O1, O2, O3, O4, L1, L2, L3, L4.
      cbn [app]. rewrite ?app_nil_r. repeat split. unfold visible_borders. cbn [flat_map visible_side snd fst].
      rewrite app_nil_r. reflexivity.
    - destruct H as (c & -> & Hc). apply records_kinds in Hc as (C1 & C2 & C3 & C4). cbn [flat_map].
      rewrite C1, C2, C3, C4. repeat split.
    - destruct H as (c & -> & Hc). apply records_kinds in Hc as (C1 & C2 & C3 & C4). cbn [flat_map].
      rewrite C1, C2, C3. repeat split. match goal with |- recorded [_; ?x] = _ => change [c; x] with ([c] ++ [x]) end. rewrite recorded_app, C4. reflexivity.
  Qed.
  Lemma own_ok vs : drawable font_of vs (o, f) -> Forall (call_ok vs) cs.
  Proof.
    intros D. destruct f as [st ch r p b m cm|r ch|st r fo sg]; cbn [own_calls] in H.
    - destruct H as (c & bg & t & ri & bo & l & -> & Hc & Hbg & Ht & Hri & Hbo & Hl).
      assert (S : forall s b q cs, side_drawn s st b q cs -> Forall (call_ok vs) cs).
      { intros s b0 q cs0 [[_ ->]|[_ ->]]; constructor; try constructor. }
      constructor; [destruct c; try contradiction; exact I|].
      rewrite !Forall_app. repeat split; try (eapply S; eassumption).
      destruct Hbg as [[_ (x & y & w & h & -> & _)]|[_ ->]]; constructor; try constructor.
    - destruct H as (c & -> & Hc). constructor; [destruct c; try contradiction; exact I|constructor].
    - destruct H as (c & -> & Hc). constructor; [destruct c; try contradiction; exact I|]. constructor; [|constructor].
      cbn in D. destruct D as (D1 & D2 & D3). split; [apply label_nul; assumption|exact D3].
  Qed.
End Kinds.

Section Page.
  Context (font_of : style -> font).
  Lemma page_kinds fs size : exists cs, paint_page font_of fs size = Ok cs /\
    flat_map rect_of cs = flat_map visible_background (placed_page fs) /\
    flat_map line_of cs = flat_map visible_borders (placed_page fs) /\
    flat_map text_of cs = flat_map visible_text (placed_page fs) /\
    recorded cs = flat_map (fun p => box_corners (margin_box (fst p) (snd p))) (placed_page fs) /\
    forall vs, Forall (drawable font_of vs) (placed_page fs) -> Forall (call_ok vs) cs.
  Proof.
    destruct (page_grouped font_of fs size) as (gs & E & F). exists (concat gs). split; [exact E|].
    fold (placed_page fs) in F. clear E. induction F as [|[o f] g ps gs H F IH].
    - repeat split; intros; constructor.
    - destruct (own_kinds font_of o f g H) as (K1 & K2 & K3 & K4). destruct IH as (I1 & I2 & I3 & I4 & I5).
      cbn [concat flat_map]. rewrite !flat_map_app, recorded_app, K1, K2, K3, K4, I1, I2, I3, I4.
      repeat split. intros vs D. inversion D; subst. apply Forall_app. split; [eapply own_ok; eassumption|auto].
  Qed.

  (** Moving the containing block moves every call. *)
  Definition moves (d : point) (f : fragment) : Prop :=
    forall cb cb', origin cb' = moved d (origin cb) ->
    forall cs, paint font_of cb f = Ok cs -> paint font_of cb' f = Ok (map (move_call d) cs).
  Lemma each_moves d ch : Forall (moves d) ch -> forall cb cb', origin cb' = moved d (origin cb) ->
    forall cs, each (paint font_of cb) ch = Ok cs -> each (paint font_of cb') ch = Ok (map (move_call d) cs).
  Proof.
    intros F cb cb' O. induction F as [|f ch Hf _ IH]; cbn; intros cs E; [injection E as <-; reflexivity|].
    destruct (paint font_of cb f) as [c| |] eqn:Ec; [|discriminate..]. cbn in E. rewrite (Hf _ _ O _ Ec). cbn.
    fold (each (paint font_of cb)) in E. fold (each (paint font_of cb')).
    destruct (each (paint font_of cb) ch) as [cs'| |] eqn:Ecs; [|discriminate..]. cbn in E. injection E as <-.
    rewrite (IH _ eq_refl). cbn. rewrite map_app. reflexivity.
  Qed.
  Lemma bbox_moved d o r : bbox_call (phys (moved d o) r) = move_call d (bbox_call (phys o r)).
  Proof. unfold bbox_call, move_call. cbn. f_equal; lenq. Qed.
  Lemma background_moved st d o r : paint_background st (phys (moved d o) r) = map (move_call d) (paint_background st (phys o r)).
  Proof. unfold paint_background. destruct (_ <? _)%N; [|reflexivity]. cbn. f_equal. f_equal; lenq. Qed.
  Ltac move_side := match goal with
    |- (if lltb l0 ?a && _ then _ else _) = map _ (if lltb l0 ?b && _ then _ else _) => replace a with b by (cbn; lenq) end;
    destruct (lltb l0 _ && _); [|reflexivity]; cbn; unfold moved; cbn [fst snd];
    f_equal; apply (f_equal3 (fun p => fun c w => DLine p c w _)); [|reflexivity|reflexivity];
    apply line_eq; apply point_eq; lenq.
  Lemma top_moved st d o r q : paint_top st (phys (moved d o) r) (phys (moved d o) q) = map (move_call d) (paint_top st (phys o r) (phys o q)).
  Proof. unfold paint_top. move_side. Qed.
  Lemma right_moved st d o r q : paint_right st (phys (moved d o) r) (phys (moved d o) q) = map (move_call d) (paint_right st (phys o r) (phys o q)).
  Proof. unfold paint_right. move_side. Qed.
  Lemma bottom_moved st d o r q : paint_bottom st (phys (moved d o) r) (phys (moved d o) q) = map (move_call d) (paint_bottom st (phys o r) (phys o q)).
  Proof. unfold paint_bottom. move_side. Qed.
  Lemma left_moved st d o r q : paint_left st (phys (moved d o) r) (phys (moved d o) q) = map (move_call d) (paint_left st (phys o r) (phys o q)).
  Proof. unfold paint_left. move_side. Qed.
  Lemma ok_inj {A} (x y : A) : Ok x = Ok y -> x = y.
  Proof. congruence. Qed.
  Lemma paint_moves d f : moves d f.
  Proof.
    induction f as [st ch r p b m cm IH|r ch IH|st r fo sg] using fragment_ind'; intros cb cb' O cs E.
    - cbn [paint] in E |- *. rewrite !physical_ok in E |- *. cbn [bind] in E |- *. rewrite O.
      destruct (each (paint font_of (phys (origin cb) r)) ch) as [k| |] eqn:K; [|discriminate..].
      assert (Q : origin (phys (moved d (origin cb)) r) = moved d (origin (phys (origin cb) r))).
      { unfold moved, origin, phys. apply point_eq; cbn; lenq. }
      rewrite (each_moves d ch IH _ _ Q _ K). cbn [bind] in E |- *. apply ok_inj in E. rewrite <- E.
      cbn [map]. rewrite !map_app, <- bbox_moved, <- background_moved, <- top_moved, <- right_moved, <- bottom_moved, <- left_moved.
      reflexivity.
    - cbn [paint] in E |- *. rewrite !physical_ok in E |- *. cbn [bind] in E |- *. rewrite O.
      destruct (each (paint font_of (phys (origin cb) r)) ch) as [k| |] eqn:K; [|discriminate..].
      assert (Q : origin (phys (moved d (origin cb)) r) = moved d (origin (phys (origin cb) r))).
      { unfold moved, origin, phys. apply point_eq; cbn; lenq. }
      rewrite (each_moves d ch IH _ _ Q _ K). cbn [bind] in E |- *. apply ok_inj in E. rewrite <- E.
      cbn [map]. rewrite <- bbox_moved. reflexivity.
    - cbn [paint] in E |- *. rewrite !physical_ok in E |- *. cbn [bind] in E |- *. rewrite O. apply ok_inj in E. rewrite <- E.
      rewrite bbox_moved. cbn [map move_call]. f_equal. f_equal. f_equal. f_equal; cbn; lenq.
  Qed.
End Page.

(** The stroke of a centre line is the strip of the border. *)
Lemma between_le a b x : a <= b -> (between a b x <-> a <= x /\ x <= b).
Proof. unfold between. intros H. split; [intros [B|[B1 B2]]; [exact B|split; lenq]|tauto]. Qed.
Lemma between_ge a b x : b <= a -> (between a b x <-> b <= x /\ x <= a).
Proof. unfold between. intros H. split; [intros [[B1 B2]|B]; [split; lenq|exact B]|tauto]. Qed.
Lemma stroke_strip s b q x : box_within q b -> b_xmin b < b_xmax b -> b_ymin b < b_ymax b ->
  b_xmin q <= b_xmax q -> b_ymin q <= b_ymax q ->
  (stroke (centre_line s b q) (side_width s b q) x <-> strip s b q x).
Proof.
  destruct b as [a1 a2 a3 a4], q as [q1 q2 q3 q4], x as [x y]. unfold box_within, strip, in_box, middle.
  cbn [b_xmin b_ymin b_xmax b_ymax fst snd]. intros (W1 & W2 & W3 & W4) P1 P2 P3 P4.
  assert (Q1 : a1 <= a3) by lenq. assert (Q2 : a2 <= a4) by lenq.
  destruct s; cbn [centre_line side_width stroke fst snd b_xmin b_ymin b_xmax b_ymax]; unfold middle.
  - rewrite (between_le a1 a3) by exact Q1. split.
    + intros [(_ & (B1 & B2) & L & U)|(E & _)]; [repeat split; lenq|exfalso; lenq].
    + intros ((H1 & H2 & H3 & H4) & H5). left. repeat split; try assumption; lenq.
  - rewrite (between_le a2 a4) by exact Q2. split.
    + intros [(E & _)|(_ & (B1 & B2) & L & U)]; [exfalso; lenq|repeat split; lenq].
    + intros ((H1 & H2 & H3 & H4) & H5). right. repeat split; try assumption; lenq.
  - rewrite (between_ge a3 a1) by exact Q1. split.
    + intros [(_ & (B1 & B2) & L & U)|(E & _)]; [repeat split; lenq|exfalso; lenq].
    + intros ((H1 & H2 & H3 & H4) & H5). left. repeat split; try assumption; lenq.
  - rewrite (between_ge a4 a2) by exact Q2. split.
    + intros [(E & _)|(_ & (B1 & B2) & L & U)]; [exfalso; lenq|repeat split; lenq].
    + intros ((H1 & H2 & H3 & H4) & H5). right. repeat split; try assumption; lenq.
Qed.

(** * Carrying out the calls *)
Lemma carry_out_prefix {ar : Arith} cs : forall w w' e, carry_out w cs = (w', e) -> exists done rest, cs = done ++ rest /\
  drun w done = GfxModel.Done w' /\
  match e with
  | Finished => rest = []
  | Caught => exists c rest', rest = c :: rest' /\ dstep w' c = RustPanic
  | Killed => exists c rest', rest = c :: rest' /\ dstep w' c <> RustPanic /\ forall w'', dstep w' c <> GfxModel.Done w''
  end.
Proof.
  induction cs as [|c cs IH]; intros w w' e H; cbn in H.
  - injection H as <- <-. exists [], []. repeat split.
  - destruct (dstep w c) eqn:E.
    1:{ apply IH in H as (done & rest & -> & D & R). exists (c :: done), rest. cbn. rewrite E. cbn. repeat split; assumption. }
    all: injection H as <- <-; exists [], (c :: cs); split; [reflexivity|]; split; [reflexivity|]; exists c, cs;
      split; [reflexivity|]; first [exact E|rewrite E; split; [discriminate|intros; discriminate]].
Qed.
(** With fonts whose contexts are alive, every call succeeds or is a text with a NUL, which panics. *)
Definition font_alive (vs : vstore) (c : dcall) : Prop :=
  match c with GfxModel.DText _ _ _ f _ => value_of vs (f_gc f) <> None | _ => True end.
Definition nul_text (c : dcall) : Prop := match c with GfxModel.DText l _ _ _ _ => has_nul l = true | _ => False end.
Lemma carry_out_ok cs : forall w vs d gs gw pts, DInv d gs -> Inv gw vs -> BInv d pts -> w = DWorld d gw ->
  Forall (font_alive vs) cs ->
  exists done rest w', cs = done ++ rest /\ Forall (call_ok vs) done /\
    (rest = [] /\ carry_out w cs = (w', Finished) \/
     (exists c r, rest = c :: r /\ nul_text c) /\ carry_out w cs = (w', Caught)) /\ drun w done = GfxModel.Done w'.
Proof.
  induction cs as [|c cs IH]; intros w vs d gs gw pts D I B -> A.
  - exists [], [], (DWorld d gw). cbn. split; [reflexivity|]. split; [constructor|]. split; [left; split; reflexivity|reflexivity].
  - inversion A as [|? ? Ac Acs]; subst.
    assert (K : call_ok vs c \/ nul_text c /\ dstep (DWorld d gw) c = RustPanic).
    { destruct c as [l x y f col| | |]; cbn in *; auto. destruct (has_nul l) eqn:E; [right|left; auto].
      split; [reflexivity|]. unfold draw_text, cstring_unwrap. rewrite E. reflexivity. }
    destruct K as [K|[K E]].
    2:{ exists [], (c :: cs), (DWorld d gw). cbn [app carry_out]. rewrite E. split; [reflexivity|]. split; [constructor|].
        split; [right; split; [exists c, cs; split; [reflexivity|exact K]|reflexivity]|reflexivity]. }
    assert (S : exists d' gs' gw' vs' pts', dstep (DWorld d gw) c = GfxModel.Done (DWorld d' gw') /\ DInv d' gs' /\ Inv gw' vs' /\
              BInv d' pts' /\ forall v, value_of vs' v = value_of vs v).
    { destruct (draws c) eqn:Dr.
      - destruct (draw_ok _ _ _ _ _ D I K Dr) as (d1 & gw1 & g & E & D1 & I1 & Sb & P).
        do 5 eexists. split; [exact E|]. split; [exact D1|]. split; [exact I1|]. split; [exact (BInv_same _ _ _ Sb B)|].
        apply value_of_app_none.
      - destruct (drun_ok [c] d gs gw vs pts D I B) as (d1 & gw1 & gs1 & k & E & D1 & I1 & B1 & _); [repeat constructor; exact K|].
        cbn in E. destruct (dstep (DWorld d gw) c) as [w1| | | | |] eqn:E1; try discriminate. cbn in E. injection E as ->.
        do 5 eexists. split; [reflexivity|]. split; [exact D1|]. split; [exact I1|]. split; [exact B1|].
        apply value_of_nones. }
    destruct S as (d' & gs' & gw' & vs' & pts' & E & D' & I' & B' & V).
    destruct (IH (DWorld d' gw') vs' d' gs' gw' pts' D' I' B' eq_refl) as (done & rest & w' & -> & Ok & R & Dn).
    { eapply Forall_impl; [|exact Acs]. intros [] F; cbn in *; auto. rewrite V. exact F. }
    exists (c :: done), rest, w'. split; [reflexivity|]. split.
    { constructor; [exact K|]. eapply Forall_impl; [|exact Ok]. intros c'. apply call_ok_ext. exact V. }
    cbn [app carry_out drun]. rewrite E. cbn. split; assumption.
Qed.
