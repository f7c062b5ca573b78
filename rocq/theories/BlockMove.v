(** Relative positioning moves one fragment and nothing else. *)
From Verif Require Import BlockModel InlineSpec InlineProofs InlineFacts GeomSpec BlockSpec BlockFrame BlockGen BlockStack BlockProofs BlockFlow.
Local Open Scope len_scope.

Lemma framed_list_app l1 l2 cb fs1 fs2 gss1 gss2 : framed_list l1 cb fs1 gss1 -> framed_list l2 cb fs2 gss2 ->
  framed_list (l1 ++ l2) cb (fs1 ++ fs2) (gss1 ++ gss2).
Proof.
  intros (F1 & A1 & B1) (F2 & A2 & B2). split; [|rewrite !app_length; split; congruence].
  replace (combine (fs1 ++ fs2) (gss1 ++ gss2)) with (combine fs1 gss1 ++ combine fs2 gss2); [apply Forall2_app; assumption|].
  assert (L : List.length fs1 = List.length gss1) by congruence. clear - L. revert gss1 L.
  induction fs1 as [|f fs1 IH]; intros gss1 L; destruct gss1 as [|g gss1]; try discriminate; [reflexivity|].
  cbn. rewrite IH; [reflexivity|]. cbn in L; congruence.
Qed.
Lemma place_all_app fs1 : forall fs2 s, place_all (fs1 ++ fs2) s =
  bind (place_all fs1 s) (fun '(r1, s1) => bind (place_all fs2 s1) (fun '(r2, s2) => Ok (r1 ++ r2, s2))).
Proof.
  induction fs1 as [|f fs1 IH]; intros fs2 s; cbn [app place_all bind].
  - destruct (place_all fs2 s) as [[? ?]| |]; reflexivity.
  - destruct (place f s) as [[f1 s1]| |]; cbn [bind]; try reflexivity. rewrite IH.
    destruct (place_all fs1 s1) as [[r1 s2]| |]; cbn [bind]; try reflexivity.
    destruct (place_all fs2 s2) as [[r2 s3]| |]; reflexivity.
Qed.
Lemma ranked_app g1 : forall r g2, ranked r (g1 ++ g2) = ranked r g1 ++ ranked (r + List.length g1) g2.
Proof.
  induction g1 as [|g g1 IH]; intros r g2; cbn [app ranked List.length].
  - rewrite Nat.add_0_r. reflexivity.
  - rewrite IH, app_assoc, Nat.add_succ_r. reflexivity.
Qed.
Ltac box_eq := unfold shift_block; cbn [r_start r_size v_inline v_block pl_margin pl_pos]; repeat match goal with
  | |- Ok _ = Ok _ => f_equal | |- (_, _) = (_, _) => f_equal | |- FBox _ _ _ _ _ _ _ = _ => f_equal
  | |- Rect _ _ = Rect _ _ => f_equal | |- Vec2 _ _ = Vec2 _ _ => f_equal end; try reflexivity; try ring;
  try (unfold cm_solve, cm_adjoin; cbn [max_positive min_negative]; change Qcplus with (@ladd Exact); ring).
Lemma moved_place st dx dy f s f1 s1 : (exists a b c d e g h, f = FBox a b c d e g h) -> place f s = Ok (f1, s1) ->
  place (moved st dx dy f) s = Ok (moved st dx dy f1, s1) /\ exists d, f1 = shift_frag d f.
Proof.
  intros (st0 & ch & r & p & b & m & cm & ->) E. split; [|eapply place_shift; exact E].
  cbn [moved place] in *. destruct (pl_collapses s).
  - destruct (leqb _ _); [|discriminate]. cbn [r_size]. destruct (cb_through cm); injection E as <- <-; [reflexivity|].
    cbn [moved shift_block r_start r_size v_inline v_block]. box_eq.
  - cbn [r_size]. destruct (cb_through cm); injection E as <- <-; cbn [moved shift_block r_start r_size v_inline v_block]; box_eq.
Qed.
Lemma adjust_moved A B f f' rank l : (forall a, In a l -> af_rank a <> List.length A) \/ frag_rect f = frag_rect f' ->
  mapR (adjust_one (A ++ f :: B) rank) l = mapR (adjust_one (A ++ f' :: B) rank) l.
Proof.
  intros H. apply mapR_ext. intros a Ha. unfold adjust_one.
  assert (K : af_rank a <> List.length A -> nth_error (A ++ f :: B) (af_rank a) = nth_error (A ++ f' :: B) (af_rank a)).
  { intros Hn. destruct (Nat.lt_ge_cases (af_rank a) (List.length A)) as [L|L].
    - rewrite !nth_error_app1 by exact L. reflexivity.
    - rewrite !nth_error_app2 by exact L. destruct (af_rank a - List.length A)%nat eqn:E; [lia|]. reflexivity. }
  destruct H as [H|H]; [rewrite (K (H a Ha)); reflexivity|].
  destruct (Nat.eq_dec (af_rank a) (List.length A)) as [E|E]; [|rewrite (K E); reflexivity].
  rewrite !nth_error_app2 by lia. rewrite E, Nat.sub_diag. cbn [nth_error]. rewrite H. reflexivity.
Qed.

Section Tree.
Variable m_ascent m_descent : style -> Len.
Variable m_width : style -> text -> Len.
Notation layout_blb := (layout_blb m_ascent m_descent m_width).
Notation layout_container := (layout_container m_ascent m_descent m_width).
Notation layout_bfc := (layout_bfc m_ascent m_descent m_width).

(** in a container *)
Lemma move_in_container pre post lay lay' cb col f f' g st dx dy :
  Forall framed pre -> Forall framed post ->
  framed_as (lay cb) f g -> framed_as (lay' cb) f' g -> f' = moved st dx dy f -> (exists a b c d e h i, f = FBox a b c d e h i) ->
  g = [] \/ dx = l0 /\ dy = l0 ->
  good f -> Forall total_abs g ->
  forall rank abs floats, exists A f1 B bs cm abs',
    layout_block_level_children (pre ++ lay :: post) cb rank abs floats col = Ok (Flow (A ++ f1 :: B) bs cm, abs') /\
    layout_block_level_children (pre ++ lay' :: post) cb rank abs floats col = Ok (Flow (A ++ moved st dx dy f1 :: B) bs cm, abs') /\
    List.length A = List.length pre /\ exists d, f1 = shift_frag d f.
Proof.
  intros Hpre Hpost F F' Hf' Hbox Hg Gf Tg rank abs floats.
  destruct (framed_list_ex pre cb Hpre) as (fsP & gssP & FP & GP & TP).
  destruct (framed_list_ex post cb Hpost) as (fsQ & gssQ & FQ & GQ & TQ).
  assert (FL : framed_list (pre ++ lay :: post) cb (fsP ++ f :: fsQ) (gssP ++ g :: gssQ)).
  { apply framed_list_app; [exact FP|]. destruct FQ as (X & Y & Z). split; [constructor; assumption|]. cbn. split; congruence. }
  assert (FL' : framed_list (pre ++ lay' :: post) cb (fsP ++ f' :: fsQ) (gssP ++ g :: gssQ)).
  { apply framed_list_app; [exact FP|]. destruct FQ as (X & Y & Z). split; [constructor; assumption|]. cbn. split; congruence. }
  assert (GA : Forall good (fsP ++ f :: fsQ)) by (apply Forall_app; split; [exact GP | constructor; assumption]).
  destruct (place_all_ok (fsP ++ f :: fsQ) (placement_start col) GA) as (fs1 & s3 & Ep & Gp & Lp); [intros _; reflexivity|].
  pose proof Ep as Ep0. rewrite place_all_app in Ep. cbn [place_all] in Ep.
  destruct (place_all fsP (placement_start col)) as [[A s1]| |] eqn:E1; cbn [bind] in Ep; try discriminate.
  destruct (place f s1) as [[f1 s2]| |] eqn:E2; cbn [bind] in Ep; try discriminate.
  destruct (place_all fsQ s2) as [[B s4]| |] eqn:E3; cbn [bind] in Ep; try discriminate. injection Ep as <- <-.
  destruct (moved_place st dx dy f s1 f1 s2 Hbox E2) as [E2' Hd].
  assert (LA : List.length A = List.length pre).
  { pose proof (place_all_shift _ _ _ _ E1) as S. destruct FP as (_ & L & _). rewrite <- L. clear - S. induction S; cbn; congruence. }
  assert (Ep' : place_all (fsP ++ f' :: fsQ) (placement_start col) = Ok (A ++ moved st dx dy f1 :: B, s4)).
  { rewrite place_all_app, E1. cbn [bind place_all]. rewrite Hf', E2'. cbn [bind]. rewrite E3. reflexivity. }
  rewrite (children_formula _ _ rank abs floats _ _ _ _ _ FL Ep0), (children_formula _ _ rank abs floats _ _ _ _ _ FL' Ep').
  assert (Hadj : mapR (adjust_one (A ++ f1 :: B) rank) (ranked O (gssP ++ g :: gssQ)) =
                 mapR (adjust_one (A ++ moved st dx dy f1 :: B) rank) (ranked O (gssP ++ g :: gssQ))).
  { apply adjust_moved. destruct Hg as [-> | [-> ->]].
    - left. intros a Ha. rewrite ranked_app in Ha. cbn [ranked map app] in Ha. apply in_app_or in Ha.
      destruct FP as (_ & _ & LG). destruct Ha as [Ha|Ha]; apply ranked_range in Ha; lia.
    - right. destruct Hd as (d & ->). destruct Hbox as (a1 & a2 & a3 & a4 & a5 & a6 & a7 & ->). cbn [shift_frag moved frag_rect].
      destruct a3 as [[x y] z]. cbn [shift_block r_start r_size v_inline v_block]. box_eq. }
  rewrite Hadj.
  destruct (adjust_framed (A ++ f1 :: B) (ranked O (gssP ++ g :: gssQ)) Gp) as (late & _ & El).
  - intros a Ha. apply ranked_range in Ha. destruct FL as (_ & X & Y). lia.
  - apply ranked_total. apply Forall_app. split; [exact TP | constructor; assumption].
  - rewrite <- Hadj, El. cbn [bind]. exists A, f1, B. eexists _, _, _. split; [reflexivity|]. split; [reflexivity|]. split; [exact LA | exact Hd].
Qed.

(** one box *)
Lemma move_box cb st same pos t r b l (lay : nat -> bool -> cblock -> list abs_frag -> bool -> result (flow * list abs_frag)) :
  (forall cb' col, flow_framed (fun rank abs floats => lay rank floats cb' abs col)) ->
  let st' := repositioned st pos t r b l in
  (is_relatively_positioned pos = is_relatively_positioned (sv st Lposition) \/
   forall cb' col, exists fl, flow_framed_as (fun rank abs floats => lay rank floats cb' abs col) fl []) ->
  exists f g, good f /\ Forall total_abs g /\ (exists a b c d e h i, f = FBox a b c d e h i) /\
    framed_as (fun rank abs floats => layout_in_flow cb st same abs (lay rank floats)) f g /\
    let dx := v_inline (own_offset st' cb f) - v_inline (own_offset st cb f) in
    let dy := v_block (own_offset st' cb f) - v_block (own_offset st cb f) in
    framed_as (fun rank abs floats => layout_in_flow cb st' same abs (lay rank floats)) (moved st' dx dy f) g /\
    (g = [] \/ dx = l0 /\ dy = l0).
Proof.
  intros H st' Hr.
  assert (Hpos : sv st' Lposition = pos) by reflexivity.
  assert (E_cb : if_children_cb cb st' = if_children_cb cb st) by reflexivity.
  assert (E_col : if_start_collapse cb st' same = if_start_collapse cb st same) by reflexivity.
  assert (E_pad : if_padding cb st' = if_padding cb st) by reflexivity.
  assert (E_bd : if_border cb st' = if_border cb st) by reflexivity.
  assert (E_m : if_margin cb st' = if_margin cb st) by reflexivity.
  assert (E_ms : forall x, if_margins cb st' same x = if_margins cb st same x) by reflexivity.
  assert (E_h : forall x, if_height cb st' same x = if_height cb st same x) by reflexivity.
  assert (E_i : if_inline_size cb st' = if_inline_size cb st) by reflexivity.
  assert (E_pb : if_pb cb st' = if_pb cb st) by reflexivity.
  assert (Hcontent : forall fl, exists y z, if_content cb st same fl = Rect y z /\ r_size (if_content cb st' same fl) = z /\ forall ch p bd m cm,
     if_content cb st' same fl = Rect (Vec2 (v_inline y + (v_inline (own_offset st' cb (FBox st ch (Rect y z) p bd m cm)) - v_inline (own_offset st cb (FBox st ch (Rect y z) p bd m cm))))
       (v_block y + (v_block (own_offset st' cb (FBox st ch (Rect y z) p bd m cm)) - v_block (own_offset st cb (FBox st ch (Rect y z) p bd m cm))))) z).
  { intros fl. exists (r_start (if_content cb st same fl)), (r_size (if_content cb st same fl)).
    split; [reflexivity|]. split; [unfold if_content; cbn [r_size]; rewrite E_i, E_h; reflexivity|]. intros ch p bd m cm.
    set (R := Rect (r_start (if_content cb st same fl)) (r_size (if_content cb st same fl))).
    assert (O1 : own_offset st cb (FBox st ch R p bd m cm) = relative_adjustement st (if_inline_size cb st) (if_block_size cb st)).
    { rewrite <- own_offset_adjust, used_height. reflexivity. }
    assert (O2 : own_offset st' cb (FBox st ch R p bd m cm) = relative_adjustement st' (if_inline_size cb st) (if_block_size cb st)).
    { change (own_offset st' cb (FBox st ch R p bd m cm)) with (own_offset st' cb (FBox st' ch R p bd m cm)).
      rewrite <- own_offset_adjust, used_height. reflexivity. }
    rewrite O1, O2. unfold if_content. rewrite E_i, E_h, E_m, E_pb. change (if_block_size cb st') with (if_block_size cb st).
    set (a := relative_adjustement st _ _). set (a' := relative_adjustement st' _ _). clearbody a a'. cbn [r_start r_size v_inline v_block].
    box_eq. }
  destruct (H (if_children_cb cb st) (if_start_collapse cb st same)) as (fl & g & Tg & F). unfold flow_framed_as in F.
  destruct (Hcontent fl) as (y & z & Ey & Ez & Hc). clear Hcontent.
  assert (Zero : is_relatively_positioned pos = false -> is_relatively_positioned (sv st Lposition) = false -> forall f,
     v_inline (own_offset st' cb f) - v_inline (own_offset st cb f) = l0 /\ v_block (own_offset st' cb f) - v_block (own_offset st cb f) = l0).
  { intros H1 H2 f. unfold own_offset. rewrite Hpos. destruct pos, (sv st Lposition); try discriminate; cbn [vec2_zero v_inline v_block]; split; ring. }
  unfold framed_as, layout_in_flow. rewrite E_cb, E_col, E_pad, E_bd, E_m, Hpos.
  destruct (is_relatively_positioned (sv st Lposition)) eqn:E1, (is_relatively_positioned pos) eqn:E2.
  - destruct (positioned_ok g (fl_fragments fl) z (if_padding cb st) Tg) as (ch & Ech).
    eexists (FBox st ch (Rect y z) _ _ _ _), []. split; [exact I|]. split; [constructor|]. split; [repeat eexists|]. split; [|split; [|left; reflexivity]].
    + intros rank abs floats. rewrite F. cbn [bind app]. rewrite positioned_rank, Ey. cbn [r_size]. rewrite Ech. cbn [bind map]. rewrite app_nil_r. reflexivity.
    + intros rank abs floats. rewrite F. cbn [bind app]. rewrite positioned_rank, Ez, Ech. cbn [bind map]. rewrite app_nil_r.
      cbn [moved r_start r_size]. rewrite (Hc ch (if_padding cb st) (if_border cb st) (if_margin cb st) (if_margins cb st same (fl_margins fl))). rewrite E_ms. reflexivity.
  - destruct Hr as [Hr|Hr]; [discriminate|]. destruct (Hr (if_children_cb cb st) (if_start_collapse cb st same)) as (fl2 & F2). unfold flow_framed_as in F2.
    assert (fl2 = fl /\ g = []) as [-> ->].
    { pose proof (F O [] false) as X. rewrite (F2 O [] false) in X. injection X as -> X. cbn in X. destruct g; [split; reflexivity | discriminate]. }
    eexists (FBox st (fl_fragments fl) (Rect y z) _ _ _ _), []. split; [exact I|]. split; [constructor|]. split; [repeat eexists|]. split; [|split; [|left; reflexivity]].
    + intros rank abs floats. rewrite F. cbn [bind app map in_positioned_containing_block]. rewrite Ey. cbn [bind map]. rewrite app_nil_r. reflexivity.
    + intros rank abs floats. rewrite F. cbn [bind map]. rewrite app_nil_r.
      cbn [moved r_start r_size]. rewrite (Hc (fl_fragments fl) (if_padding cb st) (if_border cb st) (if_margin cb st) (if_margins cb st same (fl_margins fl))). rewrite E_ms. reflexivity.
  - destruct Hr as [Hr|Hr]; [discriminate|]. destruct (Hr (if_children_cb cb st) (if_start_collapse cb st same)) as (fl2 & F2). unfold flow_framed_as in F2.
    assert (fl2 = fl /\ g = []) as [-> ->].
    { pose proof (F O [] false) as X. rewrite (F2 O [] false) in X. injection X as -> X. cbn in X. destruct g; [split; reflexivity | discriminate]. }
    eexists (FBox st (fl_fragments fl) (Rect y z) _ _ _ _), []. split; [exact I|]. split; [constructor|]. split; [repeat eexists|]. split; [|split; [|left; reflexivity]].
    + intros rank abs floats. rewrite F. cbn [bind app map]. rewrite Ey. cbn [bind map]. rewrite app_nil_r. reflexivity.
    + intros rank abs floats. rewrite F. cbn [bind app map in_positioned_containing_block]. rewrite app_nil_r.
      cbn [moved r_start r_size]. rewrite (Hc (fl_fragments fl) (if_padding cb st) (if_border cb st) (if_margin cb st) (if_margins cb st same (fl_margins fl))). rewrite E_ms. reflexivity.
  - eexists (FBox st (fl_fragments fl) (Rect y z) _ _ _ _), g. split; [exact I|]. split; [exact Tg|]. split; [repeat eexists|]. split; [|split; [|right; apply Zero; reflexivity]].
    + intros rank abs floats. rewrite F. cbn [bind app map]. rewrite Ey. reflexivity.
    + intros rank abs floats. rewrite F. cbn [bind app map].
      cbn [moved r_start r_size]. rewrite (Hc (fl_fragments fl) (if_padding cb st) (if_border cb st) (if_margin cb st) (if_margins cb st same (fl_margins fl))). rewrite E_ms. reflexivity.
Qed.

(** No absolutely positioned box escapes from the contents of a box. *)
Definition none_escape (b : blb) : Prop :=
  match b with
  | SameFC _ c => forall cb floats col fl abs, layout_container c cb O [] floats col = Ok (fl, abs) -> abs = []
  | Indep _ c => forall cb fl abs, layout_bfc c cb O [] = Ok (fl, abs) -> abs = []
  | _ => False
  end.
Definition restyled (b : blb) (st : style) : blb :=
  match b with SameFC _ c => SameFC st c | Indep _ c => Indep st c | BAbspos _ c => BAbspos st c | BFloat _ c => BFloat st c end.
Lemma own_offset_shift st cb d f : own_offset st cb (shift_frag d f) = own_offset st cb f.
Proof. unfold own_offset. destruct f, (sv st Lposition); reflexivity. Qed.
Lemma wf_list_app l1 l2 : fold_right (fun x Q => wf_blb x /\ Q) True (l1 ++ l2) <->
  fold_right (fun x Q => wf_blb x /\ Q) True l1 /\ fold_right (fun x Q => wf_blb x /\ Q) True l2.
Proof. induction l1 as [|x l1 IH]; cbn [app fold_right]; [tauto|]. rewrite IH. tauto. Qed.
Theorem relative_moves_one pre b post cb rank abs floats col pos t r bo l : in_flow b = true ->
  wf_container (BlockLevelBoxes (pre ++ b :: post)) ->
  let st := box_style b in
  let st' := repositioned st pos t r bo l in
  (is_relatively_positioned pos = is_relatively_positioned (sv st Lposition) \/ none_escape b) ->
  exists A f B bs cm abs',
    let dx := v_inline (own_offset st' cb f) - v_inline (own_offset st cb f) in
    let dy := v_block (own_offset st' cb f) - v_block (own_offset st cb f) in
    layout_container (BlockLevelBoxes (pre ++ b :: post)) cb rank abs floats col = Ok (Flow (A ++ f :: B) bs cm, abs') /\
    layout_container (BlockLevelBoxes (pre ++ restyled b st' :: post)) cb rank abs floats col =
      Ok (Flow (A ++ moved st' dx dy f :: B) bs cm, abs') /\
    List.length A = List.length pre.
Proof.
  intros Hb W st st' Hr. cbn [wf_container] in W. apply wf_list_app in W. destruct W as [W1 [W2 W3]].
  destruct (layout_framed m_ascent m_descent m_width) as (_ & HQ & HR).
  assert (K : exists f g, good f /\ Forall total_abs g /\ (exists a b c d e h i, f = FBox a b c d e h i) /\
    framed_as (layout_blb b cb) f g /\
    let dx := v_inline (own_offset st' cb f) - v_inline (own_offset st cb f) in
    let dy := v_block (own_offset st' cb f) - v_block (own_offset st cb f) in
    framed_as (layout_blb (restyled b st') cb) (moved st' dx dy f) g /\ (g = [] \/ dx = l0 /\ dy = l0)).
  { destruct b as [st0 c|st0 c|st0 c|st0 c]; try discriminate; cbn [box_style] in st.
    - apply (move_box cb st true pos t r bo l (fun rank floats cb' abs' col => layout_container c cb' rank abs' floats col)); [exact (HQ c W2)|].
      destruct Hr as [Hr|Hr]; [left; exact Hr | right]. intros cb' col'. destruct (HQ c W2 cb' col') as (fl & g & _ & F). exists fl.
      assert (g = []) as ->. { pose proof (Hr cb' false col' fl _ (F O [] false)) as X. cbn in X. destruct g; [reflexivity | discriminate]. } exact F.
    - apply (move_box cb st false pos t r bo l (fun rank floats cb' abs' (_ : bool) => layout_bfc c cb' rank abs')); [intros cb' _; exact (HR c W2 cb')|].
      destruct Hr as [Hr|Hr]; [left; exact Hr | right]. intros cb' col'. destruct (HR c W2 cb') as (fl & g & _ & F). exists fl.
      assert (g = []) as ->. { pose proof (Hr cb' fl _ (F O [] false)) as X. cbn in X. destruct g; [reflexivity | discriminate]. } exact F. }
  destruct K as (f & g & Gf & Tg & Hbox & F & F' & Hg).
  destruct (move_in_container (map layout_blb pre) (map layout_blb post) _ _ cb col f _ g st' _ _ (wf_framed _ _ _ _ W1) (wf_framed _ _ _ _ W3)
    F F' eq_refl Hbox Hg Gf Tg rank abs floats) as (A & f1 & B & bs & cm & abs' & E1 & E2 & L & (d & Hd)).
  exists A, f1, B, bs, cm, abs'. cbv zeta.
  change (layout_container (BlockLevelBoxes (pre ++ b :: post)) cb rank abs floats col) with (layout_block_level_children (map layout_blb (pre ++ b :: post)) cb rank abs floats col).
  change (layout_container (BlockLevelBoxes (pre ++ restyled b st' :: post)) cb rank abs floats col) with (layout_block_level_children (map layout_blb (pre ++ restyled b st' :: post)) cb rank abs floats col).
  rewrite !map_app. split; [exact E1|]. split; [|rewrite L, map_length; reflexivity].
  rewrite Hd in *. rewrite !own_offset_shift. exact E2.
Qed.
End Tree.
