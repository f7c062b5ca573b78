(** Taking away a block that adds nothing: layout (C97). *)
From Verif Require Import Base Len StyleModel StyleSpec GeomModel GfxModel InlineModel InlineSpec InlineProofs BlockModel BlockSpec BlockFrame BlockGen BlockStack.
From Verif Require Import CStrModel PaintModel PaintProofs AppendSpec AppendBox AppendProofs AppendExact PrependSpec PrependBox PrependProofs WrapSpec WrapInline UnboxSpec.
Local Open Scope len_scope.
Local Open Scope result_scope.

Section Font.
Variable font_of : style -> font.
Notation seen := (seen font_of).
(** what is looked at *)
Variable keep : dcall -> bool.
Notation sees := (fun o fs => filter keep (flat_map (seen o) fs)).

(* ------------------------------------------------------------------ *)
(** * Margins *)
Lemma adjoin_comm a b : cm_adjoin a b = cm_adjoin b a.
Proof. unfold cm_adjoin. f_equal; lenq. Qed.
Definition cm_ok (c : cmargin) : Prop := cm_adjoin c cm_zero = c.
Lemma zero_ok : cm_ok cm_zero. Proof. reflexivity. Qed.
Lemma new_ok m : cm_ok (cm_new m). Proof. unfold cm_ok, cm_adjoin, cm_new. cbn. f_equal; lenq. Qed.
Lemma adjoin_ok a b : cm_ok a -> cm_ok (cm_adjoin a b).
Proof. unfold cm_ok. intros H. rewrite <- adjoin_assoc, (adjoin_comm b), adjoin_assoc, H. reflexivity. Qed.
Lemma zero_adjoin a : cm_ok a -> cm_adjoin cm_zero a = a.
Proof. intros H. rewrite adjoin_comm. exact H. Qed.
Definition end_ok (f : fragment) : Prop := match f with FBox _ _ _ _ _ _ cm => cm_ok (cb_end cm) | _ => True end.
Definition pl_ok (s : placement) : Prop := cm_ok (pl_start s) /\ cm_ok (pl_margin s) /\ (pl_collapses s = true -> pl_margin s = cm_zero /\ pl_pos s = l0).
Lemma solve_zero : cm_solve cm_zero = l0. Proof. unfold cm_solve. cbn. lenq. Qed.
Lemma start_ok col : pl_ok (placement_start col).
Proof. split; [apply zero_ok|split; [apply zero_ok|]]. intros _. split; reflexivity. Qed.
Lemma place_pl_ok f s f1 s1 : end_ok f -> pl_ok s -> place f s = Ok (f1, s1) -> pl_ok s1.
Proof.
  intros E (A & B & C) H. destruct f as [st ch r p b m cm|r ch|]; [| |discriminate].
  - cbn [place] in H. destruct (pl_collapses s).
    + destruct (C eq_refl) as [Em Ep]. destruct (leqb _ _); [|discriminate]. destruct (cb_through cm); apply ok_pair in H as [-> ->]; (split; [|split; [|try (intros X; discriminate X)]]); cbn [pl_start pl_margin pl_collapses pl_pos];
        try assumption; try (repeat apply adjoin_ok; assumption).
    + destruct (cb_through cm); apply ok_pair in H as [-> ->]; (split; [|split; [|intros X; discriminate X]]); cbn [pl_start pl_margin]; try assumption. repeat apply adjoin_ok; assumption.
  - cbn [place] in H. destruct ch; [|discriminate]. destruct (leqb _ _); [|discriminate]. apply ok_pair in H as [-> ->]. split; [exact A|split; [exact B|exact C]].
Qed.
Lemma places_pl_ok fs : Forall end_ok fs -> forall s fs1 s1, pl_ok s -> place_all fs s = Ok (fs1, s1) -> pl_ok s1.
Proof.
  induction 1 as [|f fs Hf _ IH]; intros s fs1 s1 Hs H; cbn [place_all] in H; [injection H as <- <-; exact Hs|].
  destruct (place f s) as [[g s2]| |] eqn:E1; cbn [bind] in H; try discriminate. destruct (place_all fs s2) as [[gs s3]| |] eqn:E2; cbn [bind] in H; try discriminate.
  injection H as <- <-. apply (IH _ _ _ (place_pl_ok _ _ _ _ Hf Hs E1) E2).
Qed.

(* ------------------------------------------------------------------ *)
(** * Placing boxes in a wrapper and without it *)
(** nothing to look at, wherever it is *)
Definition quiet (f : fragment) : Prop := forall o, filter keep (seen o f) = [].
Definition quiet_if_through (f : fragment) : Prop := goes_through f = true -> quiet f.

Lemma sees_cons o f fs : sees o (f :: fs) = filter keep (seen o f) ++ sees o fs.
Proof. cbn [flat_map]. apply filter_app. Qed.
Lemma put_move r y : Rect (Vec2 (v_inline (r_start r)) y) (r_size r) = move r l0 (y - v_block (r_start r)).
Proof. destruct r as [[ri rb] rs]. unfold move. cbn [r_start r_size v_inline v_block]. f_equal. f_equal; ring. Qed.
Lemma quiet_put f y : quiet f -> quiet (put_top y f).
Proof.
  intros Q o. destruct f as [st ch r p b m cm|r ch|st r fo sg]; cbn [put_top]; rewrite ?put_move, ?seen_box, ?seen_anon; apply Q.
Qed.
Lemma place_quiet f s f1 s1 : quiet f -> place f s = Ok (f1, s1) -> quiet f1.
Proof. intros Q H. destruct (place_put _ _ _ _ H) as [y ->]. apply quiet_put, Q. Qed.

(** after the first box that is not collapsed through *)
Lemma place_down d f s f1 s1 s' f1' s1' : sync d s s' -> place f s = Ok (f1, s1) -> place f s' = Ok (f1', s1') ->
  sync d s1 s1' /\ pl_start s1 = pl_start s /\ pl_start s1' = pl_start s' /\ forall o, seen o f1' = seen (plus o l0 d) f1.
Proof.
  intros (C & C' & M & P) H H'. destruct f as [st ch r p b m cm|r ch|st r fo sg]; [| |discriminate].
  - cbn [place] in H, H'. rewrite C in H. rewrite C' in H'. cbn [pl_margin pl_pos] in *. rewrite M, P in H'.
    destruct (cb_through cm); injection H as <- <-; injection H' as <- <-; (split; [repeat split; cbn; try reflexivity; try assumption; try ring|]);
      (split; [reflexivity|split; [reflexivity|]]); intros o; rewrite !shift_move, !seen_box, plus_plus; f_equal; f_equal; ring.
  - cbn [place] in H, H'. destruct ch; [|discriminate]. destruct (leqb _ _); [|discriminate]. injection H as <- <-. injection H' as <- <-.
    split; [repeat split; assumption|]. split; [reflexivity|split; [reflexivity|]]. intros o. reflexivity.
Qed.
Lemma places_down d fs : forall s fs1 s1 s' fs1' s1', sync d s s' -> place_all fs s = Ok (fs1, s1) -> place_all fs s' = Ok (fs1', s1') ->
  sync d s1 s1' /\ pl_start s1 = pl_start s /\ pl_start s1' = pl_start s' /\ forall o, flat_map (seen o) fs1' = flat_map (seen (plus o l0 d)) fs1.
Proof.
  induction fs as [|f fs IH]; intros s fs1 s1 s' fs1' s1' S H H'; cbn [place_all] in H, H'.
  { injection H as <- <-. injection H' as <- <-. split; [exact S|repeat split; reflexivity]. }
  destruct (place f s) as [[g s2]| |] eqn:E1; cbn [bind] in H; try discriminate. destruct (place f s') as [[g' s2']| |] eqn:E1'; cbn [bind] in H'; try discriminate.
  destruct (place_all fs s2) as [[gs s3]| |] eqn:E2; cbn [bind] in H; try discriminate. destruct (place_all fs s2') as [[gs' s3']| |] eqn:E2'; cbn [bind] in H'; try discriminate.
  injection H as <- <-. injection H' as <- <-. destruct (place_down _ _ _ _ _ _ _ _ S E1 E1') as (S2 & G & G' & D). destruct (IH _ _ _ _ _ _ S2 E2 E2') as (S3 & K & K' & Ds).
  split; [exact S3|]. split; [congruence|]. split; [congruence|]. intros o. cbn [flat_map]. rewrite D, Ds. reflexivity.
Qed.

(** in a wrapper whose own start margin collapses with that of its parent: [u] in the wrapper, [u'] without it *)
Definition at_top (S0 : cmargin) (u u' : placement) : Prop :=
  pl_start u' = cm_adjoin S0 (pl_start u) /\ pl_collapses u' = pl_collapses u /\ pl_margin u' = pl_margin u /\ pl_pos u' = pl_pos u.
Lemma place_at_top S0 f u u' g v g' v' : at_top S0 u u' -> place f u = Ok (g, v) -> place f u' = Ok (g', v') -> at_top S0 v v' /\ g' = g.
Proof.
  intros (A & B & C & D) H H'. destruct f as [st ch r p b m cm|r ch|]; [| |discriminate].
  - cbn [place] in H, H'. rewrite B, C, D in H'. destruct (pl_collapses u).
    + destruct (leqb _ _); [|discriminate]. rewrite A in H'. cbn [pl_margin pl_start pl_pos pl_collapses] in *.
      destruct (cb_through cm); injection H as <- <-; injection H' as <- <-; (split; [|reflexivity]); repeat split; cbn [pl_start]; rewrite ?adjoin_assoc; reflexivity.
    + cbn [pl_margin pl_start pl_pos pl_collapses] in *. destruct (cb_through cm); injection H as <- <-; injection H' as <- <-; (split; [|reflexivity]); repeat split; cbn [pl_start]; exact A.
  - cbn [place] in H, H'. destruct ch; [|discriminate]. destruct (leqb _ _); [|discriminate]. injection H as <- <-. injection H' as <- <-. rewrite D. split; [repeat split; assumption|reflexivity].
Qed.
Lemma places_at_top S0 fs : forall u u' gs v gs' v', at_top S0 u u' -> place_all fs u = Ok (gs, v) -> place_all fs u' = Ok (gs', v') -> at_top S0 v v' /\ gs' = gs.
Proof.
  induction fs as [|f fs IH]; intros s s' fs1 s1 fs1' s1' S H H'; cbn [place_all] in H, H'.
  { injection H as <- <-. injection H' as <- <-. split; [exact S|reflexivity]. }
  destruct (place f s) as [[g s2]| |] eqn:E1; cbn [bind] in H; try discriminate. destruct (place f s') as [[g' s2']| |] eqn:E1'; cbn [bind] in H'; try discriminate.
  destruct (place_all fs s2) as [[gs s3]| |] eqn:E2; cbn [bind] in H; try discriminate. destruct (place_all fs s2') as [[gs' s3']| |] eqn:E2'; cbn [bind] in H'; try discriminate.
  injection H as <- <-. injection H' as <- <-. destruct (place_at_top _ _ _ _ _ _ _ _ S E1 E1') as [S2 ->]. destruct (IH _ _ _ _ _ _ S2 E2 E2') as [S3 ->].
  split; [exact S3|reflexivity].
Qed.

(** in a wrapper further down: before its first box that is not collapsed through *)
Definition before_first (s0 u u' : placement) : Prop :=
  pl_collapses u = true /\ pl_margin u = cm_zero /\ pl_pos u = l0 /\
  pl_collapses u' = false /\ pl_start u' = pl_start s0 /\ pl_margin u' = cm_adjoin (pl_margin s0) (pl_start u) /\ pl_pos u' = pl_pos s0.
Definition down (s0 u : placement) : Len := cm_solve (cm_adjoin (pl_margin s0) (pl_start u)) + pl_pos s0.
Lemma places_below s0 fs : Forall quiet_if_through fs -> forall u u' gs v gs' v', before_first s0 u u' ->
  place_all fs u = Ok (gs, v) -> place_all fs u' = Ok (gs', v') ->
  pl_start v' = pl_start s0 /\ (forall o, sees o gs' = sees (plus o l0 (down s0 v)) gs) /\
  (before_first s0 v v' \/ sync (down s0 v) v v').
Proof.
  induction 1 as [|f fs Hf _ IH]; intros s s' fs1 s1 fs1' s1' S H H'; cbn [place_all] in H, H'.
  { injection H as <- <-. injection H' as <- <-. split; [apply S|]. split; [reflexivity|left; exact S]. }
  destruct (place f s) as [[g s2]| |] eqn:E1; cbn [bind] in H; try discriminate. destruct (place f s') as [[g' s2']| |] eqn:E1'; cbn [bind] in H'; try discriminate.
  destruct (place_all fs s2) as [[gs s3]| |] eqn:E2; cbn [bind] in H; try discriminate. destruct (place_all fs s2') as [[gs' s3']| |] eqn:E2'; cbn [bind] in H'; try discriminate.
  injection H as <- <-. injection H' as <- <-.
  destruct (goes_through f) eqn:T.
  - pose proof (place_quiet _ _ _ _ (Hf T) E1) as Q. pose proof (place_quiet _ _ _ _ (Hf T) E1') as Q'.
    assert (S2 : before_first s0 s2 s2').
    { destruct S as (A1 & A2 & A3 & A4 & A5 & A6 & A7). destruct f as [st ch r p b m cm|r ch|]; [| |discriminate].
      - cbn [goes_through] in T. cbn [place] in E1, E1'. rewrite A1, T in E1. rewrite A4, T in E1'. destruct (leqb _ _) in E1; [|discriminate].
        cbn [pl_margin pl_start pl_pos pl_collapses] in *. injection E1 as <- <-. injection E1' as <- <-. repeat split; cbn; try assumption. rewrite A6, !adjoin_assoc. reflexivity.
      - cbn [place] in E1, E1'. destruct ch; [|discriminate]. destruct (leqb _ _); [|discriminate]. injection E1 as <- <-. injection E1' as <- <-. repeat split; assumption. }
    destruct (IH _ _ _ _ _ _ S2 E2 E2') as (A & B & C). split; [exact A|]. split; [|exact C].
    intros o. rewrite !sees_cons, Q, Q'. exact (B o).
  - destruct f as [st ch r p b m cm|r ch|]; [|discriminate..]. cbn [goes_through] in T.
    destruct S as (A1 & A2 & A3 & A4 & A5 & A6 & A7).
    cbn [place] in E1, E1'. rewrite A1, T in E1. rewrite A4, T in E1'. destruct (leqb _ _) in E1; [|discriminate].
    cbn [pl_margin pl_start pl_pos pl_collapses] in *. apply ok_pair in E1 as [-> ->]. apply ok_pair in E1' as [-> ->].
    cbn [pl_margin pl_start pl_pos pl_collapses] in *. rewrite A2, A3, solve_zero in E2. rewrite A5, A6, A7 in E2'.
    assert (Sy : sync (cm_solve (cm_adjoin (pl_margin s0) (cm_adjoin (pl_start s) (cb_start cm))) + pl_pos s0)
       (Placement false (cm_adjoin (pl_start s) (cb_start cm)) (cb_end cm) (l0 + (l0 + (block_sum p + block_sum b + v_block (r_size r)))))
       (Placement false (pl_start s0) (cb_end cm) (pl_pos s0 + (cm_solve (cm_adjoin (cm_adjoin (pl_margin s0) (pl_start s)) (cb_start cm)) + (block_sum p + block_sum b + v_block (r_size r)))))).
    { repeat split. cbn [pl_pos]. rewrite adjoin_assoc. ring. }
    destruct (places_down _ _ _ _ _ _ _ _ Sy E2 E2') as (S3 & G & G' & D). cbn [pl_start] in G, G'.
    assert (Dn : down s0 s3 = cm_solve (cm_adjoin (pl_margin s0) (cm_adjoin (pl_start s) (cb_start cm))) + pl_pos s0) by (unfold down; rewrite G; reflexivity).
    split; [exact G'|]. rewrite Dn. split; [|right; exact S3].
    intros o. rewrite !sees_cons, D. f_equal. rewrite A2, A3, A6, A7, solve_zero, !shift_move, !seen_box, plus_plus, <- adjoin_assoc.
    match goal with |- filter _ (seen ?a _) = filter _ (seen ?b _) => replace a with b; [reflexivity|] end. unfold plus. f_equal; ring.
Qed.

(* ------------------------------------------------------------------ *)
(** * Fragments that look the same *)
Definition same_look (f f' : fragment) : Prop :=
  f' = f \/ exists st ch ch' r p b m cm, f = FBox st ch r p b m cm /\ f' = FBox st ch' r p b m cm /\ forall o, sees o ch' = sees o ch.
Lemma same_seen f f' o : same_look f f' -> filter keep (seen o f') = filter keep (seen o f).
Proof.
  intros [->|(st & ch & ch' & r & p & b & m & cm & -> & -> & H)]; [reflexivity|]. cbn [WrapInline.seen]. rewrite !filter_app. f_equal. apply H.
Qed.
Lemma place_look f f' s g t g' t' : same_look f f' -> place f s = Ok (g, t) -> place f' s = Ok (g', t') -> t' = t /\ forall o, filter keep (seen o g') = filter keep (seen o g).
Proof.
  intros [->|(st & ch & ch' & r & p & b & m & cm & -> & -> & L)] H H'; [rewrite H in H'; injection H' as <- <-; split; [reflexivity|intros o; reflexivity]|].
  cbn [place] in H, H'. cbv zeta in *.
  assert (G : forall y, same_look (FBox st ch (shift_block r y) p b m cm) (FBox st ch' (shift_block r y) p b m cm)) by (intros y; right; do 8 eexists; split; [reflexivity|split; [reflexivity|exact L]]).
  assert (G0 : same_look (FBox st ch r p b m cm) (FBox st ch' r p b m cm)) by (right; do 8 eexists; split; [reflexivity|split; [reflexivity|exact L]]).
  destruct (pl_collapses s); [destruct (leqb _ _); [|discriminate]|]; destruct (cb_through cm); apply ok_pair in H as [-> ->]; apply ok_pair in H' as [-> ->]; (split; [reflexivity|]); intros o; apply same_seen; auto.
Qed.

(** the wrapper *)
Section Wrapper.
Variable st : style.
Hypothesis Bn : block_adds_nothing st.
Variable cb : cblock.
Lemma w_padding : if_padding cb st = Sides l0 l0 l0 l0.
Proof. destruct (bn_padding _ Bn) as (E1 & E2 & E3 & E4). unfold if_padding, style_padding. cbn. rewrite E1, E2, E3, E4. reflexivity. Qed.
Lemma w_border : if_border cb st = Sides l0 l0 l0 l0.
Proof. destruct (bn_border _ Bn) as (E1 & E2 & E3 & E4). unfold if_border, style_border_width. cbn. rewrite E1, E2, E3, E4. reflexivity. Qed.
Lemma w_pb : if_pb cb st = Sides l0 l0 l0 l0.
Proof. unfold if_pb. rewrite w_padding, w_border. unfold sides_add. cbn. f_equal; ring. Qed.
Lemma w_inline : if_computed_inline_size cb st = LAAuto.
Proof. unfold if_computed_inline_size, box_size. cbn. rewrite (proj1 (bn_size _ Bn)). reflexivity. Qed.
Lemma w_block : if_block_size cb st = LAAuto.
Proof. unfold if_block_size, box_size. cbn. rewrite (proj2 (bn_size _ Bn)). reflexivity. Qed.
Lemma w_margin : if_margin cb st = Sides l0 l0 l0 l0.
Proof.
  destruct (bn_margin _ Bn) as (E1 & E2 & E3 & E4). unfold if_margin. rewrite w_inline. unfold style_margin. cbn. rewrite E1, E2, E3, E4. reflexivity.
Qed.
Lemma w_children : cb_block cb = LAAuto -> if_children_cb cb st = cb.
Proof.
  intros H. unfold if_children_cb, if_inline_size. rewrite w_inline, w_block, w_pb, w_margin. destruct cb as [i b]. cbn in *. rewrite H. unfold inline_sum. cbn. f_equal. ring.
Qed.
Lemma w_sc : if_start_collapse cb st true = true.
Proof. unfold if_start_collapse. rewrite w_pb. reflexivity. Qed.
Lemma w_ec : if_end_collapse cb st true = true.
Proof. unfold if_end_collapse. rewrite w_pb, w_block. reflexivity. Qed.
Lemma w_content fl : if_content cb st true fl = Rect (Vec2 l0 l0) (Vec2 (if_inline_size cb st) (fl_block_size fl)).
Proof.
  unfold if_content, if_height. rewrite w_ec, w_pb, w_margin, w_block. cbn [auto_is].
  unfold relative_adjustement. rewrite (bn_static _ Bn). cbn. repeat f_equal.
Qed.
Lemma w_margins cm : cm_ok (cb_start cm) -> cm_ok (cb_end cm) -> (cb_through cm = true -> cb_end cm = cm_zero) ->
  if_margins cb st true cm = cm.
Proof.
  intros A B C. unfold if_margins, if_child_end. rewrite w_ec, w_sc, w_margin. cbn [andb cb_from_margin s_block_start s_block_end cb_start cb_end].
  change (cm_new l0) with cm_zero. destruct cm as [t a b]. cbn [cb_through cb_start cb_end] in *. destruct t.
  - rewrite (C eq_refl). rewrite (zero_adjoin a A), A. f_equal.
  - rewrite (zero_adjoin a A), (zero_adjoin b B). reflexivity.
Qed.
Lemma w_seen ch r m cm o : seen o (FBox st ch r (if_padding cb st) (if_border cb st) m cm) = flat_map (seen (inside o r)) ch.
Proof. apply bare_box; [apply (bn_background _ Bn)|]. rewrite w_border. repeat split; reflexivity. Qed.

Lemma inside_at o r y : r_start r = Vec2 l0 l0 -> inside o (shift_block r y) = plus o l0 y.
Proof. intros E. unfold inside, shift_block, plus. cbn [r_start v_inline v_block]. rewrite E. cbn. f_equal; ring. Qed.
Lemma place_wrapper fs ch v s0 f1 s1 gs' s1' fl : Forall quiet_if_through fs -> Forall end_ok fs -> pl_ok s0 ->
  place_all fs (placement_start true) = Ok (ch, v) ->
  fl_block_size fl = pl_pos v -> fl_margins fl = CBMargins (pl_collapses v) (pl_start v) (pl_margin v) ->
  place (FBox st ch (if_content cb st true fl) (if_padding cb st) (if_border cb st) (if_margin cb st) (if_margins cb st true (fl_margins fl))) s0 = Ok (f1, s1) ->
  place_all fs s0 = Ok (gs', s1') ->
  s1' = s1 /\ forall o, sees o gs' = filter keep (seen o f1).
Proof.
  intros Q En (P1 & P2 & P3) Hi Z M H H'.
  destruct (places_pl_ok _ En _ _ _ (start_ok true) Hi) as (V1 & V2 & V3).
  rewrite w_margins in H by (rewrite M; cbn [cb_start cb_end cb_through]; try assumption; apply V3).
  rewrite w_content, Z, M in H. cbn [place cb_through cb_start cb_end r_size v_block] in H. cbv zeta in H.
  replace (block_sum (if_padding cb st) + block_sum (if_border cb st) + pl_pos v) with (pl_pos v) in H by (rewrite w_padding, w_border; unfold block_sum; cbn [s_block_start s_block_end]; ring).
  destruct (pl_collapses s0) eqn:C0.
  - destruct (P3 eq_refl) as [Em Ep].
    assert (A : at_top (pl_start s0) (placement_start true) s0).
    { split; [symmetry; exact P1|]. split; [exact C0|]. split; [exact Em|exact Ep]. }
    destruct (places_at_top _ _ _ _ _ _ _ _ A Hi H') as [(A1 & A2 & A3 & A4) ->]. destruct (leqb _ _); [|discriminate].
    destruct (pl_collapses v) eqn:Cv; cbn [pl_margin pl_start pl_pos pl_collapses] in H; apply ok_pair in H as [-> ->].
    + destruct (V3 eq_refl) as [Vm Vp]. split.
      * destruct s1' as [a b c d]. cbn in A1, A2, A3, A4. subst a b c d. rewrite Vm, Vp, Em, Ep. f_equal. symmetry. exact (adjoin_ok _ _ P1).
      * intros o. rewrite w_seen. unfold inside. cbn. replace (l0 + fst o, l0 + snd o) with o by (destruct o as [x y]; cbn; f_equal; ring). reflexivity.
    + split.
      * destruct s1' as [a b c d]. cbn in A1, A2, A3, A4. subst a b c d. rewrite Em, Ep. f_equal. rewrite solve_zero. ring.
      * intros o. rewrite w_seen, inside_at by reflexivity. rewrite Em, Ep, solve_zero. unfold plus. 
        replace (fst o + l0, snd o + (l0 + l0)) with o by (destruct o as [x y]; cbn; f_equal; ring). reflexivity.
  - assert (A : before_first s0 (placement_start true) s0).
    { repeat split; try assumption; try reflexivity. cbn [placement_start pl_start]. symmetry. exact P2. }
    destruct (places_below s0 fs Q _ _ _ _ _ _ A Hi H') as (B1 & B2 & B3). cbn [pl_margin pl_start pl_pos pl_collapses] in H.
    assert (Df : forall o, sees o gs' = sees (plus o l0 (cm_solve (cm_adjoin (pl_margin s0) (pl_start v)) + pl_pos s0)) ch) by exact B2.
    destruct B3 as [(D1 & D2 & D3 & D4 & D5 & D6 & D7)|(D1 & D2 & D3 & D4)]; rewrite D1 in H; apply ok_pair in H as [-> ->].
    + split; [|intros o; rewrite w_seen, inside_at by reflexivity; apply Df].
      destruct s1' as [a b c d]. cbn in *. subst a b c d. rewrite D2. f_equal. symmetry. exact (adjoin_ok _ _ P2).
    + split; [|intros o; rewrite w_seen, inside_at by reflexivity; apply Df].
      destruct s1' as [a b c d]. cbn in *. subst a b c d. f_equal. unfold down. ring.
Qed.
End Wrapper.
End Font.

(* ------------------------------------------------------------------ *)
(** * Boxes that are collapsed through show nothing *)
Fixpoint pp_blb (b : blb) : Prop :=
  match b with SameFC st c => match c with InlineFC _ _ => True | BlockLevelBoxes _ => plain_padding st end /\ pp_container c | BAbspos _ _ => True | BFloat _ _ => True | Indep _ c => pp_bfc c end
with pp_container (c : bcontainer) : Prop :=
  match c with
  | BlockLevelBoxes l => fold_right (fun x Q => pp_blb x /\ Q) True l
  | InlineFC _ l => True
  end
with pp_bfc (c : bfc) : Prop := match c with BFC _ c' => pp_container c' end.
Lemma pp_app a : forall b, pp_container (BlockLevelBoxes (a ++ b)) -> pp_container (BlockLevelBoxes a) /\ pp_container (BlockLevelBoxes b).
Proof. induction a as [|x a IH]; intros b H; [split; [exact I|exact H]|]. destruct H as [H1 H2]. destruct (IH b H2) as [A B]. split; [split; assumption|exact B]. Qed.

Section Tree.
Variable font_of : style -> font.
Notation seen := (seen font_of).
Notation quiet := (quiet font_of has_extent).
Notation quiet_if_through := (quiet_if_through font_of has_extent).
Notation sees := (fun o fs => with_extent (flat_map (seen o) fs)).
Variable m_ascent m_descent : style -> Len.
Variable m_width : style -> text -> Len.
Notation layout_blb := (layout_blb m_ascent m_descent m_width).
Notation layout_container := (layout_container m_ascent m_descent m_width).
Notation layout_bfc := (layout_bfc m_ascent m_descent m_width).

Lemma quiets fs : Forall quiet fs -> forall o, sees o fs = [].
Proof. induction 1 as [|f fs Hf _ IH]; intros o; [reflexivity|]. cbn [flat_map]. unfold with_extent in *. rewrite filter_app, (Hf o), (IH o). reflexivity. Qed.
Lemma place_through fs : forall s fs1 s1, Forall quiet_if_through fs -> place_all fs s = Ok (fs1, s1) -> pl_collapses s1 = true -> Forall quiet fs1 /\ pl_collapses s = true.
Proof.
  induction fs as [|f fs IH]; intros s fs1 s1 Q H C; cbn [place_all] in H; [injection H as <- <-; split; [constructor|exact C]|].
  destruct (place f s) as [[g s2]| |] eqn:E1; cbn [bind] in H; try discriminate. destruct (place_all fs s2) as [[gs s3]| |] eqn:E2; cbn [bind] in H; try discriminate.
  injection H as <- <-. inversion Q as [|? ? Qf Qs]; subst. destruct (IH _ _ _ Qs E2 C) as [K C2]. destruct (place_collapses _ _ _ _ E1 C2) as [C1 T].
  split; [|exact C1]. constructor; [|exact K]. exact (place_quiet _ _ _ _ _ _ (Qf T) E1).
Qed.
Lemma in_flow_end cb st same abs lay f a : layout_in_flow cb st same abs lay = Ok (f, a) -> end_ok f.
Proof.
  intros E. apply in_flow_inv in E as (fl & abs1 & extra & _ & -> & _). cbn [end_ok if_margins cb_end].
  destruct (if_end_collapse cb st same); [apply adjoin_ok|]; apply new_ok.
Qed.
Lemma ends b cb rank abs floats f a : layout_blb b cb rank abs floats = Ok (f, a) -> end_ok f.
Proof.
  destruct b as [st c|st c|st c|st c]; intros E.
  - exact (in_flow_end _ _ true _ (fun cb' abs' col => layout_container c cb' rank abs' floats col) _ _ E).
  - injection E as <- _. exact I.
  - injection E as <- _. exact I.
  - exact (in_flow_end _ _ false _ (fun cb' abs' _ => layout_bfc c cb' rank abs') _ _ E).
Qed.
Lemma ends_all cb l fs : Forall2 (fun b => lays_as cb (layout_blb b)) l fs -> Forall end_ok fs.
Proof. induction 1 as [|b f l fs H _ IH]; constructor; [|exact IH]. apply lays_ok in H as [a E]. exact (ends _ _ _ _ _ _ _ E). Qed.
Lemma top_line_none st (B P : prect Len) : (py_ (p_top_left P) - py_ (p_top_left B) <= l0)%Qc -> paint_top st B P = [].
Proof. intros H. unfold paint_top. cbv zeta. destruct (lltb l0 _) eqn:E; [exfalso; revert H E; clear; intros; lenq|reflexivity]. Qed.
Lemma bottom_line_none st (B P : prect Len) : (py_ (p_top_left B) + py_ (p_size B) - py_ (p_top_left P) - py_ (p_size P) <= l0)%Qc -> paint_bottom st B P = [].
Proof. intros H. unfold paint_bottom. cbv zeta. destruct (lltb l0 _) eqn:E; [exfalso; revert H E; clear; intros; lenq|reflexivity]. Qed.
Lemma background_flat st (B : prect Len) : py_ (p_size B) = l0 -> filter has_extent (paint_background st B) = [].
Proof. intros H. unfold paint_background. cbv zeta. rewrite H. destruct (_ <? _)%N; [|reflexivity]. cbn [filter has_extent]. reflexivity. Qed.
Lemma right_flat st (B P : prect Len) : py_ (p_size B) = l0 -> filter has_extent (paint_right st B P) = [].
Proof. intros H. unfold paint_right. cbv zeta. rewrite H. destruct (_ && _); [|reflexivity]. cbn [filter has_extent].
  match goal with |- context [leqb ?a ?a && leqb ?b ?c] => replace (leqb a a && leqb b c) with true; [reflexivity|] end. symmetry. apply andb_true_intro. split; apply leqb_iff; [reflexivity|ring]. Qed.
Lemma left_flat st (B P : prect Len) : py_ (p_size B) = l0 -> filter has_extent (paint_left st B P) = [].
Proof. intros H. unfold paint_left. cbv zeta. rewrite H. destruct (_ && _); [|reflexivity]. cbn [filter has_extent].
  match goal with |- context [leqb ?a ?a && leqb ?b ?c] => replace (leqb a a && leqb b c) with true; [reflexivity|] end. symmetry. apply andb_true_intro. split; apply leqb_iff; [reflexivity|ring]. Qed.
Lemma on_top o r p b : py_ (p_top_left (on o (padding_rect_of r p))) - py_ (p_top_left (on o (border_rect_of r p b))) = s_block_start b.
Proof. unfold on, border_rect_of, padding_rect_of, inflate, sides_add. cbn. ring. Qed.
Lemma on_height o r p b : py_ (p_size (on o (border_rect_of r p b))) = v_block (r_size r) + (s_block_start p + s_block_start b) + (s_block_end p + s_block_end b).
Proof. unfold on, border_rect_of, inflate, block_sum, sides_add. cbn. ring. Qed.
Lemma on_bottom o r p b : py_ (p_top_left (on o (border_rect_of r p b))) + py_ (p_size (on o (border_rect_of r p b)))
  - py_ (p_top_left (on o (padding_rect_of r p))) - py_ (p_size (on o (padding_rect_of r p))) = s_block_end b.
Proof. unfold on, border_rect_of, padding_rect_of, inflate, block_sum, sides_add. cbn. ring. Qed.
Lemma flat_box st cb ch r m cm : plain_padding st -> s_block_start (if_pb cb st) = l0 -> s_block_end (if_pb cb st) = l0 -> v_block (r_size r) = l0 ->
  Forall quiet ch -> quiet (FBox st ch r (if_padding cb st) (if_border cb st) m cm).
Proof.
  intros ((t & Pt & Nt) & (d & Pd & Nd)) Hs He Hh Q o. cbn [WrapInline.seen]. rewrite filter_app. pose proof (quiets _ Q (inside o r)) as Qe. unfold with_extent in Qe. rewrite Qe, app_nil_r.
  assert (Ep1 : s_block_start (if_padding cb st) = t) by (unfold if_padding, style_padding; cbn; rewrite Pt; reflexivity).
  assert (Ep2 : s_block_end (if_padding cb st) = d) by (unfold if_padding, style_padding; cbn; rewrite Pd; reflexivity).
  unfold if_pb, sides_add in Hs, He. cbn [s_block_start s_block_end] in Hs, He. rewrite Ep1 in Hs. rewrite Ep2 in He.
  generalize dependent (if_padding cb st). intros p Ep1 Ep2. generalize dependent (if_border cb st). intros b Hs He.
  assert (Hy : py_ (p_size (on o (border_rect_of r p b))) = l0) by (rewrite on_height, Hh, Ep1, Ep2; clear - Hs He; lenq).
  assert (Hb : (s_block_start b <= l0)%Qc) by (clear - Hs Nt; lenq).
  assert (He' : (s_block_end b <= l0)%Qc) by (clear - He Nd; lenq).
  unfold box_calls. rewrite !filter_app, top_line_none, bottom_line_none by (rewrite ?on_top, ?on_bottom; assumption).
  rewrite background_flat, right_flat, left_flat by exact Hy. reflexivity.
Qed.

Theorem through_quiet :
  (forall b, wf_blb b -> af_blb b -> pp_blb b -> forall cb rank abs floats f abs', layout_blb b cb rank abs floats = Ok (f, abs') -> quiet_if_through f) /\
  (forall c, wf_container c -> af_container c -> pp_container c -> forall cb rank abs floats col fl abs', layout_container c cb rank abs floats col = Ok (fl, abs') ->
     cb_through (fl_margins fl) = true -> Forall quiet (fl_fragments fl) /\ fl_block_size fl = l0) /\
  (forall c, wf_bfc c -> af_bfc c -> pp_bfc c -> forall cb rank abs fl abs', layout_bfc c cb rank abs = Ok (fl, abs') -> cb_through (fl_margins fl) = false).
Proof.
  set (P := fun b => wf_blb b -> af_blb b -> pp_blb b -> forall cb rank abs floats f abs', layout_blb b cb rank abs floats = Ok (f, abs') -> quiet_if_through f).
  set (Q := fun c => wf_container c -> af_container c -> pp_container c -> forall cb rank abs floats col fl abs', layout_container c cb rank abs floats col = Ok (fl, abs') ->
     cb_through (fl_margins fl) = true -> Forall quiet (fl_fragments fl) /\ fl_block_size fl = l0).
  set (R := fun c => wf_bfc c -> af_bfc c -> pp_bfc c -> forall cb rank abs fl abs', layout_bfc c cb rank abs = Ok (fl, abs') -> cb_through (fl_margins fl) = false).
  assert (H1 : forall st c, Q c -> P (SameFC st c)).
  { intros st c Hc W A [Pp Pc] cb rank abs floats f abs' E.
    change (layout_in_flow cb st true abs (fun cb' abs' col => layout_container c cb' rank abs' floats col) = Ok (f, abs')) in E.
    apply in_flow_free in E as (fl & abs0 & E & -> & ->); [|intros cb0 ab0 col0 fl0 ab1 X; exact (proj1 (proj1 (proj2 (free_layout m_ascent m_descent m_width)) c A _ _ _ _ _ _ _ X))].
    intros T. cbn [goes_through if_margins cb_through] in T. apply andb_prop in T as [T Tc]. apply andb_prop in T as [Ts Te].
    destruct (Hc W A Pc _ _ _ _ _ _ _ E Tc) as [Qc Zc]. pose proof Te as Te'. unfold if_start_collapse in Ts. unfold if_end_collapse in Te. cbn [andb] in Ts, Te. apply andb_prop in Te as [Te Au].
    apply leqb_iff in Ts, Te. destruct c as [l|st0 l]; [|rewrite (ifc_margins _ _ _ _ _ _ _ _ _ _ E) in Tc; discriminate]. apply flat_box; try assumption. unfold if_content, if_height. cbn [r_size v_block].
    destruct (if_block_size cb st); [discriminate|]. cbn [auto_is]. rewrite Te'. exact Zc. }
  assert (H2 : forall st c, R c -> P (BAbspos st c)) by (intros st c _ _ []).
  assert (H3 : forall st c, R c -> P (BFloat st c)).
  { intros st c _ _ _ _ cb rank abs floats f abs' [= <- <-] _ o. reflexivity. }
  assert (H4 : forall st c, R c -> P (Indep st c)).
  { intros st c Hc W A Pc cb rank abs floats f abs' E.
    change (layout_in_flow cb st false abs (fun cb' abs' _ => layout_bfc c cb' rank abs') = Ok (f, abs')) in E.
    apply in_flow_inv in E as (fl & abs0 & extra & E & -> & _). intros T. discriminate T. }
  assert (H5 : forall l, Forall P l -> Q (BlockLevelBoxes l)).
  { intros l Hl W A Pp cb rank abs floats col fl abs' E T. apply all_inv in E as (fs & s1 & F & Pl & B & M); [|exact W].
    assert (K : Forall quiet_if_through fs).
    { clear - F Hl W A Pp. revert W A Pp Hl. induction F as [|b f l fs Hf F IH]; intros W A Pp Hl; [constructor|]. destruct W, A, Pp. inversion Hl as [|? ? Pb Hl']; subst.
      constructor; [|apply IH; assumption]. apply lays_ok in Hf as [a Hf]. exact (Pb ltac:(assumption) ltac:(assumption) ltac:(assumption) _ _ _ _ _ _ Hf). }
    rewrite M in T. cbn [cb_through] in T. destruct (place_through _ _ _ _ K Pl T) as [Qf _]. split; [exact Qf|].
    rewrite B. apply (proj2 (proj2 (places_pl_ok _ (ends_all _ _ _ F) _ _ _ (start_ok col) Pl)) T). }
  assert (H6 : forall st l, Forall (ilb_every (fun _ => R)) l -> Q (InlineFC st l)).
  { intros st l _ W A _ cb rank abs floats col fl abs' E T.
    rewrite (ifc_margins _ _ _ _ _ _ _ _ _ _ E) in T. discriminate. }
  assert (H7 : forall fl c, Q c -> R (BFC fl c)).
  { intros fl0 c Hc W A _ cb rank abs fl abs' E. apply bfc_inv in E as (fl1 & E & _ & _ & ->). reflexivity. }
  split; [|split].
  - exact (blb_tree P Q R H1 H2 H3 H4 H5 H6 H7).
  - exact (container_tree P Q R H1 H2 H3 H4 H5 H6 H7).
  - exact (bfc_tree P Q R H1 H2 H3 H4 H5 H6 H7).
Qed.
Lemma quiet_all cb l fs : wf_container (BlockLevelBoxes l) -> af_container (BlockLevelBoxes l) -> pp_container (BlockLevelBoxes l) ->
  Forall2 (fun b => lays_as cb (layout_blb b)) l fs -> Forall quiet_if_through fs.
Proof.
  intros W A Pp F. revert W A Pp. induction F as [|b f l fs Hf F IH]; intros W A Pp; [constructor|]. destruct W, A, Pp. constructor; [|apply IH; assumption].
  apply lays_ok in Hf as [a Hf]. exact (proj1 through_quiet b ltac:(assumption) ltac:(assumption) ltac:(assumption) _ _ _ _ _ _ Hf).
Qed.

(* ------------------------------------------------------------------ *)
(** * The box tree without the wrapper *)
Inductive fewer : bool -> bcontainer -> bcontainer -> Prop :=
| F_here l1 st inner l2 : block_adds_nothing st ->
    fewer true (BlockLevelBoxes (l1 ++ SameFC st (BlockLevelBoxes inner) :: l2)) (BlockLevelBoxes (l1 ++ inner ++ l2))
| F_same h l1 st c c' l2 : fewer (auto_height st) c c' ->
    fewer h (BlockLevelBoxes (l1 ++ SameFC st c :: l2)) (BlockLevelBoxes (l1 ++ SameFC st c' :: l2))
| F_indep h l1 st fl fl' c c' l2 : fewer (auto_height st) c c' ->
    fewer h (BlockLevelBoxes (l1 ++ Indep st (BFC fl c) :: l2)) (BlockLevelBoxes (l1 ++ Indep st (BFC fl' c') :: l2)).
Definition flow_same (fl fl' : flow) : Prop :=
  fl_block_size fl' = fl_block_size fl /\ fl_margins fl' = fl_margins fl /\ forall o, sees o (fl_fragments fl') = sees o (fl_fragments fl).
Lemma split_result l1 l2 s fs s1 : place_all (l1 ++ l2) s = Ok (fs, s1) -> exists x y s', place_all l1 s = Ok (x, s') /\ place_all l2 s' = Ok (y, s1) /\ fs = x ++ y.
Proof. apply place_all_app. Qed.
Lemma sees_app o a b : sees o (a ++ b) = sees o a ++ sees o b.
Proof. unfold with_extent. rewrite flat_map_app, filter_app. reflexivity. Qed.
Lemma lays_app cb l1 : forall l2 fs, Forall2 (fun b => lays_as cb (layout_blb b)) (l1 ++ l2) fs ->
  exists a b, Forall2 (fun b => lays_as cb (layout_blb b)) l1 a /\ Forall2 (fun b => lays_as cb (layout_blb b)) l2 b /\ fs = a ++ b.
Proof. intros l2 fs H. apply Forall2_app_inv_l in H as (a & b & A & B & ->). eauto. Qed.

(** the middle part of a list of boxes replaced *)
Lemma middle_same l1 m m' l2 cb rank abs floats col fl a rank' abs' floats' fl' a' :
  wf_container (BlockLevelBoxes (l1 ++ m ++ l2)) -> wf_container (BlockLevelBoxes (l1 ++ m' ++ l2)) ->
  (forall fs fs' s g t g' t', Forall2 (fun b => lays_as cb (layout_blb b)) m fs -> Forall2 (fun b => lays_as cb (layout_blb b)) m' fs' -> pl_ok s ->
     place_all fs s = Ok (g, t) -> place_all fs' s = Ok (g', t') -> t' = t /\ forall o, sees o g' = sees o g) ->
  layout_container (BlockLevelBoxes (l1 ++ m ++ l2)) cb rank abs floats col = Ok (fl, a) ->
  layout_container (BlockLevelBoxes (l1 ++ m' ++ l2)) cb rank' abs' floats' col = Ok (fl', a') -> flow_same fl fl'.
Proof.
  intros W W' HM E E'. apply all_inv in E as (fs & s1 & F & P & B & G); [|exact W]. apply all_inv in E' as (fs' & s1' & F' & P' & B' & G'); [|exact W'].
  apply lays_app in F as (x & yz & Fx & F & ->). apply lays_app in F as (y & z & Fy & Fz & ->).
  apply lays_app in F' as (x' & yz' & Fx' & F' & ->). apply lays_app in F' as (y' & z' & Fy' & Fz' & ->).
  pose proof (lays_same _ _ _ _ _ _ _ Fx Fx') as ->. pose proof (lays_same _ _ _ _ _ _ _ Fz Fz') as ->.
  apply split_result in P as (gx & gyz & sx & Px & P & Ef). apply split_result in P as (gy & gz & sy & Py & Pz & ->).
  apply split_result in P' as (gx' & gyz' & sx' & Px' & P' & Ef'). apply split_result in P' as (gy' & gz' & sy' & Py' & Pz' & ->).
  rewrite Px in Px'. injection Px' as <- <-.
  pose proof (places_pl_ok _ (ends_all _ _ _ Fx) _ _ _ (start_ok col) Px) as Ok1.
  destruct (HM _ _ _ _ _ _ _ Fy Fy' Ok1 Py Py') as [-> Sy]. rewrite Pz in Pz'. injection Pz' as <- <-.
  split; [congruence|]. split; [congruence|]. intros o. cbv beta. rewrite Ef, Ef'. pose proof (sees_app o) as SA. cbv beta in SA. rewrite !SA. f_equal. f_equal. apply Sy.
Qed.

Lemma block_same cb st same lay lay' f f' abs abs' a a' :
  (forall cb abs col fl abs', lay cb abs col = Ok (fl, abs') -> abs' = abs) ->
  (forall cb abs col fl abs', lay' cb abs col = Ok (fl, abs') -> abs' = abs) ->
  (forall fl abs1 a1 fl' abs1' a1', lay (if_children_cb cb st) abs1 (if_start_collapse cb st same) = Ok (fl, a1) ->
     lay' (if_children_cb cb st) abs1' (if_start_collapse cb st same) = Ok (fl', a1') -> flow_same fl fl') ->
  layout_in_flow cb st same abs lay = Ok (f, a) -> layout_in_flow cb st same abs' lay' = Ok (f', a') -> same_look font_of has_extent f f'.
Proof.
  intros Hf Hf' HL E E'. apply (in_flow_free _ _ _ _ _ _ _ Hf) in E as (fl & abs0 & E & -> & _).
  apply (in_flow_free _ _ _ _ _ _ _ Hf') in E' as (fl' & abs1 & E' & -> & _).
  destruct (HL _ _ _ _ _ _ E E') as (B & M & S). right. unfold if_content, if_height. rewrite B, M. do 8 eexists. split; [reflexivity|]. split; [reflexivity|exact S].
Qed.
Lemma one_same (b b' : blb) cb fs fs' s g t g' t' :
  (forall f f', lays_as cb (layout_blb b) f -> lays_as cb (layout_blb b') f' -> same_look font_of has_extent f f') ->
  Forall2 (fun b => lays_as cb (layout_blb b)) [b] fs -> Forall2 (fun b => lays_as cb (layout_blb b)) [b'] fs' ->
  place_all fs s = Ok (g, t) -> place_all fs' s = Ok (g', t') -> t' = t /\ forall o, sees o g' = sees o g.
Proof.
  intros HL F F' P P'. inversion F as [|? f ? fs0 Hf Fl]; subst. inversion Fl; subst. inversion F' as [|? f' ? fs0' Hf' Fl']; subst. inversion Fl'; subst.
  cbn [place_all] in P, P'. destruct (place f s) as [[f1 s2]| |] eqn:E in P; cbn [bind] in P; try discriminate. destruct (place f' s) as [[f1' s2']| |] eqn:E' in P'; cbn [bind] in P'; try discriminate.
  injection P as <- <-. injection P' as <- <-. destruct (place_look _ _ _ _ _ _ _ _ _ (HL _ _ Hf Hf') E E') as [-> S]. split; [reflexivity|].
  intros o. cbn [flat_map]. rewrite !app_nil_r. apply S.
Qed.
Theorem fewer_layout h c c' : fewer h c c' -> wf_container c -> wf_container c' -> af_container c -> af_container c' -> pp_container c ->
  forall cb, (h = true -> cb_block cb = LAAuto) -> forall rank abs floats col fl a rank' abs' floats' fl' a',
  layout_container c cb rank abs floats col = Ok (fl, a) -> layout_container c' cb rank' abs' floats' col = Ok (fl', a') -> flow_same fl fl'.
Proof.
  assert (AH : forall cb st, auto_height st = true -> cb_block (if_children_cb cb st) = LAAuto).
  { intros cb st. unfold auto_height, if_children_cb, if_block_size, box_size. cbn. destruct (sv st Lheight); [discriminate..|reflexivity]. }
  induction 1 as [l1 st inner l2 Bn|h l1 st c c' l2 L IH|h l1 st fl fl' c c' l2 L IH]; intros W W' A A' Pp cb Hh rank abs floats col f0 a rank' abs' floats' f0' a' E E'.
  - apply (middle_same l1 [SameFC st (BlockLevelBoxes inner)] inner l2 _ _ _ _ _ _ _ _ _ _ _ _ W W') with (2 := E) (3 := E').
    intros fs fs' s g t g' t' F F' Os P P'. inversion F as [|? f ? fs0 Hf Fl]; subst. inversion Fl; subst.
    apply wf_app in W as [_ [Wi _]]. apply af_app in A as [_ [Ai _]]. apply pp_app in Pp as [_ [[_ Pi] _]].
    change (wf_container (BlockLevelBoxes inner)) in Wi. change (af_container (BlockLevelBoxes inner)) in Ai. change (pp_container (BlockLevelBoxes inner)) in Pi.
    apply lays_ok in Hf as [b1 Hf].
    change (layout_in_flow cb st true [] (fun cb' abs' col => layout_container (BlockLevelBoxes inner) cb' 0 abs' false col) = Ok (f, b1)) in Hf.
    apply in_flow_free in Hf as (fl & abs0 & Hf & -> & _); [|intros cb0 ab0 col0 fl0 ab1 X; exact (proj1 (proj1 (proj2 (free_layout m_ascent m_descent m_width)) (BlockLevelBoxes inner) Ai _ _ _ _ _ _ _ X))].
    rewrite (w_children _ Bn _ (Hh eq_refl)), (w_sc _ Bn) in Hf. apply all_inv in Hf as (gs & v & G & Pg & B & M); [|exact Wi].
    pose proof (lays_same _ _ _ _ _ _ _ F' G) as ->.
    cbn [place_all] in P. match type of P with context [place ?x s] => destruct (place x s) as [[f1 s2]| |] eqn:E1 in P end; cbn [bind] in P; try discriminate. injection P as <- <-.
    destruct (place_wrapper font_of has_extent st Bn cb fs' (fl_fragments fl) v s f1 s2 g' t' fl (quiet_all _ _ _ Wi Ai Pi G) (ends_all _ _ _ G) Os Pg B M E1 P') as [-> S].
    split; [reflexivity|]. intros o. cbn [flat_map]. rewrite app_nil_r. apply S.
  - apply (middle_same l1 [SameFC st c] [SameFC st c'] l2 _ _ _ _ _ _ _ _ _ _ _ _ W W') with (2 := E) (3 := E').
    intros fs fs' s g t g' t' Fs Fs' Os. apply (one_same (SameFC st c) (SameFC st c') cb fs fs' s g t g' t') with (2 := Fs) (3 := Fs'). intros f f' F F'.
    apply wf_app in W as [_ [W _]]. apply wf_app in W' as [_ [W' _]]. apply af_app in A as [_ [A _]]. apply af_app in A' as [_ [A' _]]. apply pp_app in Pp as [_ [[_ Pp] _]].
    apply lays_ok in F as [b1 F]. apply lays_ok in F' as [b1' F'].
    refine (block_same _ _ true _ _ _ _ _ _ _ _ _ _ _ F F').
    + intros cb0 abs0 col0 fl0 abs1 E0. exact (proj1 (proj1 (proj2 (free_layout _ _ _)) c A _ _ _ _ _ _ _ E0)).
    + intros cb0 abs0 col0 fl0 abs1 E0. exact (proj1 (proj1 (proj2 (free_layout _ _ _)) c' A' _ _ _ _ _ _ _ E0)).
    + intros fl abs1 a1 fl1 abs2 a2 E1 E2. exact (IH W W' A A' Pp _ (AH cb st) _ _ _ _ _ _ _ _ _ _ _ E1 E2).
  - apply (middle_same l1 [Indep st (BFC fl c)] [Indep st (BFC fl' c')] l2 _ _ _ _ _ _ _ _ _ _ _ _ W W') with (2 := E) (3 := E').
    intros fs fs' s g t g' t' Fs Fs' Os. apply (one_same (Indep st (BFC fl c)) (Indep st (BFC fl' c')) cb fs fs' s g t g' t') with (2 := Fs) (3 := Fs'). intros f f' F F'.
    apply wf_app in W as [_ [W _]]. apply wf_app in W' as [_ [W' _]]. apply af_app in A as [_ [A _]]. apply af_app in A' as [_ [A' _]]. apply pp_app in Pp as [_ [Pp _]].
    apply lays_ok in F as [b1 F]. apply lays_ok in F' as [b1' F'].
    refine (block_same _ _ false _ _ _ _ _ _ _ _ _ _ _ F F').
    + intros cb0 abs0 col0 fl0 abs1 E0. exact (proj1 (proj2 (proj2 (free_layout _ _ _)) (BFC fl c) A _ _ _ _ _ E0)).
    + intros cb0 abs0 col0 fl0 abs1 E0. exact (proj1 (proj2 (proj2 (free_layout _ _ _)) (BFC fl' c') A' _ _ _ _ _ E0)).
    + intros f1 abs1 a1 f2 abs2 a2 E1 E2. apply bfc_inv in E1 as (g1 & E1 & X1 & Z1 & Y1). apply bfc_inv in E2 as (g2 & E2 & X2 & Z2 & Y2).
      unfold flow_same. rewrite X1, X2, Y1, Y2, Z1, Z2.
      destruct (IH W W' A A' Pp _ (AH cb st) _ _ _ _ _ _ _ _ _ _ _ E1 E2) as (B & M & S). rewrite B, M. split; [reflexivity|]. split; [reflexivity|exact S].
Qed.
End Tree.
