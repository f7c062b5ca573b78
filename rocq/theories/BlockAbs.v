(** Absolutely positioned boxes: the constraint equations. *)
From Verif Require Import BlockModel InlineSpec InlineProofs GeomSpec BlockSpec BlockFrame BlockGen BlockStack BlockProofs BlockFlow.
Local Open Scope len_scope.

(** What solve_axis does, against the extent it is given. *)
Lemma solve_axis_ok c pb ms me size o margins a sz m1 m2 :
  (forall x, fst (margins x) + snd (margins x) = x) ->
  solve_axis c pb (of_option (resolve c ms)) (of_option (resolve c me)) margins o size = (a, sz, m1, m2) ->
  match o with
  | OStatic x => a = AStart x
  | OStart s => a = AStart (resolve_lp c s)
  | OEnd e => a = AEnd (resolve_lp c e)
  | OBoth s e => a = AStart (resolve_lp c s) /\ exists z, sz = LALen z /\
      (size = LPAAuto \/ ms = LPAAuto \/ me = LPAAuto -> c - resolve_lp c s - pb - z - m1 - m2 = resolve_lp c e)
  end /\
  (forall x, resolve c size = Some x -> sz = LALen x) /\
  (forall x, resolve c ms = Some x -> m1 = x) /\
  (forall x, resolve c me = Some x -> m2 = x) /\
  (match o with OBoth _ _ => True | _ => resolve c size = None -> sz = LAAuto end).
Proof.
  intros Hm E. unfold solve_axis in E. rewrite lpa_rel_resolve in E.
  destruct o as [x|s|e|s e]; rewrite ?lp_rel_resolve in E.
  1-3: injection E as <- <- <- <-; split; [reflexivity|]; (split; [intros x0 ->; reflexivity|]);
       (split; [intros x0 ->; reflexivity|]); (split; [intros x0 ->; reflexivity|]); intros ->; reflexivity.
  destruct (resolve c size) as [z|] eqn:Ez; cbn [of_option] in E.
  - destruct (resolve c ms) as [s1|] eqn:E1, (resolve c me) as [e1|] eqn:E2; cbn [of_option] in E.
    4: specialize (Hm (c - resolve_lp c s - resolve_lp c e - pb - z)); destruct (margins (c - resolve_lp c s - resolve_lp c e - pb - z)) as [u v];
       cbn [fst snd] in Hm.
    all: injection E as <- <- <- <-; (split; [split; [reflexivity|]; exists z; (split; [reflexivity|]) | split; [intros x0 [= ->]; reflexivity|];
       split; [intros x0 [= ->]; reflexivity|]; split; [intros x0 [= ->]; reflexivity|]; exact I]).
    + intros [-> | [-> | ->]]; discriminate.
    + intros _. ring.
    + intros _. ring.
    + intros _. replace (c - resolve_lp c s - pb - z - u - v) with (c - resolve_lp c s - pb - z - (u + v)) by ring. rewrite Hm. ring.
  - injection E as <- <- <- <-. split; [split; [reflexivity|]; eexists; split; [reflexivity|]; intros _; ring|].
    split; [intros x [=]|]. split; [intros x ->; reflexivity|]. split; [intros x ->; reflexivity|]. exact I.
Qed.
Lemma margins_inline_sum x : fst (solve_margins_inline x) + snd (solve_margins_inline x) = x.
Proof. unfold solve_margins_inline. destruct (lleb l0 x); cbn [fst snd]; [lenq | ring]. Qed.
Lemma margins_block_sum x : fst (solve_margins_block x) + snd (solve_margins_block x) = x.
Proof. unfold solve_margins_block. cbn [fst snd]. lenq. Qed.

(** The two axes against what the code solves them with: the block axis against the inline size, an inline end
    anchor from the block size. *)
Lemma abs_layout_axes st lay oi ob size f : abs_layout st lay oi ob size = Ok f ->
  exists ch r p bd m, f = FBox st ch r p bd m cb_zero /\
    p = sides_map (resolve_lp (v_inline size)) (style_padding st) /\
    bd = sides_map (resolve_lp (v_inline size)) (style_border_width st) /\
    (forall x, resolve (v_inline size) (sv st Lwidth) = Some x -> v_inline (r_size r) = x) /\
    (forall x, resolve (v_inline size) (sv st Lheight) = Some x -> v_block (r_size r) = x) /\
    (forall x, resolve (v_inline size) (sv st Lmargin_left) = Some x -> s_inline_start m = x) /\
    (forall x, resolve (v_inline size) (sv st Lmargin_right) = Some x -> s_inline_end m = x) /\
    (forall x, resolve (v_inline size) (sv st Lmargin_top) = Some x -> s_block_start m = x) /\
    (forall x, resolve (v_inline size) (sv st Lmargin_bottom) = Some x -> s_block_end m = x) /\
    axis_ok (v_inline size) oi (sv st Lwidth) (sv st Lmargin_left) (sv st Lmargin_right)
      (margin_left_edge f)
      (match oi with OEnd _ => v_block size | _ => v_inline size end - margin_left_edge f - horizontal_extent f) /\
    axis_ok (v_inline size) ob (sv st Lheight) (sv st Lmargin_top) (sv st Lmargin_bottom)
      (margin_top_edge f)
      (match ob with OEnd _ => v_block size | _ => v_inline size end - margin_top_edge f - vertical_extent f).
Proof.
  unfold abs_layout. set (w := v_inline size).
  assert (Em : sides_lpa_rel (style_margin st) w =
     Sides (of_option (resolve w (sv st Lmargin_left))) (of_option (resolve w (sv st Lmargin_right)))
           (of_option (resolve w (sv st Lmargin_top))) (of_option (resolve w (sv st Lmargin_bottom)))).
  { unfold sides_lpa_rel, sides_map. rewrite !lpa_rel_resolve. reflexivity. }
  rewrite Em. cbn [s_inline_start s_inline_end s_block_start s_block_end].
  change (v_inline (box_size st)) with (sv st Lwidth). change (v_block (box_size st)) with (sv st Lheight).
  assert (Ep : sides_lp_rel (style_padding st) w = sides_map (resolve_lp w) (style_padding st)).
  { unfold sides_lp_rel, sides_map. rewrite !lp_rel_resolve. reflexivity. }
  assert (Eb : sides_lp_rel (style_border_width st) w = sides_map (resolve_lp w) (style_border_width st)).
  { unfold sides_lp_rel, sides_map. rewrite !lp_rel_resolve. reflexivity. }
  rewrite Ep, Eb. clear Em Ep Eb.
  remember (sides_map (resolve_lp w) (style_padding st)) as p eqn:Hp. remember (sides_map (resolve_lp w) (style_border_width st)) as bd eqn:Hbd.
  destruct (solve_axis w (inline_sum (sides_add p bd)) _ _ _ oi _) as [[[ai si] mi1] mi2] eqn:Ei.
  destruct (solve_axis w (block_sum (sides_add p bd)) _ _ _ ob _) as [[[ab sb] mb1] mb2] eqn:Eb.
  destruct (solve_axis_ok _ _ _ _ _ _ _ _ _ _ _ margins_inline_sum Ei) as (I1 & I2 & I3 & I4 & I5).
  destruct (solve_axis_ok _ _ _ _ _ _ _ _ _ _ _ margins_block_sum Eb) as (B1 & B2 & B3 & B4 & B5).
  set (isz := auto_is si _). intros E.
  destruct (lay (CBlock isz sb)) as [[fl abs]| |]; cbn [bind] in E; try discriminate.
  destruct (in_positioned_containing_block _ _ _ _) as [ch| |]; cbn [bind] in E; try discriminate. injection E as <-.
  eexists _, _, _, _, _. split; [reflexivity|]. split; [reflexivity|]. split; [reflexivity|].
  cbn [r_size v_inline v_block]. split; [|split; [|split; [exact I3|split; [exact I4|split; [exact B3|split; [exact B4|split]]]]]].
  - intros x Hx. unfold isz. rewrite (I2 x Hx). reflexivity.
  - intros x Hx. rewrite (B2 x Hx). reflexivity.
  - unfold axis_ok, margin_left_edge, horizontal_extent. cbn [r_start r_size v_inline s_inline_start s_inline_end].
    destruct oi as [x|s|e|s e].
    + subst ai. unfold sides_add. cbn [s_inline_start s_inline_end]. ring.
    + subst ai. unfold sides_add. cbn [s_inline_start s_inline_end]. ring.
    + subst ai. unfold sides_add. cbn [s_inline_start s_inline_end]. ring.
    + destruct I1 as (-> & z & Hz & I1). unfold isz. rewrite Hz. cbn [auto_is]. unfold inline_sum, sides_add in *. cbn [s_inline_start s_inline_end] in *.
      split; [ring|]. intros H. rewrite <- (I1 H). ring.
  - unfold axis_ok, margin_top_edge, vertical_extent. cbn [r_start r_size v_block s_block_start s_block_end].
    destruct ob as [x|s|e|s e].
    + subst ab. unfold sides_add. cbn [s_block_start s_block_end]. ring.
    + subst ab. unfold sides_add. cbn [s_block_start s_block_end]. ring.
    + subst ab. unfold sides_add. cbn [s_block_start s_block_end]. ring.
    + destruct B1 as (-> & z & Hz & B1). rewrite Hz. cbn [auto_is]. unfold block_sum, sides_add in *. cbn [s_block_start s_block_end] in *.
      split; [ring|]. intros H. rewrite <- (B1 H). ring.
Qed.
