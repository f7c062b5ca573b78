(** Every in-flow box of a laid out tree: the horizontal equation, heights. *)
From Verif Require Import BlockModel InlineSpec InlineProofs GeomSpec GeomProofs BlockSpec BlockFrame BlockGen BlockStack BlockProofs.
Local Open Scope len_scope.

Lemma place_shift f s f1 s1 : place f s = Ok (f1, s1) -> exists d, f1 = shift_frag d f.
Proof.
  unfold place. destruct f as [st ch r p b m cm| r ch |]; [| |discriminate].
  - destruct (pl_collapses s).
    + destruct (leqb _ _); [|discriminate]. destruct (cb_through cm); intros E; injection E as <- _.
      * exists l0. unfold shift_frag, shift_block. destruct r as [[x y] z]. cbn [r_start r_size v_inline v_block]. f_equal. f_equal. f_equal. ring.
      * eexists. reflexivity.
    + destruct (cb_through cm); intros E; injection E as <- _; eexists; reflexivity.
  - destruct ch; [|discriminate]. destruct (leqb _ _); [|discriminate]. intros E; injection E as <- _. eexists; reflexivity.
Qed.
Lemma place_all_shift fs : forall s fs1 s1, place_all fs s = Ok (fs1, s1) -> Forall2 (fun f f1 => exists d, f1 = shift_frag d f) fs fs1.
Proof.
  induction fs as [|f fs IH]; intros s fs1 s1 E; cbn [place_all] in E; [injection E as <- _; constructor|].
  destruct (place f s) as [[f1 s2]| |] eqn:E1; cbn [bind] in E; try discriminate.
  destruct (place_all fs s2) as [[fs2 s3]| |] eqn:E2; cbn [bind] in E; try discriminate. injection E as <- _.
  constructor; [eapply place_shift; exact E1 | eapply IH; exact E2].
Qed.

Lemma placed_bottom h col its pos l fs pos' : placed h col its pos l fs pos' -> Forall (laid h) l ->
  pos' = fold_left (fun y bf => match margin_sets h (fst bf) (snd bf) with
                         | Some i => if ms_through i then y else border_bottom h (snd bf)
                         | None => y
                         end) (seen l fs) pos.
Proof.
  induction 1 as [its pos|its pos b f l d fs pos' H1 H2 IH|its pos b f i l d fs pos' H1 H2 H3 IH|its pos b f i l d fs pos' H1 H2 H3 H4 IH];
    intros L; [reflexivity| | |]; inversion L as [|? ? L1 L2]; subst; unfold seen; cbn [map fst snd combine fold_left];
    fold (seen l fs); rewrite margin_sets_shift, H1.
  - apply IH; exact L2.
  - rewrite H2. apply IH; exact L2.
  - rewrite H2. rewrite IH by exact L2. f_equal. unfold laid in L1. cbn [fst snd] in L1. rewrite H1 in L1.
    destruct f as [st ch r p bd m cm| |]; try contradiction. destruct L1 as [_ L1].
    unfold border_bottom. rewrite border_top_shift by (repeat eexists). rewrite L1, border_height_shift. ring.
Qed.
Lemma combine_extra {A B} (x : list B) : forall (l : list A) fs, List.length fs = List.length l -> combine l (fs ++ x) = combine l fs.
Proof.
  induction l as [|a l IH]; intros fs L; destruct fs as [|f fs]; try discriminate; [destruct x; reflexivity|].
  cbn. rewrite IH; [reflexivity | cbn in L; congruence].
Qed.
Lemma children_bottom h col l fl : children_placed h col l fl -> fl_block_size fl = last_bottom h (combine l (fl_fragments fl)).
Proof.
  intros (ps & M & L & P & _). rewrite (placed_bottom _ _ _ _ _ _ _ P L). unfold last_bottom, seen. rewrite M. reflexivity.
Qed.
Lemma children_length h col l fl : children_placed h col l fl -> List.length (fl_fragments fl) = List.length l.
Proof. intros (ps & M & L & P & _). rewrite (placed_length _ _ _ _ _ _ _ P), <- M, map_length. reflexivity. Qed.

Section Tree.
Variable m_ascent m_descent : style -> Len.
Variable m_width : style -> text -> Len.
Notation layout_blb := (layout_blb m_ascent m_descent m_width).
Notation layout_container := (layout_container m_ascent m_descent m_width).
Notation layout_bfc := (layout_bfc m_ascent m_descent m_width).


(* ------------------------------------------------------------------ *)
(** * Horizontal extents *)
(** The specified margin the code adds to the containing block's width. *)
Definition surplus (cbis : Len) (st : style) : Len :=
  match resolve cbis (sv st Lwidth) with
  | None => l0
  | Some _ =>
      match resolve cbis (sv st Lmargin_left), resolve cbis (sv st Lmargin_right) with
      | None, None => l0
      | None, Some e => e
      | Some s, _ => s
      end
  end.
Definition horizontal (cb : cblock) (b : blb) (f : fragment) : Prop :=
  let st := box_style b in
  let w := cb_inline cb in
  match f with
  | FBox st' _ r p bd m _ =>
      st' = st /\
      horizontal_extent f = w + surplus w st /\
      p = sides_map (resolve_lp w) (style_padding st) /\
      bd = sides_map (resolve_lp w) (style_border_width st) /\
      (forall x, resolve w (sv st Lwidth) = Some x -> v_inline (r_size r) = x) /\
      (forall x, resolve w (sv st Lmargin_left) = Some x -> s_inline_start m = x) /\
      (forall x, resolve w (sv st Lwidth) = None -> resolve w (sv st Lmargin_right) = Some x -> s_inline_end m = x) /\
      (resolve w (sv st Lwidth) = None -> resolve w (sv st Lmargin_left) = None -> s_inline_start m = l0) /\
      (resolve w (sv st Lwidth) = None -> resolve w (sv st Lmargin_right) = None -> s_inline_end m = l0) /\
      (forall x, resolve w (sv st Lwidth) = Some x -> resolve w (sv st Lmargin_left) = None -> resolve w (sv st Lmargin_right) = None ->
         s_inline_start m = s_inline_end m) /\
      s_block_start m = match resolve w (sv st Lmargin_top) with Some x => x | None => l0 end /\
      s_block_end m = match resolve w (sv st Lmargin_bottom) with Some x => x | None => l0 end /\
      v_inline (r_start r) = s_inline_start m + s_inline_start bd + s_inline_start p +
        v_inline (relative_adjustement st (v_inline (r_size r)) (height_used (sv st Lheight) (cb_block cb)))
  | _ => False
  end.
Lemma horizontal_shift cb b f d : horizontal cb b f -> horizontal cb b (shift_frag d f).
Proof. destruct f as [st ch r p bd m cm| |]; intros H; exact H. Qed.
Lemma horizontal_in_flow cb st same fl ch cm b : box_style b = st ->
  horizontal cb b (FBox st ch (if_content cb st same fl) (if_padding cb st) (if_border cb st) (if_margin cb st) cm).
Proof.
  intros <-. set (st := box_style b). unfold horizontal. fold st. cbv zeta.
  assert (Hm : if_margin cb st = sides_auto_is (solve_inline_margins (cb_inline cb) (of_option (resolve (cb_inline cb) (sv st Lwidth))) (if_pb cb st)
     (Sides (of_option (resolve (cb_inline cb) (sv st Lmargin_left))) (of_option (resolve (cb_inline cb) (sv st Lmargin_right)))
            (of_option (resolve (cb_inline cb) (sv st Lmargin_top))) (of_option (resolve (cb_inline cb) (sv st Lmargin_bottom))))) l0).
  { unfold if_margin, if_computed_inline_size, sides_lpa_rel, sides_map. rewrite !lpa_rel_resolve. reflexivity. }
  assert (Hs : if_inline_size cb st = match resolve (cb_inline cb) (sv st Lwidth) with Some x => x | None =>
     cb_inline cb - inline_sum (if_pb cb st) - inline_sum (if_margin cb st) end).
  { unfold if_inline_size, if_computed_inline_size. rewrite lpa_rel_resolve. cbn [box_size size_to_flow_relative the_writing_mode]. 
    change (v_inline (box_size st)) with (sv st Lwidth). destruct (resolve (cb_inline cb) (sv st Lwidth)); reflexivity. }
  cbn [horizontal_extent if_content r_size r_start v_inline]. unfold surplus.
  rewrite Hs, Hm. rewrite <- used_height.
  set (w := cb_inline cb). set (pb := if_pb cb st).
  destruct (resolve w (sv st Lwidth)) as [x|], (resolve w (sv st Lmargin_left)) as [s|], (resolve w (sv st Lmargin_right)) as [e|];
    cbn [of_option solve_inline_margins sides_auto_is sides_map s_inline_start s_inline_end s_block_start s_block_end auto_is];
    (split; [reflexivity|]);
    (split; [unfold inline_sum, pb, if_pb, sides_add; cbn [s_inline_start s_inline_end sides_auto_is sides_map auto_is]; clear; first [ring | lenq]|]);
    (split; [unfold if_padding, sides_lp_rel, sides_map; rewrite !lp_rel_resolve; reflexivity|]);
    (split; [unfold if_border, sides_lp_rel, sides_map; rewrite !lp_rel_resolve; reflexivity|]);
    (split; [intros ? E; congruence|]); (split; [intros ? E; congruence|]); (split; [intros; congruence|]);
    (split; [intros; try discriminate; reflexivity|]); (split; [intros; try discriminate; reflexivity|]);
    (split; [intros; try discriminate; reflexivity|]);
    (split; [destruct (resolve w (sv st Lmargin_top)); reflexivity|]);
    (split; [destruct (resolve w (sv st Lmargin_bottom)); reflexivity|]);
    unfold pb, if_pb, sides_add; cbn [s_inline_start]; ring.
Qed.
Lemma horizontal_laid b cb rank abs floats f abs' : in_flow b = true -> layout_blb b cb rank abs floats = Ok (f, abs') -> horizontal cb b f.
Proof.
  intros Hb E. destruct b as [st c|st c|st c|st c]; try discriminate; cbn [BlockModel.layout_blb] in E; apply in_flow_inv in E;
    destruct E as (fl & abs1 & extra & E & -> & _); apply horizontal_in_flow; reflexivity.
Qed.
End Tree.

(* ------------------------------------------------------------------ *)
(** * Stacking *)
Lemma pair_sets_seen h ps fs : pair_sets h (seen ps fs) = pair_sets h (combine (map fst ps) fs). Proof. reflexivity. Qed.
Lemma children_stacked h col l fl extra : children_placed h col l fl ->
  stacked h l (fl_fragments fl ++ extra) /\ first_child h col l (fl_fragments fl ++ extra).
Proof.
  intros H. pose proof (children_length _ _ _ _ H) as Ln. destruct H as (ps & M & L & P & _). unfold stacked, first_child.
  rewrite (combine_extra extra l _ Ln). split.
  - intros pre bf1 mid bf2 post i1 i2 E S1 S2 V. eexists. split; [apply csum_collapsed|].
    eapply placed_gap; [exact P | exact L | unfold seen; rewrite M; exact E | exact S1 | exact S2 | exact V].
  - intros pre bf post i E S V.
    assert (K : border_top h (snd bf) = l0 + gap col ([] ++ pair_sets h pre) i).
    { eapply placed_top; [exact P | exact L | unfold seen; rewrite M; exact E | exact S | exact V]. }
    pose proof (vanish_through _ _ V) as Hv. cbn [app] in K. unfold gap in K. rewrite Hv, andb_true_r in K.
    destruct col; [rewrite K; ring|]. eexists. split; [apply csum_collapsed|]. rewrite K.
    rewrite <- (app_nil_l (pair_sets h pre)) at 1. rewrite (trailing_app_through [] _ Hv). cbn [trailing app]. ring.
Qed.
Section Tree2.
Variable m_ascent m_descent : style -> Len.
Variable m_width : style -> text -> Len.
Notation layout_blb := (layout_blb m_ascent m_descent m_width).
Notation layout_container := (layout_container m_ascent m_descent m_width).
Notation layout_bfc := (layout_bfc m_ascent m_descent m_width).
Lemma block_ok_put cb b f y : block_ok cb b f -> block_ok cb b (put_top y f).
Proof. unfold block_ok. destruct (contents_of b) as [[c same]|]; [|intros []]. destruct f as [st ch r p bd m cm| |]; intros H; exact H. Qed.
Lemma collapsed_nil : css_collapsed [] l0.
Proof. exists l0, l0. split; [|split]; [split; [left; reflexivity|]|split; [left; reflexivity|]|ring]; intros x [<-|[]]; apply Qcle_refl. Qed.
Lemma block_ok_laid b cb rank abs floats f abs' : wf_blb b -> in_flow b = true -> layout_blb b cb rank abs floats = Ok (f, abs') -> block_ok cb b f.
Proof.
  intros W Hb E. destruct b as [st c|st c|st c|st [fl0 c]]; try discriminate; cbn [BlockModel.layout_blb] in E; apply in_flow_inv in E;
    destruct E as (fl & abs1 & extra & E & -> & _); unfold block_ok; cbn [contents_of box_style]; rewrite <- used_height;
    (split; [intros x Hx; unfold if_content, if_height; cbn [r_size v_block]; rewrite Hx; reflexivity|]).
  - destruct c as [l|parent l]; [|exact I]. pose proof (container_stacked _ _ _ _ _ _ _ _ _ _ _ W E) as P. cbn [cb_block if_children_cb] in P.
    destruct (children_stacked _ _ _ _ extra P) as [S1 S2]. split; [exact S1|]. split; [exact S2|]. intros Ha.
    rewrite (items_extra _ _ _ _ (children_length _ _ _ _ P)), (combine_extra extra l _ (children_length _ _ _ _ P)).
    rewrite <- (children_bottom _ _ _ _ P). unfold if_content, if_height. cbn [r_size v_block]. 
    assert (Hh : forall x, auto_is (if_block_size cb st) x = x) by (intros; rewrite Ha; reflexivity). rewrite Hh.
    assert (Ee : if_end_collapse cb st true = no_edge (s_block_end (if_padding cb st)) (s_block_end (if_border cb st))).
    { unfold if_end_collapse. rewrite Ha. cbn [la_is_auto]. rewrite andb_true_r. reflexivity. }
    rewrite <- Ee. cbn [andb]. change (no_edge (s_block_start (if_padding cb st)) (s_block_start (if_border cb st))) with (if_start_collapse cb st true).
    destruct P as (ps & _ & _ & _ & Hm). destruct (if_end_collapse cb st true); cbn [orb].
    + exists l0. split; [apply collapsed_nil | ring].
    + unfold if_child_end. rewrite Hm. unfold flow_margins. cbn [cb_through cb_end].
      destruct (if_start_collapse cb st true); cbn [andb].
      * destruct (all_through _); [exists l0; split; [apply collapsed_nil | rewrite cm_solve_zero; ring]|].
        eexists. split; [apply csum_collapsed | reflexivity].
      * eexists. split; [apply csum_collapsed | reflexivity].
  - apply bfc_inv in E. destruct E as (fl1 & E & -> & Eb & Em). destruct c as [l|parent l]; [|exact I].
    pose proof (container_stacked _ _ _ _ _ _ _ _ _ _ _ W E) as P. cbn [cb_block if_children_cb] in P.
    destruct (children_stacked _ _ _ _ extra P) as [S1 S2]. split; [exact S1|]. split; [exact S2|]. intros Ha.
    rewrite (items_extra _ _ _ _ (children_length _ _ _ _ P)), (combine_extra extra l _ (children_length _ _ _ _ P)).
    rewrite <- (children_bottom _ _ _ _ P). unfold if_content, if_height. cbn [r_size v_block]. 
    assert (Hh : forall x, auto_is (if_block_size cb st) x = x) by (intros; rewrite Ha; reflexivity). rewrite Hh.
    change (if_end_collapse cb st false) with false. cbn [andb orb]. cbv iota. unfold if_child_end.
    change (if_start_collapse cb st false) with false. cbn [andb]. rewrite Em, Eb. cbn [cb_end]. rewrite cm_solve_zero.
    destruct P as (ps & _ & _ & _ & Hm). rewrite Hm. unfold flow_margins. cbn [andb cb_end].
    eexists. split; [apply csum_collapsed | ring].
Qed.
End Tree2.
