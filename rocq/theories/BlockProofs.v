(** Block layout: the margins of every box are those of its adjoining margin sets, and where its children go. *)
From Verif Require Import BlockModel InlineSpec InlineProofs GeomSpec GeomProofs BlockSpec BlockFrame BlockGen BlockStack.
Local Open Scope len_scope.

(* ------------------------------------------------------------------ *)
(** * The items of a fragment *)
Lemma items_pairs h : forall l fs, items_of h l fs = pair_sets h (combine l fs).
Proof.
  unfold pair_sets. induction l as [|b l IH]; intros fs; [reflexivity|]. destruct fs as [|f fs]; [reflexivity|].
  cbn [items_of combine flat_map fst snd]. rewrite IH. destruct (margin_sets h b f); reflexivity.
Qed.
Lemma items_extra h x : forall l fs, List.length fs = List.length l -> items_of h l (fs ++ x) = items_of h l fs.
Proof.
  induction l as [|b l IH]; intros fs L; destruct fs as [|f fs]; try discriminate; [destruct x; reflexivity|].
  cbn [app items_of]. rewrite IH; [reflexivity | cbn in L; congruence].
Qed.
Lemma margin_sets_block h st l st' ch r p bd m cm :
  margin_sets h (SameFC st (BlockLevelBoxes l)) (FBox st' ch r p bd m cm) =
  let h' := height_used (sv st Lheight) h in
  let items := items_of h' l ch in
  let open_start := no_edge (s_block_start p) (s_block_start bd) in
  let open_end := no_edge (s_block_end p) (s_block_end bd) && match h' with LAAuto => true | _ => false end in
  Some (MSets
    (s_block_start m :: if open_start then leading items else [])
    (open_start && open_end && all_through items)
    (s_block_end m :: if open_end then if open_start && all_through items then [] else trailing items else [])).
Proof.
  cbn [margin_sets]. set (go := fix go (l : list blb) (fs : list fragment) {struct l} : list msets := _).
  assert (E : forall l ch, go l ch = items_of (height_used (sv st Lheight) h) l ch).
  { clear. induction l as [|b l IH]; intros ch; [reflexivity|]. destruct ch as [|f ch]; [reflexivity|]. cbn. rewrite IH. reflexivity. }
  rewrite E. reflexivity.
Qed.
Lemma combine_map_snd {A B} (l : list A) : forall (fs : list B), List.length fs = List.length l -> map snd (combine l fs) = fs /\ map fst (combine l fs) = l.
Proof.
  induction l as [|a l IH]; intros fs L; destruct fs as [|f fs]; try discriminate; [split; reflexivity|].
  destruct (IH fs) as [E1 E2]; [cbn in L; congruence|]. cbn. rewrite E1, E2. split; reflexivity.
Qed.

(* ------------------------------------------------------------------ *)
(** * Children *)
Definition flow_margins (col : bool) (its : list msets) : cbmargins :=
  CBMargins (col && all_through its) (csum (if col then leading its else [])) (csum (if col && all_through its then [] else trailing its)).
Definition children_placed (h : la) (col : bool) (l : list blb) (fl : flow) : Prop :=
  exists ps, map fst ps = l /\ Forall (laid h) ps /\
    placed h col [] l0 ps (fl_fragments fl) (fl_block_size fl) /\
    fl_margins fl = flow_margins col (items_of h l (fl_fragments fl)).

Section Tree.
Variable m_ascent m_descent : style -> Len.
Variable m_width : style -> text -> Len.
Notation layout_blb := (layout_blb m_ascent m_descent m_width).
Notation layout_container := (layout_container m_ascent m_descent m_width).
Notation layout_bfc := (layout_bfc m_ascent m_descent m_width).

Lemma framed_laid h l cb : forall fs gss, framed_list (map layout_blb l) cb fs gss ->
  (forall b, In b l -> forall f rank abs floats abs', layout_blb b cb rank abs floats = Ok (f, abs') -> laid h (b, f)) ->
  Forall (laid h) (combine l fs).
Proof.
  induction l as [|b l IH]; intros fs gss (F & L1 & L2) H; destruct fs as [|f fs], gss as [|g gss]; try discriminate; [constructor|].
  cbn [map combine] in F. inversion F as [|? ? ? ? F1 F2]; subst. cbn [combine]. constructor.
  - apply (H b (or_introl eq_refl) f O [] false _ (F1 O [] false)).
  - apply (IH fs gss).
    + split; [exact F2|]. cbn in L1, L2. split; congruence.
    + intros x Hx. apply H. right; exact Hx.
Qed.
Lemma children_placed_ok l cb rank abs floats col fl abs' :
  fold_right (fun x Q => wf_blb x /\ Q) True l ->
  (forall b, In b l -> forall f rank abs floats abs', layout_blb b cb rank abs floats = Ok (f, abs') -> laid (cb_block cb) (b, f)) ->
  layout_container (BlockLevelBoxes l) cb rank abs floats col = Ok (fl, abs') -> children_placed (cb_block cb) col l fl.
Proof.
  intros W H E. cbn [BlockModel.layout_container] in E.
  destruct (children_result _ _ _ _ _ _ _ _ (wf_framed m_ascent m_descent m_width l W) E) as (fs & gss & s1 & F & Ep & E1 & E2).
  pose proof (framed_laid _ _ _ _ _ F H) as L. destruct F as (_ & L1 & _). rewrite map_length in L1.
  destruct (combine_map_snd l fs L1) as [M1 M2]. exists (combine l fs). split; [exact M2|]. split; [exact L|].
  rewrite <- M1 in Ep. rewrite E1, E2.
  assert (S0 : seq_inv col [] (placement_start col)).
  { unfold seq_inv. cbn. rewrite andb_true_r. split; [reflexivity|]. split; destruct col; reflexivity. }
  destruct (place_all_placed (cb_block cb) col _ _ _ _ _ S0 L Ep) as [P (S1 & S2 & S3)]. split; [exact P|].
  cbn [app] in *. rewrite <- (placed_sets _ _ _ _ _ _ _ P) in S1, S2, S3. unfold seen in S1, S2, S3. rewrite M2 in S1, S2, S3.
  rewrite <- items_pairs in S1, S2, S3. rewrite S1, S2, S3. reflexivity.
Qed.

(* ------------------------------------------------------------------ *)
(** * In-flow boxes *)
Lemma in_flow_top cb st same fl ch cm :
  border_top (cb_block cb) (FBox st ch (if_content cb st same fl) (if_padding cb st) (if_border cb st) (if_margin cb st) cm) = l0.
Proof.
  unfold border_top, relative_offset, if_content. cbn [r_start r_size v_block v_inline]. rewrite <- used_height.
  unfold if_pb. cbn [s_block_start sides_add]. ring.
Qed.
Lemma la_auto_bool h : la_is_auto h = match h with LAAuto => true | _ => false end. Proof. destruct h; reflexivity. Qed.

Lemma laid_indep h cb st same fl ch b :
  h = cb_block cb ->
  (forall f, match f with FBox _ _ _ _ _ m _ => margin_sets h b f = Some (MSets [s_block_start m] false [s_block_end m]) | _ => True end) ->
  (same = false \/ fl_margins fl = cb_zero) ->
  laid h (b, FBox st ch (if_content cb st same fl) (if_padding cb st) (if_border cb st) (if_margin cb st) (if_margins cb st same (fl_margins fl))).
Proof.
  intros -> H Hm. unfold laid. cbn [fst snd].
  pose proof (H (FBox st ch (if_content cb st same fl) (if_padding cb st) (if_border cb st) (if_margin cb st) (if_margins cb st same (fl_margins fl)))) as E.
  cbn in E. rewrite E. split; [|apply in_flow_top].
  unfold margins_hold, if_margins. cbn [cb_start cb_through cb_end ms_start ms_through ms_end cb_from_margin].
  unfold if_start_collapse, if_end_collapse, if_child_end. rewrite !csum_one. destruct Hm as [-> | ->].
  - cbn [andb]. split; [reflexivity|]. split; reflexivity.
  - cbn [cb_through cb_zero cb_start cb_end]. rewrite !andb_false_r.
    rewrite <- !csum_one, !adjoin_csum_zero. split; [destruct (_ && _); reflexivity|]. split; [reflexivity|]. destruct (_ && _ && _); reflexivity.
Qed.
Lemma laid_same cb st l fl extra :
  List.length (fl_fragments fl) = List.length l ->
  fl_margins fl = flow_margins (if_start_collapse cb st true) (items_of (if_block_size cb st) l (fl_fragments fl)) ->
  laid (cb_block cb) (SameFC st (BlockLevelBoxes l), FBox st (fl_fragments fl ++ extra) (if_content cb st true fl) (if_padding cb st)
          (if_border cb st) (if_margin cb st) (if_margins cb st true (fl_margins fl))).
Proof.
  intros L Hm. unfold laid. cbn [fst snd]. rewrite margin_sets_block, <- used_height. cbv zeta. rewrite (items_extra _ _ _ _ L).
  set (its := items_of (if_block_size cb st) l (fl_fragments fl)) in *. split; [|apply in_flow_top].
  change (no_edge (s_block_start (if_padding cb st)) (s_block_start (if_border cb st))) with (if_start_collapse cb st true).
  change (no_edge (s_block_end (if_padding cb st)) (s_block_end (if_border cb st))) with (leqb (s_block_end (if_pb cb st)) l0).
  rewrite <- la_auto_bool. change (leqb (s_block_end (if_pb cb st)) l0 && la_is_auto (if_block_size cb st)) with (if_end_collapse cb st true).
  rewrite Hm. unfold margins_hold, if_margins, if_child_end, flow_margins. cbn [cb_start cb_through cb_end ms_start ms_through ms_end cb_from_margin].
  change (csum (?x :: ?y)) with (cm_adjoin (cm_new x) (csum y)).
  destruct (if_start_collapse cb st true) eqn:E1; cbn [andb].
  - split; [|split; [reflexivity|]].
    + destruct (all_through its); [|reflexivity]. rewrite <- adjoin_assoc, adjoin_csum_zero. reflexivity.
    + destruct (if_end_collapse cb st true); [|exact (eq_sym (csum_one _))]. destruct (all_through its); reflexivity.
  - split; [exact (eq_sym (csum_one _))|]. split; [reflexivity|]. destruct (if_end_collapse cb st true); [reflexivity | exact (eq_sym (csum_one _))].
Qed.

Definition blb_laid (b : blb) : Prop := wf_blb b -> forall cb rank abs floats f abs',
  layout_blb b cb rank abs floats = Ok (f, abs') -> laid (cb_block cb) (b, f).
Definition container_laid (c : bcontainer) : Prop := match c with BlockLevelBoxes l => Forall blb_laid l | InlineFC _ _ => True end.
Lemma container_children l cb rank abs floats col fl abs' : Forall blb_laid l -> wf_container (BlockLevelBoxes l) ->
  layout_container (BlockLevelBoxes l) cb rank abs floats col = Ok (fl, abs') -> children_placed (cb_block cb) col l fl.
Proof.
  intros Hl W E. apply (children_placed_ok l cb rank abs floats col fl abs' W); [|exact E].
  intros b Hb f rank' abs0 floats' abs1 E'. rewrite Forall_forall in Hl. apply (Hl b Hb) in E'; [exact E'|].
  cbn [wf_container] in W. clear - W Hb. induction l as [|x l IH]; [destruct Hb|]. destruct W as [W1 W2]. destruct Hb as [-> | Hb]; auto.
Qed.
Lemma laid_all : forall b, blb_laid b.
Proof.
  apply (blb_tree blb_laid container_laid (fun _ => True)).
  - intros st c Hc W cb rank abs floats f abs' E. cbn [BlockModel.layout_blb] in E.
    apply in_flow_inv in E. destruct E as (fl & abs1 & extra & E & -> & _). destruct c as [l | parent l].
    + destruct (container_children l _ _ _ _ _ _ _ Hc W E) as (ps & M & L & P & Hm).
      apply laid_same; [|exact Hm]. rewrite (placed_length _ _ _ _ _ _ _ P), <- M, map_length. reflexivity.
    + apply laid_indep; [reflexivity | intros []; reflexivity|]. right. eapply ifc_margins. exact E.
  - intros st c _ W cb rank abs floats f abs' E. cbn [BlockModel.layout_blb] in E. injection E as <- _. reflexivity.
  - intros st c _ W cb rank abs floats f abs' E. cbn [BlockModel.layout_blb] in E. injection E as <- _. reflexivity.
  - intros st c _ W cb rank abs floats f abs' E. cbn [BlockModel.layout_blb] in E.
    apply in_flow_inv in E. destruct E as (fl & abs1 & extra & E & -> & _).
    apply laid_indep; [reflexivity | intros []; reflexivity|]. left; reflexivity.
  - intros l H. exact H.
  - intros st l _. exact I.
  - intros fl c _. exact I.
Qed.
Lemma container_stacked l cb rank abs floats col fl abs' : wf_container (BlockLevelBoxes l) ->
  layout_container (BlockLevelBoxes l) cb rank abs floats col = Ok (fl, abs') -> children_placed (cb_block cb) col l fl.
Proof. apply container_children. apply Forall_forall. intros b _. apply laid_all. Qed.
End Tree.
