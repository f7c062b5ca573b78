(** Vertical placement of block-level boxes: where fragments end up and which margins collapse. *)
From Verif Require Import BlockModel InlineSpec InlineProofs GeomSpec GeomProofs BlockSpec BlockFrame.
Local Open Scope len_scope.

(* ------------------------------------------------------------------ *)
(** * Collapsed margins as sums *)
Definition csum (l : list Len) : cmargin := fold_right (fun m c => cm_adjoin (cm_new m) c) cm_zero l.
Definition grouped (l : list Len) : grouping := fold_right (fun m g => GBoth (GOne m) g) GNone l.
Lemma grouped_margins l : margins_of (grouped l) = l.
Proof. induction l as [|m l IH]; [reflexivity|]. cbn [grouped fold_right margins_of app]. fold (grouped l). rewrite IH. reflexivity. Qed.
Lemma grouped_collapse l : collapse (grouped l) = csum l.
Proof. induction l as [|m l IH]; [reflexivity|]. cbn [grouped csum fold_right collapse]. fold (grouped l) (csum l). rewrite IH. reflexivity. Qed.
Lemma csum_collapsed l : css_collapsed l (cm_solve (csum l)).
Proof. rewrite <- grouped_collapse. rewrite <- (grouped_margins l) at 1. apply collapse_correct. Qed.
Lemma adjoin_assoc a b c : cm_adjoin a (cm_adjoin b c) = cm_adjoin (cm_adjoin a b) c.
Proof. unfold cm_adjoin; cbn [max_positive min_negative]. f_equal; lenq. Qed.
Lemma adjoin_zero_csum l : cm_adjoin cm_zero (csum l) = csum l.
Proof.
  destruct (collapse_ok (grouped l)) as [[_ G] [_ L]]. rewrite grouped_collapse in *.
  specialize (G l0 (or_introl eq_refl)). specialize (L l0 (or_introl eq_refl)).
  destruct (csum l) as [mp mn]. unfold cm_adjoin. cbn [max_positive min_negative cm_zero] in *. f_equal.
  - rewrite lmax_def. destruct (lleb l0 mp) eqn:E; [reflexivity|]. apply lleb_Qcle in G. congruence.
  - rewrite lmin_def. destruct (lleb l0 mn) eqn:E; [|reflexivity]. apply lleb_Qcle in E. apply Qcle_antisym; assumption.
Qed.
Lemma csum_app a b : csum (a ++ b) = cm_adjoin (csum a) (csum b).
Proof. induction a as [|m a IH]; cbn [app csum fold_right]; [symmetry; apply adjoin_zero_csum|]. fold (csum (a ++ b)) (csum a). rewrite IH. apply adjoin_assoc. Qed.
Lemma csum_one m : csum [m] = cm_new m.
Proof. unfold csum. cbn [fold_right]. unfold cm_adjoin, cm_new. cbn [max_positive min_negative cm_zero]. f_equal; lenq. Qed.
Lemma adjoin_csum_zero l : cm_adjoin (csum l) cm_zero = csum l.
Proof. change cm_zero with (csum []). rewrite <- csum_app, app_nil_r. reflexivity. Qed.

(* ------------------------------------------------------------------ *)
(** * Sequences of margin sets *)
Lemma all_through_app a b : all_through (a ++ b) = all_through a && all_through b. Proof. apply forallb_app. Qed.
Lemma leading_app a b : leading (a ++ b) = if all_through a then leading a ++ leading b else leading a.
Proof.
  induction a as [|m a IH]; [reflexivity|]. cbn [app leading all_through forallb]. fold (all_through a).
  destruct (ms_through m); cbn [andb]; [|reflexivity]. rewrite IH. destruct (all_through a); [rewrite app_assoc|]; reflexivity.
Qed.
Lemma trailing_app_through a b : all_through b = true -> trailing (a ++ b) = trailing a ++ flat_map ms_all b.
Proof.
  intros Hb. induction a as [|m a IH]; cbn [app trailing].
  - induction b as [|m b IHb]; [reflexivity|]. cbn [all_through forallb] in Hb. apply andb_prop in Hb. destruct Hb as [B1 B2].
    cbn [trailing flat_map]. fold (all_through b) in B2. rewrite B2, B1. reflexivity.
  - rewrite all_through_app, Hb, andb_true_r. destruct (all_through a); [|exact IH]. rewrite flat_map_app, app_assoc. reflexivity.
Qed.
Lemma trailing_stand a m b : ms_through m = false -> all_through b = true ->
  trailing (a ++ m :: b) = ms_end m ++ flat_map ms_all b.
Proof.
  intros Hm Hb. induction a as [|x a IH]; cbn [app trailing].
  - rewrite Hb, Hm. reflexivity.
  - rewrite all_through_app. cbn [all_through forallb]. rewrite Hm, andb_false_r. exact IH.
Qed.

(* ------------------------------------------------------------------ *)
(** * Placement *)
Definition shift_frag (d : Len) (f : fragment) : fragment := match f with
  | FBox st ch r p b m cm => FBox st ch (shift_block r d) p b m cm
  | FAnon r ch => FAnon (shift_block r d) ch
  | FText _ _ _ _ => f
  end.
Definition margins_hold (cm : cbmargins) (i : msets) : Prop :=
  cb_start cm = csum (ms_start i) /\ cb_through cm = ms_through i /\ cb_end cm = csum (ms_end i).
(** a laid out box before placement *)
Definition laid (h : la) (bf : blb * fragment) : Prop :=
  match margin_sets h (fst bf) (snd bf), snd bf with
  | Some i, FBox st ch r p b m cm => margins_hold cm i /\ border_top h (snd bf) = l0
  | None, FAnon r [] => r = rect_zero
  | _, _ => False
  end.
Lemma margin_sets_shift h b d f : margin_sets h b (shift_frag d f) = margin_sets h b f.
Proof. destruct b, f; reflexivity. Qed.
Lemma border_height_shift d f : border_height (shift_frag d f) = border_height f.
Proof. destruct f; reflexivity. Qed.
Lemma border_top_shift h d f : (exists st ch r p b m cm, f = FBox st ch r p b m cm) -> border_top h (shift_frag d f) = border_top h f + d.
Proof. intros (st & ch & r & p & b & m & cm & ->). unfold border_top, shift_frag, relative_offset. cbn. ring. Qed.

Definition seq_inv (col : bool) (its : list msets) (s : placement) : Prop :=
  pl_collapses s = col && all_through its /\
  pl_start s = csum (if col then leading its else []) /\
  pl_margin s = csum (if col && all_through its then [] else trailing its).

Section Placed.
Variable h : la.
Variable col : bool.
(** the free space above a standing box: none where its margin collapses with the parent's *)
Definition gap (its : list msets) (i : msets) : Len :=
  if col && all_through its then l0 else cm_solve (csum (trailing its ++ ms_start i)).
Inductive placed : list msets -> Len -> list (blb * fragment) -> list fragment -> Len -> Prop :=
| pd_nil its pos : placed its pos [] [] pos
| pd_out its pos b f l d fs pos' : margin_sets h b f = None -> placed its pos l fs pos' ->
    placed its pos ((b, f) :: l) (shift_frag d f :: fs) pos'
| pd_through its pos b f i l d fs pos' : margin_sets h b f = Some i -> ms_through i = true ->
    placed (its ++ [i]) pos l fs pos' -> placed its pos ((b, f) :: l) (shift_frag d f :: fs) pos'
| pd_stand its pos b f i l d fs pos' : margin_sets h b f = Some i -> ms_through i = false ->
    d = pos + gap its i -> placed (its ++ [i]) (d + border_height f) l fs pos' ->
    placed its pos ((b, f) :: l) (shift_frag d f :: fs) pos'.

Lemma place_step b f i s its : margin_sets h b f = Some i -> laid h (b, f) -> seq_inv col its s ->
  exists d s1, place f s = Ok (shift_frag d f, s1) /\ seq_inv col (its ++ [i]) s1 /\
    if ms_through i then pl_pos s1 = pl_pos s else d = pl_pos s + gap its i /\ pl_pos s1 = d + border_height f.
Proof.
  intros Hm Hl (S1 & S2 & S3). unfold laid in Hl. cbn [fst snd] in Hl. rewrite Hm in Hl.
  destruct f as [st ch r p bd m cm | |]; try contradiction. destruct Hl as [(M1 & M2 & M3) _].
  unfold place. rewrite S1. unfold gap.
  assert (Hat : all_through (its ++ [i]) = all_through its && ms_through i).
  { rewrite all_through_app. cbn. rewrite andb_true_r. reflexivity. }
  assert (Hbh : block_sum p + block_sum bd + v_block (r_size r) = border_height (FBox st ch r p bd m cm)).
  { unfold block_sum, border_height. ring. }
  destruct (col && all_through its) eqn:Ec.
  - apply andb_prop in Ec. destruct Ec as [-> Ea]. rewrite Ea in *. cbn [andb] in *.
    rewrite S3. change (csum []) with cm_zero. rewrite cm_solve_zero, leqb_refl, M2.
    destruct (ms_through i) eqn:Ei.
    + exists l0. eexists. split; [|split].
      * f_equal. f_equal. unfold shift_frag, shift_block. f_equal. destruct r as [[x y] z]. cbn. f_equal. f_equal. ring.
      * unfold seq_inv. cbn [pl_collapses pl_start pl_margin]. rewrite Hat. cbn [andb]. split; [reflexivity|]. split; [|reflexivity].
        rewrite S2, M1, M3, leading_app, Ea. cbn [leading]. rewrite Ei, app_nil_r. unfold ms_all. rewrite !csum_app, adjoin_assoc. reflexivity.
      * reflexivity.
    + cbn [pl_margin pl_pos pl_collapses pl_start]. rewrite cm_solve_zero. exists (pl_pos s). eexists. split; [|split].
      * f_equal. f_equal. unfold shift_frag. f_equal. f_equal. ring.
      * unfold seq_inv. cbn [pl_collapses pl_start pl_margin]. rewrite Hat. cbn [andb]. split; [reflexivity|]. split.
        -- rewrite S2, M1, leading_app, Ea. cbn [leading]. rewrite Ei, csum_app. reflexivity.
        -- rewrite M3. rewrite (trailing_stand its i [] Ei eq_refl). cbn [flat_map]. rewrite app_nil_r. reflexivity.
      * cbn [pl_pos]. rewrite Hbh. split; ring.
  - cbn [pl_margin pl_pos pl_collapses pl_start]. rewrite M2.
    assert (Ec' : col && all_through (its ++ [i]) = false).
    { rewrite Hat, andb_assoc, Ec. reflexivity. }
    assert (Hlead : csum (if col then leading (its ++ [i]) else []) = csum (if col then leading its else [])).
    { destruct col; [|reflexivity]. cbn [andb] in Ec. rewrite leading_app, Ec. reflexivity. }
    destruct (ms_through i) eqn:Ei.
    + eexists _, _. split; [reflexivity|]. split; [|reflexivity].
      unfold seq_inv. cbn [pl_collapses pl_start pl_margin]. rewrite Ec', Hlead. split; [reflexivity|]. split; [exact S2|].
      rewrite S3, M1, M3. rewrite trailing_app_through by (cbn; rewrite Ei; reflexivity). cbn [flat_map]. rewrite app_nil_r. unfold ms_all.
      rewrite !csum_app, adjoin_assoc. reflexivity.
    + eexists _, _. split; [reflexivity|]. split; [|split].
      * unfold seq_inv. cbn [pl_collapses pl_start pl_margin]. rewrite Ec', Hlead. split; [reflexivity|]. split; [exact S2|].
        rewrite M3, (trailing_stand its i [] Ei eq_refl). cbn [flat_map]. rewrite app_nil_r. reflexivity.
      * rewrite S3, M1, <- csum_app. ring.
      * cbn [pl_pos]. rewrite Hbh. ring.
Qed.

Lemma place_all_placed l : forall s its fs1 s1, seq_inv col its s -> Forall (laid h) l ->
  place_all (map snd l) s = Ok (fs1, s1) ->
  placed its (pl_pos s) l fs1 (pl_pos s1) /\ seq_inv col (its ++ pair_sets h l) s1.
Proof.
  induction l as [|[b f] l IH]; intros s its fs1 s1 Hs Hl H; cbn [map place_all] in H.
  - injection H as <- <-. split; [constructor|]. cbn. rewrite app_nil_r. exact Hs.
  - inversion Hl as [|? ? L1 L2]; subst. cbn [snd] in H.
    destruct (margin_sets h b f) as [i|] eqn:Em.
    + destruct (place_step b f i s its Em L1 Hs) as (d & s2 & E & Hs2 & Hp). rewrite E in H. cbn [bind] in H.
      destruct (place_all (map snd l) s2) as [[fs2 s3]| |] eqn:E2; cbn [bind] in H; try discriminate. injection H as <- <-.
      destruct (IH _ _ _ _ Hs2 L2 E2) as [P1 P2]. split.
      * destruct (ms_through i) eqn:Ei.
        -- rewrite <- Hp. eapply pd_through; eassumption.
        -- destruct Hp as [-> Hp]. rewrite Hp in P1. eapply pd_stand; try eassumption. reflexivity.
      * unfold pair_sets in *. cbn [flat_map fst snd]. rewrite Em. rewrite app_assoc. exact P2.
    + unfold laid in L1. cbn [fst snd] in L1. rewrite Em in L1. destruct f as [| r ch |]; try contradiction.
      destruct ch; [|contradiction]. subst r. unfold place in H. cbn [rect_zero r_size vec2_zero v_block] in H.
      rewrite leqb_refl in H. cbn [bind] in H.
      destruct (place_all (map snd l) s) as [[fs2 s3]| |] eqn:E2; cbn [bind] in H; try discriminate. injection H as <- <-.
      destruct (IH _ _ _ _ Hs L2 E2) as [P1 P2]. split.
      * exact (pd_out its (pl_pos s) b (FAnon rect_zero []) l (pl_pos s) fs2 (pl_pos s3) Em P1).
      * unfold pair_sets in *. cbn [flat_map fst snd]. rewrite Em. exact P2.
Qed.
End Placed.

(* ------------------------------------------------------------------ *)
(** * Reading a placed sequence *)
Section Reading.
Variable h : la.
Variable col : bool.
Notation placed := (placed h col).
Definition seen (l : list (blb * fragment)) (fs : list fragment) : list (blb * fragment) := combine (map fst l) fs.

Lemma placed_sets its pos l fs pos' : placed its pos l fs pos' -> pair_sets h (seen l fs) = pair_sets h l.
Proof.
  unfold pair_sets, seen. induction 1 as [|? ? ? ? ? ? ? ? H1 H2 IH|? ? ? ? ? ? ? ? ? H1 H2 H3 IH|? ? ? ? ? ? ? ? ? H1 H2 H3 H4 IH];
    [reflexivity| | |]; cbn [map fst combine flat_map snd]; rewrite margin_sets_shift, IH; reflexivity.
Qed.
Lemma placed_length its pos l fs pos' : placed its pos l fs pos' -> List.length fs = List.length l.
Proof. induction 1; cbn; congruence. Qed.
Lemma vanish_through l : Forall (vanishes h) l -> all_through (pair_sets h l) = true.
Proof.
  unfold pair_sets. induction 1 as [|[b f] l H1 H2 IH]; [reflexivity|]. cbn [flat_map fst snd]. unfold vanishes in H1. cbn [fst snd] in H1.
  rewrite all_through_app, IH, andb_true_r. destruct (margin_sets h b f); [|reflexivity]. cbn. rewrite H1. reflexivity.
Qed.
Lemma stands_box b f i : stands h (b, f) i -> exists st ch r p bd m cm, f = FBox st ch r p bd m cm.
Proof. intros [H _]. cbn in H. destruct b, f; try discriminate; repeat eexists. Qed.

(** splitting at a box *)
Lemma placed_split its pos l fs pos' : placed its pos l fs pos' ->
  forall pre bf post, seen l fs = pre ++ bf :: post ->
  exists l1 f0 l2 fs1 fs2 mid,
    l = l1 ++ (fst bf, f0) :: l2 /\ fs = fs1 ++ snd bf :: fs2 /\ seen l1 fs1 = pre /\ seen l2 fs2 = post /\
    placed its pos l1 fs1 mid /\ placed (its ++ pair_sets h pre) mid ((fst bf, f0) :: l2) (snd bf :: fs2) pos'.
Proof.
  induction 1 as [its pos|its pos b f l d fs pos' H1 H2 IH|its pos b f i l d fs pos' H1 H2 H3 IH|its pos b f i l d fs pos' H1 H2 H3 H4 IH];
    intros pre bf post E; [destruct pre; discriminate| | |]; unfold seen in E; cbn [map fst combine] in E; fold (seen l fs) in E;
    destruct pre as [|x pre]; cbn [app] in E; injection E as E0 E.
  all: try (exists [], f, l, [], fs, pos; subst bf; cbn [fst snd]; cbn [pair_sets flat_map]; rewrite app_nil_r;
       split; [reflexivity|]; split; [reflexivity|]; split; [reflexivity|]; split; [exact E|]; split; [constructor|];
       first [eapply pd_stand; eassumption | eapply pd_through; eassumption | eapply pd_out; eassumption]).
  all: destruct (IH pre bf post E) as (l1 & f0 & l2 & fs1 & fs2 & mid & -> & -> & E1 & E2 & P1 & P2);
    exists ((b, f) :: l1), f0, l2, (shift_frag d f :: fs1), fs2, mid; subst x; cbn [fst];
    (split; [reflexivity|]); (split; [reflexivity|]); (split; [unfold seen; cbn [map fst combine]; fold (seen l1 fs1); rewrite E1; reflexivity|]);
    (split; [exact E2|]); unfold pair_sets; cbn [flat_map fst snd]; rewrite margin_sets_shift, H1.
  - split; [|exact P2]. eapply pd_out; eassumption.
  - split; [eapply pd_through; eassumption|]. rewrite app_assoc. exact P2.
  - split; [eapply pd_stand; eassumption|]. rewrite app_assoc. exact P2.
Qed.
(** nothing moves across boxes that vanish *)
Lemma placed_vanish its pos l fs pos' : placed its pos l fs pos' -> Forall (vanishes h) (seen l fs) -> pos' = pos.
Proof.
  induction 1 as [its pos|its pos b f l d fs pos' H1 H2 IH|its pos b f i l d fs pos' H1 H2 H3 IH|its pos b f i l d fs pos' H1 H2 H3 H4 IH];
    intros V; [reflexivity| | |]; unfold seen in V; cbn [map fst combine] in V; inversion V as [|? ? V1 V2]; subst.
  - apply IH. exact V2.
  - apply IH. exact V2.
  - exfalso. unfold vanishes in V1. cbn [fst snd] in V1. rewrite margin_sets_shift, H1 in V1. congruence.
Qed.
Lemma placed_stand its pos b f0 f i l fs pos' : laid h (b, f0) -> stands h (b, f) i -> placed its pos ((b, f0) :: l) (f :: fs) pos' ->
  border_top h f = pos + gap col its i /\ placed (its ++ [i]) (border_bottom h f) l fs pos'.
Proof.
  intros L S P. pose proof (stands_box _ _ _ S) as Hb. destruct S as [S1 S2]. cbn [fst snd] in S1.
  inversion P as [|? ? ? ? ? ? ? ? H1 H2|? ? ? ? ? ? ? ? ? H1 H2 H3|? ? ? ? j ? ? ? ? H1 H2 H3 H4]; subst;
    rewrite margin_sets_shift, H1 in S1; try discriminate.
  - injection S1 as ->. congruence.
  - injection S1 as ->. unfold laid in L. cbn [fst snd] in L. rewrite H1 in L.
    destruct f0 as [st ch r p bd m cm| |]; try contradiction. destruct L as [_ L].
    unfold border_bottom. rewrite border_top_shift by (repeat eexists). rewrite L, border_height_shift.
    split; [ring|]. replace (l0 + (pos + gap col its i) + border_height (FBox st ch r p bd m cm)) with (pos + gap col its i + border_height (FBox st ch r p bd m cm)) by ring.
    exact H4.
Qed.

(** where a standing box goes *)
Lemma placed_top its pos l fs pos' : placed its pos l fs pos' -> Forall (laid h) l ->
  forall pre bf post i, seen l fs = pre ++ bf :: post -> stands h bf i -> Forall (vanishes h) pre ->
  border_top h (snd bf) = pos + gap col (its ++ pair_sets h pre) i.
Proof.
  intros P L pre bf post i E S V. destruct (placed_split _ _ _ _ _ P pre bf post E) as (l1 & f0 & l2 & fs1 & fs2 & mid & -> & -> & E1 & E2 & P1 & P2).
  apply Forall_app in L. destruct L as [_ L]. inversion L as [|? ? L1 L2]; subst.
  rewrite (placed_vanish _ _ _ _ _ P1) in P2 by exact V. destruct bf as [b f]. exact (proj1 (placed_stand _ _ _ _ _ _ _ _ _ L1 S P2)).
Qed.
Lemma placed_gap its pos l fs pos' : placed its pos l fs pos' -> Forall (laid h) l ->
  forall pre bf1 mid bf2 post i1 i2, seen l fs = pre ++ bf1 :: mid ++ bf2 :: post ->
  stands h bf1 i1 -> stands h bf2 i2 -> Forall (vanishes h) mid ->
  border_top h (snd bf2) = border_bottom h (snd bf1) + cm_solve (csum (ms_end i1 ++ flat_map ms_all (pair_sets h mid) ++ ms_start i2)).
Proof.
  intros P L pre bf1 mid bf2 post i1 i2 E S1 S2 V.
  destruct (placed_split _ _ _ _ _ P pre bf1 (mid ++ bf2 :: post) E) as (l1 & f0 & l2 & fs1 & fs2 & pm & -> & -> & E1 & E2 & P1 & P2).
  apply Forall_app in L. destruct L as [_ L]. inversion L as [|? ? L1 L2]; subst.
  destruct bf1 as [b1 f1]. cbn [fst snd] in *. destruct (placed_stand _ _ _ _ _ _ _ _ _ L1 S1 P2) as [_ P3].
  rewrite (placed_top _ _ _ _ _ P3 L2 mid bf2 post i2 E2 S2 V). f_equal.
  pose proof (vanish_through _ V) as Hv. destruct S1 as [_ S1]. unfold gap.
  rewrite !all_through_app. cbn [all_through forallb]. rewrite S1. cbn [andb]. rewrite !andb_false_r. cbn [andb]. rewrite ?andb_false_r.
  match goal with |- context [trailing ((?A ++ [i1]) ++ ?B)] => replace ((A ++ [i1]) ++ B) with (A ++ i1 :: B) by (rewrite <- (app_assoc A [i1] B); reflexivity) end.
  rewrite (trailing_stand _ i1 (pair_sets h mid) S1 Hv).
  rewrite <- app_assoc. reflexivity.
Qed.
(** the position after the last standing box *)
Lemma placed_last its pos l fs pos' : placed its pos l fs pos' -> Forall (laid h) l ->
  forall pre bf post i, seen l fs = pre ++ bf :: post -> stands h bf i -> Forall (vanishes h) post -> pos' = border_bottom h (snd bf).
Proof.
  intros P L pre bf post i E S V. destruct (placed_split _ _ _ _ _ P pre bf post E) as (l1 & f0 & l2 & fs1 & fs2 & mid & -> & -> & E1 & E2 & P1 & P2).
  apply Forall_app in L. destruct L as [_ L]. inversion L as [|? ? L1 L2]; subst. destruct bf as [b f].
  destruct (placed_stand _ _ _ _ _ _ _ _ _ L1 S P2) as [_ P3]. apply (placed_vanish _ _ _ _ _ P3). exact V.
Qed.
End Reading.
