(** Proofs about the render device, fonts and shaped segments. *)
From Verif Require Import GfxModel GfxSpec GfxProofs.
Local Open Scope len_scope.
Local Open Scope outcome_scope.

(* ------------------------------------------------------------ the growing vector *)
Lemma set_elt_firstn {A} (l : list (option A)) i x : (i < length l)%nat ->
  firstn (S i) (upd i (fun _ => x) l) = firstn i l ++ [x].
Proof.
  revert i; induction l as [|y l IH]; intros [|i] H; cbn in *; try lia; [reflexivity|].
  f_equal. apply IH. lia.
Qed.
Lemma firstn_S_nth {A} (l : list A) i x : nth_error l i = Some x -> firstn (S i) l = firstn i l ++ [x].
Proof.
  revert i; induction l as [|y l IH]; intros [|i]; cbn; try discriminate.
  - intros [= ->]. reflexivity.
  - intros H. f_equal. apply IH. exact H.
Qed.
Lemma copy_ok {A} (old : list (option A)) : forall k new i,
  (i + k <= length old)%nat -> (i + k <= length new)%nat -> firstn i new = firstn i old ->
  exists new', copy_elts old new i k = Done new' /\ length new' = length new /\ firstn (i + k) new' = firstn (i + k) old.
Proof.
  induction k as [|k IH]; intros new i H1 H2 H3; cbn [copy_elts].
  - exists new. rewrite Nat.add_0_r. auto.
  - unfold vector_elt, set_vector_elt. destruct (nth_error old i) as [x|] eqn:E; [|apply nth_error_None in E; lia].
    cbn [obind]. rewrite (proj2 (Nat.ltb_lt _ _)) by lia. cbn [obind].
    destruct (IH (upd i (fun _ => x) new) (S i)) as (new' & E1 & E2 & E3).
    + lia.
    + rewrite upd_len. lia.
    + rewrite set_elt_firstn, H3 by lia. symmetry. apply firstn_S_nth. exact E.
    + exists new'. rewrite upd_len in E2. replace (i + S k)%nat with (S i + k)%nat by lia. auto.
Qed.

Record DInv (d : rdev) (gs : list grob) : Prop := {
  dv_size : d_size d = length gs;
  dv_cap : d_capacity d = length (d_grobs d);
  dv_pos : (0 < d_capacity d)%nat;
  dv_le : (d_size d <= d_capacity d)%nat;
  dv_elts : firstn (d_size d) (d_grobs d) = map Some gs }.

Lemma DInv_new y0 : DInv (rdev_new y0) [].
Proof. constructor; cbn; try reflexivity; lia. Qed.

Definition same_bbox (d d' : rdev) : Prop :=
  d_y0 d' = d_y0 d /\ d_xmin d' = d_xmin d /\ d_ymin d' = d_ymin d /\ d_xmax d' = d_xmax d /\ d_ymax d' = d_ymax d /\ d_set d' = d_set d.

Lemma add_ok d gs g : DInv d gs -> exists d', rdev_add d g = Done d' /\ DInv d' (gs ++ [g]) /\ same_bbox d d'.
Proof.
  intros [S C P L E]. unfold rdev_add.
  assert (exists d1, (if (d_size d =? d_capacity d)%nat then rdev_grow_capacity d else Done d) = Done d1 /\
    d_size d1 = d_size d /\ d_capacity d1 = length (d_grobs d1) /\ (d_size d < d_capacity d1)%nat /\
    firstn (d_size d) (d_grobs d1) = map Some gs /\ same_bbox d d1) as (d1 & -> & S1 & C1 & L1 & E1 & B1).
  { destruct (Nat.eqb_spec (d_size d) (d_capacity d)) as [Q|Q].
    - unfold rdev_grow_capacity.
      destruct (copy_ok (d_grobs d) (d_size d) (repeat None (2 * d_capacity d)) 0) as (new & -> & Ln & Fn);
        rewrite ?repeat_length; try lia; [reflexivity|].
      cbn [obind]. eexists; split; [reflexivity|]. cbn [d_size d_capacity d_grobs].
      rewrite repeat_length in Ln. cbn [Nat.add] in Fn. rewrite Fn. unfold same_bbox; cbn. repeat split; auto; lia.
    - exists d. unfold same_bbox. repeat split; auto; lia. }
  cbn [obind]. unfold set_vector_elt. rewrite S1, (proj2 (Nat.ltb_lt _ _)) by lia. cbn [obind].
  eexists; split; [reflexivity|]. split.
  - constructor; cbn [d_size d_capacity d_grobs].
    + rewrite app_length, S. cbn. lia.
    + rewrite upd_len. exact C1.
    + lia.
    + lia.
    + rewrite Nat.add_1_r, set_elt_firstn by lia. rewrite E1, map_app. reflexivity.
  - exact B1.
Qed.

Lemma release_ok d gs : DInv d gs ->
  rdev_release d = Done (map Some gs, if d_set d then Some (d_xmin d, d_ymin d, d_xmax d, d_ymax d) else None).
Proof.
  intros [S C P L E]. unfold rdev_release.
  destruct (copy_ok (d_grobs d) (d_size d) (repeat None (d_size d)) 0) as (new & -> & Ln & Fn);
    rewrite ?repeat_length; try lia; [reflexivity|].
  cbn [obind]. cbn [Nat.add] in Fn. rewrite E in Fn. rewrite repeat_length in Ln.
  rewrite <- Ln, firstn_all in Fn. rewrite Fn. reflexivity.
Qed.

(* ------------------------------------------------------------ coordinates *)
Lemma to_in_eq l : to_in l = l * px (1#96).
Proof.
  unfold to_in. change (ldiv l (px 96)) with (lmul l (Qcinv (@px Exact 96))). replace (Qcinv (@px Exact 96)) with (px (1#96)) by (apply Qc_is_canon; reflexivity). reflexivity.
Qed.

Lemma rect_covers y0 x y w h gp p :
  in_rect x y w h p <-> grob_covers (RectGrob (to_in x) (y0 - to_in y) (to_in w) (to_in h) l0 (px 1) gp) (on_device y0 p).
Proof.
  destruct p as [a b]. unfold in_rect, grob_covers, on_device; cbn [fst snd]. rewrite !to_in_eq.
  assert (forall z : Len, l0 * z = l0) as Z by lenq.
  assert (forall z : Len, px 1 * z = z) as O by lenq.
  rewrite Z, O. split; intros (H1 & H2 & H3 & H4); repeat split; lenq.
Qed.

Lemma combine_flip y0 ps :
  combine (map (fun p => to_in (fst p)) ps) (map (fun y => y0 - y) (map (fun p : Len * Len => to_in (snd p)) ps)) = map (on_device y0) ps.
Proof. induction ps as [|[a b] ps IH]; cbn; [reflexivity|]. rewrite IH, !to_in_eq. reflexivity. Qed.

(* ------------------------------------------------------------ one drawing call *)
Lemma value_last vs g : value_of (vs ++ [Some g]) (length vs) = Some g.
Proof. rewrite value_lk, lk_app, Nat.eqb_refl. reflexivity. Qed.
Lemma put_last vs x y : put (vs ++ [x]) (length vs) y = vs ++ [y].
Proof. unfold put. induction vs as [|z vs IH]; cbn; [reflexivity|]. f_equal. exact IH. Qed.

Lemma step_set w vs g s g' : Inv w (vs ++ [Some g]) -> set_value g s = Some g' ->
  exists w', gc_set w (length vs) s = Done w' /\ Inv w' (vs ++ [Some g']).
Proof.
  intros I H. pose proof (gc_step_ok w _ (GSet (length vs) s) I) as G. cbn [value_step] in G.
  rewrite value_last, H, put_last in G. exact G.
Qed.
Lemma step_drop w vs g : Inv w (vs ++ [Some g]) -> exists w', gc_drop w (length vs) = Done w' /\ Inv w' (vs ++ [None]).
Proof.
  intros I. pose proof (gc_step_ok w _ (GDrop (length vs)) I) as G. cbn [value_step] in G.
  rewrite value_last, put_last in G. exact G.
Qed.
Lemma step_new w vs : Inv w vs -> exists w', gc_new w = Done w' /\ Inv w' (vs ++ [Some gvals_fresh]).
Proof. intros I. exact (gc_step_ok w vs GNew I). Qed.
Lemma step_clone w vs v g : Inv w vs -> value_of vs v = Some g -> exists w', gc_clone w v = Done w' /\ Inv w' (vs ++ [Some g]).
Proof. intros I H. pose proof (gc_step_ok w vs (GClone v) I) as G. cbn [value_step] in G. rewrite H in G. exact G. Qed.
Lemma step_view w vs g : Inv w (vs ++ [Some g]) -> gc_view w (length vs) = Done (native g).
Proof. intros I. rewrite (Inv_view _ _ _ I), value_last. reflexivity. Qed.

Ltac fire E := let w := fresh "w" in let I := fresh "I" in
  let H := fresh in pose proof E as H; destruct H as (w & H & I); rewrite H; clear H; cbn [obind].

Lemma draw_ok d gs gw vs c : DInv d gs -> Inv gw vs -> call_ok vs c -> draws c = true ->
  exists d' gw' g, dstep (DWorld d gw) c = Done (DWorld d' gw') /\ DInv d' (gs ++ [g]) /\ Inv gw' (vs ++ [None]) /\
    same_bbox d d' /\ produces (d_y0 d) vs c g.
Proof.
  intros D I Ok Dr. pose proof (i_len _ _ I) as L. destruct c as [l x y f col|x y w h col|ps col w st|]; [| | |discriminate]; cbn [dstep].
  - destruct Ok as [N V]. destruct (value_of vs (f_gc f)) as [v|] eqn:Ev; [|congruence].
    unfold draw_text, cstring_unwrap. rewrite N. cbn [obind dw_gc dw_dev]. rewrite L.
    fire (step_clone gw vs _ _ I Ev).
    destruct v as [vc vf vfam vb vi vs_ vlh vls vlw].
    fire (step_set w vs _ (SetColor col) _ I0 eq_refl).
    rewrite (step_view _ _ _ I1); cbn [obind]. unfold rdev_draw_text.
    match goal with |- context [rdev_add d ?g] => destruct (add_ok d gs g D) as (d' & E & D' & B); rewrite E; clear E; cbn [obind] end.
    fire (step_drop _ _ _ I1).
    eexists _, _, _. split; [reflexivity|]. split; [exact D'|]. split; [exact I2|]. split; [exact B|].
    cbn [produces]. split; [reflexivity|]. split.
    + cbn [text_origin]. replace (leqb l0 l0 && leqb l0 l0) with true by reflexivity. unfold on_device; cbn [fst snd]. rewrite !to_in_eq. reflexivity.
    + eexists. split; [exact Ev|]. cbn. auto.
  - unfold draw_rect. cbn [dw_gc dw_dev]. rewrite L.
    fire (step_new gw vs I).
    fire (step_set _ vs _ (SetColor (RGBA zero zero zero zero)) _ I0 eq_refl).
    fire (step_set _ vs _ (SetFill col) _ I1 eq_refl).
    rewrite (step_view _ _ _ I2); cbn [obind]. unfold rdev_draw_rect.
    match goal with |- context [rdev_add d ?g] => destruct (add_ok d gs g D) as (d' & E & D' & B); rewrite E; clear E; cbn [obind] end.
    fire (step_drop _ _ _ I2).
    eexists _, _, _. split; [reflexivity|]. split; [exact D'|]. split; [exact I3|]. split; [exact B|].
    cbn [produces]. split; [intros p; apply rect_covers|]. split; [reflexivity|]. apply colour_roundtrip.
  - unfold draw_line. cbn [dw_gc dw_dev]. rewrite L.
    fire (step_new gw vs I).
    fire (step_set _ vs _ (SetColor col) _ I0 eq_refl).
    fire (step_set _ vs _ (SetLineStyle st) _ I1 eq_refl).
    fire (step_set _ vs _ (SetLineWidth w) _ I2 eq_refl).
    rewrite (step_view _ _ _ I3); cbn [obind]. unfold rdev_draw_line.
    match goal with |- context [rdev_add d ?g] => destruct (add_ok d gs g D) as (d' & E & D' & B); rewrite E; clear E; cbn [obind] end.
    fire (step_drop _ _ _ I3).
    eexists _, _, _. split; [reflexivity|]. split; [exact D'|]. split; [exact I4|]. split; [exact B|].
    cbn [produces line_points]. rewrite !map_length, combine_flip. repeat split. cbn. destruct st; reflexivity.
Qed.

(* ------------------------------------------------------------ bounding box *)
Definition BInv (d : rdev) (pts : list (Len * Len)) : Prop :=
  if d_set d then least_box (Box (d_xmin d) (d_ymin d) (d_xmax d) (d_ymax d)) (map (on_device (d_y0 d)) pts) else pts = [].

Lemma BInv_same d d' pts : same_bbox d d' -> BInv d pts -> BInv d' pts.
Proof. intros (E0 & E1 & E2 & E3 & E4 & E5) H. unfold BInv in *. rewrite E0, E1, E2, E3, E4, E5. exact H. Qed.

(** one axis of the box *)
Lemma axis_sort (a b : Len) : exists lo hi, (if lltb b a then (b, a) else (a, b)) = (lo, hi) /\
  lo <= a /\ lo <= b /\ a <= hi /\ b <= hi /\ (lo = a \/ lo = b) /\ (hi = a \/ hi = b).
Proof. destruct (lltb b a) eqn:E; eexists _, _; (split; [reflexivity|]); repeat split; auto; lenq. Qed.
Lemma axis_lo (new old : Len) : exists r, (if lltb new old then new else old) = r /\ r <= new /\ r <= old /\ (r = new \/ r = old).
Proof. destruct (lltb new old) eqn:E; eexists; (split; [reflexivity|]); repeat split; auto; lenq. Qed.
Lemma axis_hi (new old : Len) : exists r, (if lltb old new then new else old) = r /\ new <= r /\ old <= r /\ (r = new \/ r = old).
Proof. destruct (lltb old new) eqn:E; eexists; (split; [reflexivity|]); repeat split; auto; lenq. Qed.
Lemma le_trans' (a b c : Len) : a <= b -> b <= c -> a <= c.
Proof. apply Qcle_trans. Qed.

Lemma corners_dev y0 x y w h : map (on_device y0) (corners x y w h) =
  let x1 := x * px (1#96) in let x2 := x * px (1#96) + w * px (1#96) in
  let y1 := y0 - y * px (1#96) in let y2 := y0 - (y * px (1#96) + h * px (1#96)) in
  [(x1, y1); (x2, y1); (x1, y2); (x2, y2)].
Proof.
  unfold corners, on_device; cbn [map fst snd].
  replace ((x + w) * px (1#96)) with (x * px (1#96) + w * px (1#96)) by lenq.
  replace ((y + h) * px (1#96)) with (y * px (1#96) + h * px (1#96)) by lenq. reflexivity.
Qed.

Lemma record_ok d gw pts x y w h : BInv d pts -> BInv (dw_dev (record_bbox (DWorld d gw) x y w h)) (pts ++ corners x y w h)
  /\ d_y0 (dw_dev (record_bbox (DWorld d gw) x y w h)) = d_y0 d.
Proof.
  intros B. unfold record_bbox, rdev_record_bbox; cbn [dw_dev]. rewrite !to_in_eq.
  pose proof (corners_dev (d_y0 d) x y w h) as C. cbv zeta in C.
  set (x1 := x * px (1#96)) in *. set (x2 := x1 + w * px (1#96)) in *.
  set (y1 := d_y0 d - y * px (1#96)) in *. set (y2 := d_y0 d - (y * px (1#96) + h * px (1#96))) in *.
  clearbody x2 y2 x1 y1.
  destruct (axis_sort x1 x2) as (xl & xh & -> & X1 & X2 & X3 & X4 & X5 & X6).
  destruct (axis_sort y1 y2) as (yl & yh & -> & Y1 & Y2 & Y3 & Y4 & Y5 & Y6).
  unfold BInv in *; destruct (d_set d) eqn:Es; cbn [d_set d_y0 d_xmin d_ymin d_xmax d_ymax]; (split; [|reflexivity]);
    rewrite map_app, C.
  - destruct (axis_lo xl (d_xmin d)) as (a & -> & A1 & A2 & A3), (axis_lo yl (d_ymin d)) as (b & -> & B1 & B2 & B3),
      (axis_hi xh (d_xmax d)) as (c & -> & C1 & C2 & C3), (axis_hi yh (d_ymax d)) as (e & -> & E1 & E2 & E3).
    destruct B as [P L]. split.
    + apply Forall_app; split.
      * eapply Forall_impl; [|exact P]. intros p (H1 & H2 & H3 & H4). cbn in *. repeat split; cbn; eauto using le_trans'.
      * repeat constructor; cbn; eauto using le_trans'.
    + intros b' H. apply Forall_app in H as [H1 H2]. apply L in H1 as (W1 & W2 & W3 & W4). cbn in *.
      inversion H2 as [|? ? (P1 & P2 & P3 & P4) Hb3]; subst. inversion Hb3 as [|? ? (Q1 & Q2 & Q3 & Q4) Hb4]; subst.
      inversion Hb4 as [|? ? (R1 & R2 & R3 & R4) Hb5]; subst. cbn in *.
      repeat split; cbn; [destruct A3 as [-> | ->] | destruct C3 as [-> | ->] | destruct B3 as [-> | ->] | destruct E3 as [-> | ->]]; auto;
        [destruct X5 as [-> | ->] | destruct X6 as [-> | ->] | destruct Y5 as [-> | ->] | destruct Y6 as [-> | ->]]; auto.
  - subst pts. cbn [map app]. split.
    + repeat constructor; cbn; auto.
    + intros b' H2.
      inversion H2 as [|? ? (P1 & P2 & P3 & P4) Hb3]; subst. inversion Hb3 as [|? ? (Q1 & Q2 & Q3 & Q4) Hb4]; subst.
      inversion Hb4 as [|? ? (R1 & R2 & R3 & R4) Hb5]; subst. cbn in *.
      repeat split; cbn; [destruct X5 as [-> | ->] | destruct X6 as [-> | ->] | destruct Y5 as [-> | ->] | destruct Y6 as [-> | ->]]; auto.
Qed.

(* ------------------------------------------------------------ runs *)
Lemma value_of_app_none vs v : value_of (vs ++ [None]) v = value_of vs v.
Proof. rewrite !value_lk, lk_app. eqb_case; [subst|reflexivity]. symmetry. apply lk_ge. lia. Qed.
Lemma value_of_nones vs k v : value_of (vs ++ repeat None k) v = value_of vs v.
Proof.
  revert vs; induction k as [|k IH]; intros vs; cbn; [rewrite app_nil_r; reflexivity|].
  replace (vs ++ None :: repeat None k) with ((vs ++ [None]) ++ repeat None k) by (rewrite <- app_assoc; reflexivity).
  rewrite IH. apply value_of_app_none.
Qed.
Lemma produces_ext y0 vs vs' c g : (forall v, value_of vs v = value_of vs' v) -> produces y0 vs c g -> produces y0 vs' c g.
Proof.
  intros H. destruct c, g; cbn; auto. intros (E1 & E2 & v & Hv & R). rewrite H in Hv. eauto 10.
Qed.
Lemma call_ok_ext vs vs' c : (forall v, value_of vs v = value_of vs' v) -> call_ok vs c -> call_ok vs' c.
Proof. intros H. destruct c; cbn; auto. rewrite H. auto. Qed.

Lemma Forall2_imp {A B} (R S : A -> B -> Prop) l l' : (forall a b, R a b -> S a b) -> Forall2 R l l' -> Forall2 S l l'.
Proof. induction 2; constructor; auto. Qed.
Lemma drun_ok cs : forall d gs gw vs pts, DInv d gs -> Inv gw vs -> BInv d pts -> Forall (call_ok vs) cs ->
  exists d' gw' gs' k, drun (DWorld d gw) cs = Done (DWorld d' gw') /\ DInv d' (gs ++ gs') /\ Inv gw' (vs ++ repeat None k) /\
    BInv d' (pts ++ recorded cs) /\ d_y0 d' = d_y0 d /\ Forall2 (produces (d_y0 d) vs) (filter draws cs) gs'.
Proof.
  induction cs as [|c cs IH]; intros d gs gw vs pts D I B Ok; cbn [drun filter recorded].
  - exists d, gw, [], 0%nat. cbn [repeat]. rewrite !app_nil_r. auto 10.
  - inversion Ok as [|? ? Okc Okr]; subst. destruct (draws c) eqn:Dr.
    + destruct (draw_ok _ _ _ _ _ D I Okc Dr) as (d1 & gw1 & g & E & D1 & I1 & Sb & P).
      rewrite E. cbn [obind]. pose proof (BInv_same _ _ _ Sb B) as B1.
      destruct (IH d1 (gs ++ [g]) gw1 (vs ++ [None]) pts D1 I1 B1) as (d' & gw' & gs' & k & E' & D' & I' & B' & Y & F).
      { eapply Forall_impl; [|exact Okr]. intros c'. apply call_ok_ext. intros v. symmetry. apply value_of_app_none. }
      exists d', gw', (g :: gs'), (S k). destruct Sb as (Y0 & _).
      rewrite <- !app_assoc in *. cbn [app repeat] in *. rewrite Y0 in *.
      split; [exact E'|]. split; [exact D'|]. split; [exact I'|].
      split; [destruct c; try exact B'; discriminate|]. split; [exact Y|].
      constructor; [exact P|]. eapply Forall2_imp; [|exact F]. intros c' g'. apply produces_ext. apply value_of_app_none.
    + destruct c as [| | |x y w h]; try discriminate. cbn [dstep obind].
      destruct (record_ok d gw pts x y w h B) as [B1 Y1].
      assert (DInv (dw_dev (record_bbox (DWorld d gw) x y w h)) gs) as D1.
      { destruct D. unfold record_bbox, rdev_record_bbox; cbn [dw_dev].
        repeat match goal with |- context [if ?b then _ else _] => destruct b end; constructor; assumption. }
      destruct (IH _ gs (dw_gc (record_bbox (DWorld d gw) x y w h)) vs _ D1 I B1 Okr) as (d' & gw' & gs' & k & E' & D' & I' & B' & Y & F).
      exists d', gw', gs', k. rewrite <- app_assoc in B'. rewrite Y1 in *. 
      split; [rewrite <- E'; reflexivity|]. auto 10.
Qed.

(** Everything at once, from a fresh device and any reachable set of graphics contexts. *)
Lemma device_run os vs y0 cs : value_run [] os = Some vs -> Forall (call_ok vs) cs ->
  exists gw w bb gs, gc_run gworld0 os = Done gw /\ drun (DWorld (rdev_new y0) gw) cs = Done w /\
    rdev_release (dw_dev w) = Done (map Some gs, bb) /\
    Forall2 (produces y0 vs) (filter draws cs) gs /\
    match bb with
    | Some (x1, y1, x2, y2) => recorded cs <> [] /\ least_box (Box x1 y1 x2 y2) (map (on_device y0) (recorded cs))
    | None => recorded cs = []
    end /\
    (forall v, gc_view (dw_gc w) v = gc_view gw v) /\ live (w_vars (dw_gc w)) = live (w_vars gw).
Proof.
  intros H Ok. pose proof (gc_run_ok os gworld0 [] Inv_init) as G. rewrite H in G. destruct G as (gw & E & I).
  destruct (drun_ok cs (rdev_new y0) [] gw vs [] (DInv_new y0) I eq_refl Ok) as (d' & gw' & gs' & k & E' & D' & I' & B' & Y & F).
  exists gw, (DWorld d' gw'). eexists _, gs'. split; [exact E|]. split; [exact E'|].
  cbn [dw_dev dw_gc app] in *. split; [apply release_ok; exact D'|]. cbn in Y. split; [exact F|]. split.
  - unfold BInv in B'. rewrite Y in B'. destruct (d_set d') eqn:Es; [|exact B'].
    split; [|exact B']. intros Z. rewrite Z in B'. destruct B' as [_ B']. cbn in B'.
    (* the empty set has no least box: any degenerate box would have to contain it *)
    pose proof (B' (Box l0 l0 (lneg (px 1)) (lneg (px 1))) (Forall_nil _)) as (P1 & P2 & _).
    pose proof (B' (Box (px 1) (px 1) (px 2) (px 2)) (Forall_nil _)) as (Q1 & Q2 & _).
    pose proof (B' (Box (d_xmin d' + px 1) l0 (d_xmax d' - px 1) l0) (Forall_nil _)) as (R1 & R2 & _). cbn in *. clear -R1. lenq.
  - split.
    + intros v. rewrite (Inv_view _ _ _ I), (Inv_view _ _ _ I'), value_of_nones. reflexivity.
    + assert (forall w vs, Inv w vs -> live (w_vars w) = live vs) as LV.
      { clear. intros w vs I. pose proof (i_len _ _ I) as L. pose proof (i_none _ _ I) as N. clear I.
        revert vs L N. unfold live. induction (w_vars w) as [|a l IH]; intros [|b vs] L N; cbn in *; try discriminate; [reflexivity|].
        assert (length (filter (fun o => match o with Some _ => true | None => false end) l) = length (filter (fun o => match o with Some _ => true | None => false end) vs)) as E.
        { apply IH; [lia|]. intros v. apply (N (S v)). }
        pose proof (N 0%nat) as N0. unfold lk in N0; cbn in N0.
        destruct a, b; cbn; rewrite ?E; try reflexivity; destruct N0 as [A1 A2]; [discriminate (A2 eq_refl)|discriminate (A1 eq_refl)]. }
      rewrite (LV _ _ I), (LV _ _ I'). unfold live. rewrite filter_app, app_length.
      assert (length (filter (fun o : option gvals => match o with Some _ => true | None => false end) (repeat None k)) = 0%nat) as ->; [|lia].
      clear. induction k; cbn; auto.
Qed.

(* ------------------------------------------------------------ fonts *)
Lemma style_weight_fold ss : Forall (fun s => match s with SetFontStyle _ | SetFontWeight _ => True | _ => False end) ss ->
  forall vs g, exists g', value_run (vs ++ [Some g]) (map (GSet (length vs)) ss) = Some (vs ++ [Some g']) /\
    gv_bold g' = gv_bold g || existsb (fun s => match s with SetFontWeight w => is_bold w | _ => false end) ss /\
    gv_italic g' = gv_italic g || existsb (fun s => match s with SetFontStyle st => is_italic st | _ => false end) ss.
Proof.
  induction 1 as [|s ss Hs Hss IH]; intros vs g; cbn [map value_run existsb].
  - exists g. rewrite !orb_false_r. auto.
  - cbn [value_step]. rewrite value_last. destruct g as [c f fam b i sz lh ls lw]. destruct s; try contradiction; cbn [set_value].
    + rewrite put_last. destruct (IH vs (GVals c f fam b (i || is_italic s) sz lh ls lw)) as (g' & E & Bd & It).
      exists g'. cbn in *. rewrite <- orb_assoc in It. auto.
    + rewrite put_last. destruct (IH vs (GVals c f fam (b || is_bold w) i sz lh ls lw)) as (g' & E & Bd & It).
      exists g'. cbn in *. rewrite <- orb_assoc in Bd. auto.
Qed.

Lemma face_any_order ss : Forall (fun s => match s with SetFontStyle _ | SetFontWeight _ => True | _ => False end) ss ->
  exists w g, gc_run gworld0 (GNew :: map (GSet 0) ss) = Done w /\ gc_view w 0 = Done g /\
    g_fontface g = r_face (existsb (fun s => match s with SetFontWeight w => is_bold w | _ => false end) ss)
                          (existsb (fun s => match s with SetFontStyle st => is_italic st | _ => false end) ss).
Proof.
  intros H. destruct (style_weight_fold ss H [] gvals_fresh) as (g' & E & B & It). cbn [app length] in E.
  destruct (gc_value_semantics (GNew :: map (GSet 0) ss) ([] ++ [Some g'])) as (w & R & V).
  { cbn [value_run value_step app]. exact E. }
  exists w, (native g'). split; [exact R|]. split; [exact (V 0%nat)|]. unfold native; cbn. rewrite B, It. reflexivity.
Qed.

(** Font::new: metrics are those R reports for the family, face and size, whatever R's metric function *)
Lemma font_new_ok ge gw vs name st wt size : Inv gw vs -> c_safe name = true ->
  exists f gw' g, font_new ge gw name st wt size = Done (f, gw') /\ Inv gw' (vs ++ [Some g]) /\ f_gc f = length vs /\
    gv_family g = name /\ gv_bold g = is_bold wt /\ gv_italic g = is_italic st /\ gv_size_px g = size /\
    (forall a d x, ge name (r_face (is_bold wt) (is_italic st)) (size * px (3#4)) "gjpqyQ"%string = (a, d, x) ->
       f_ascent f = px 96 * a /\ f_descent f = px 96 * d).
Proof.
  intros I S. unfold font_new. rewrite (i_len _ _ I).
  fire (step_new gw vs I).
  assert (set_value gvals_fresh (SetFontFamily name) = Some (GVals "black" "black" name false false (px 16) (px (12#10)) LSSolid (px 1))) as E by (cbn; rewrite S; reflexivity).
  fire (step_set _ vs _ (SetFontFamily name) _ I0 E).
  fire (step_set _ vs _ (SetFontStyle st) _ I1 eq_refl).
  fire (step_set _ vs _ (SetFontWeight wt) _ I2 eq_refl).
  fire (step_set _ vs _ (SetFontSize size) _ I3 eq_refl).
  rewrite (step_view _ _ _ I4); cbn [obind].
  unfold string_metrics_internal, rdev_string_metrics. cbn [cstring_unwrap has_nul Ascii.eqb Bool.eqb obind native g_fontfamily g_fontface g_fontsize gv_family gv_bold gv_italic gv_size_px orb].
  destruct (c_safe_strcpy _ S) as [_ ->]; cbn [obind].
  destruct (ge name (r_face (is_bold wt) (is_italic st)) (size * px (3#4)) "gjpqyQ"%string) as [[a d] x] eqn:E1.
  destruct (ge name (r_face (is_bold wt) (is_italic st)) (size * px (3#4)) " "%string) as [[a2 d2] x2] eqn:E2.
  cbn. rewrite E1. cbn. rewrite E2. cbn.
  eexists _, _, _. split; [reflexivity|]. split; [exact I4|]. cbn. repeat split; intros; try congruence.
Qed.

(* ------------------------------------------------------------ shaped segments *)
Lemma prefixb_iff a b : prefixb a b = true <-> prefix a b.
Proof.
  revert b; induction a as [|x a IH]; intros b; cbn.
  - split; [intros _; exists b; reflexivity|reflexivity].
  - destruct b as [|y b].
    + split; [discriminate|]. intros [c H]. discriminate.
    + rewrite andb_true_iff, N.eqb_eq, IH. split.
      * intros [-> [c ->]]. exists c. reflexivity.
      * intros [c H]. injection H as -> ->. split; [reflexivity|]. exists c. reflexivity.
Qed.
Lemma utf8_len_pos c : (1 <= utf8_len c)%nat.
Proof. unfold utf8_len. repeat match goal with |- context [if ?b then _ else _] => destruct b end; lia. Qed.
Lemma take_prefix a b : str_take (a ++ b) (str_len a) = Done a.
Proof.
  induction a as [|x a IH]; cbn [app str_len fold_right].
  - destruct b; reflexivity.
  - pose proof (utf8_len_pos x). cbn [str_take]. fold (str_len a).
    destruct (utf8_len x + str_len a)%nat as [|n] eqn:E; [lia|]. rewrite <- E.
    rewrite (proj2 (Nat.leb_le _ _)) by lia. replace (utf8_len x + str_len a - utf8_len x)%nat with (str_len a) by lia.
    rewrite IH. reflexivity.
Qed.
Lemma str_len_app a b : str_len (a ++ b) = (str_len a + str_len b)%nat.
Proof. unfold str_len. induction a as [|x a IH]; cbn [app fold_right]; [reflexivity|]. rewrite IH. lia. Qed.
Lemma truncate_prefix a b : str_truncate (a ++ b) (str_len a) = Done a.
Proof. unfold str_truncate. rewrite str_len_app, (proj2 (Nat.leb_le _ _)) by lia. apply take_prefix. Qed.

Definition cache_ok (width : text -> Len) (t : text) (w : option Len) : Prop := w = None \/ w = Some (width t).
Definition SInv (width : text -> Len) (s : segment * list seg_state) (t : text * list text) : Prop :=
  seg_glyphs (fst s) = fst t /\ cache_ok width (fst t) (seg_width (fst s)) /\
  Forall2 (fun st x => ss_glyphs st = str_len x /\ cache_ok width x (ss_width st)) (snd s) (snd t).

Lemma Forall2_nth {A B} (R : A -> B -> Prop) l l' i y : Forall2 R l l' -> nth_error l' i = Some y -> exists x, nth_error l i = Some x /\ R x y.
Proof.
  intros H; revert i; induction H as [|a b l l' Hab H IH]; intros [|i]; cbn; try discriminate.
  - intros [= ->]. eauto.
  - apply IH.
Qed.

Lemma seg_step_ok width s t o t' : SInv width s t -> text_step t o = Some t' ->
  exists s', seg_step width s o = Done s' /\ SInv width s' t'.
Proof.
  destruct s as [[g w] sv], t as [x xs]. intros (E & C & F). cbn in E, C. subst g. cbn [snd] in F.
  destruct o as [c| | |i|]; cbn [text_step seg_step].
  - intros [= <-]. eexists; split; [reflexivity|]. split; [reflexivity|]. split; [left; reflexivity|exact F].
  - intros [= <-]. eexists; split; [reflexivity|]. unfold seg_strip_space; cbn [seg_glyphs].
    destruct (rev x) as [|c r]; [split; [reflexivity|split; [exact C|exact F]]|].
    destruct (c =? sp)%N; (split; [reflexivity|]); (split; [|exact F]); [left; reflexivity|exact C].
  - intros [= <-]. eexists; split; [reflexivity|]. split; [reflexivity|]. split; [exact C|]. cbn [snd].
    apply Forall2_app; [exact F|]. constructor; [split; [reflexivity|exact C]|constructor].
  - destruct (nth_error xs i) as [y|] eqn:Ei; [|discriminate]. destruct (prefixb y x) eqn:P; [|discriminate].
    intros [= <-]. destruct (Forall2_nth _ _ _ _ _ F Ei) as ([n wd] & Es & En & Cn). rewrite Es. cbn in En, Cn.
    apply prefixb_iff in P as [z ->]. unfold seg_restore; cbn [seg_glyphs ss_glyphs ss_width]. rewrite En, truncate_prefix. cbn [obind].
    eexists; split; [reflexivity|]. split; [reflexivity|]. split; [exact Cn|exact F].
  - intros [= <-]. eexists; split; [reflexivity|]. unfold seg_advance; cbn [seg_width seg_glyphs].
    destruct w as [l|]; cbn [snd]; (split; [reflexivity|]); (split; [|exact F]); [exact C|right; reflexivity].
Qed.
Lemma seg_run_ok width os : forall s t t', SInv width s t -> text_run t os = Some t' ->
  exists s', seg_run width s os = Done s' /\ SInv width s' t'.
Proof.
  induction os as [|o os IH]; intros s t t' I; cbn [text_run seg_run].
  - intros [= <-]. eauto.
  - destruct (text_step t o) as [t1|] eqn:E; [|discriminate]. intros H.
    destruct (seg_step_ok width s t o t1 I E) as (s1 & -> & I1). cbn [obind]. eapply IH; eauto.
Qed.
Lemma seg_width_current width os t' saved' : text_run ([], []) os = Some (t', saved') ->
  exists s sv, seg_run width (seg_new, []) os = Done (s, sv) /\ seg_glyphs s = t' /\ fst (seg_advance width s) = width t' /\
    (seg_empty s = true <-> t' = []).
Proof.
  intros H. destruct (seg_run_ok width os (seg_new, []) ([], []) _ (conj eq_refl (conj (or_introl eq_refl) (Forall2_nil _))) H) as ([s sv] & E & G & C & F).
  exists s, sv. cbn in G, C. split; [exact E|]. split; [exact G|]. split.
  - unfold seg_advance. destruct C as [C|C]; rewrite C; cbn; congruence.
  - unfold seg_empty. rewrite G, Nat.eqb_eq. destruct t' as [|c t']; cbn; [tauto|]. pose proof (utf8_len_pos c). split; [lia|discriminate].
Qed.

(* ------------------------------------------------------------ statements used by the property file *)
Lemma produces_flipped y0 vs c g : produces y0 vs c g -> flipped y0 c g.
Proof. destruct c, g; cbn; tauto. Qed.
Lemma produces_looks y0 vs c g : produces y0 vs c g -> looks vs c g.
Proof. destruct c, g; cbn; tauto. Qed.

Section Run.
Variables (os : list gcop) (vs : vstore) (gw : gworld) (y0 : Len) (cs : list dcall).
Hypothesis Hos : value_run [] os = Some vs.
Hypothesis Hgw : gc_run gworld0 os = Done gw.
Hypothesis Hok : Forall (call_ok vs) cs.
Lemma dev_objects : exists w gs bb, drun (DWorld (rdev_new y0) gw) cs = Done w /\ rdev_release (dw_dev w) = Done (map Some gs, bb) /\
  Forall2 (looks vs) (filter draws cs) gs.
Proof using Hos Hgw Hok.
  destruct (device_run os vs y0 cs Hos Hok) as (gw' & w & bb & gs & E & R & Rel & F & _). rewrite Hgw in E. injection E as <-.
  exists w, gs, bb. split; [exact R|]. split; [exact Rel|]. eapply Forall2_imp; [|exact F]. apply produces_looks.
Qed.
Lemma dev_flip : exists w gs bb, drun (DWorld (rdev_new y0) gw) cs = Done w /\ rdev_release (dw_dev w) = Done (map Some gs, bb) /\
  Forall2 (flipped y0) (filter draws cs) gs.
Proof using Hos Hgw Hok.
  destruct (device_run os vs y0 cs Hos Hok) as (gw' & w & bb & gs & E & R & Rel & F & _). rewrite Hgw in E. injection E as <-.
  exists w, gs, bb. split; [exact R|]. split; [exact Rel|]. eapply Forall2_imp; [|exact F]. apply produces_flipped.
Qed.
Lemma dev_bbox : exists w gs bb, drun (DWorld (rdev_new y0) gw) cs = Done w /\ rdev_release (dw_dev w) = Done (gs, bb) /\
  match bb with
  | Some (x1, y1, x2, y2) => recorded cs <> [] /\ least_box (Box x1 y1 x2 y2) (map (on_device y0) (recorded cs))
  | None => recorded cs = []
  end.
Proof using Hos Hgw Hok.
  destruct (device_run os vs y0 cs Hos Hok) as (gw' & w & bb & gs & E & R & Rel & F & B & _). rewrite Hgw in E. injection E as <-.
  exists w, (map Some gs), bb. auto.
Qed.
Lemma dev_contexts : exists w, drun (DWorld (rdev_new y0) gw) cs = Done w /\
  (forall v, gc_view (dw_gc w) v = gc_view gw v) /\ live (w_vars (dw_gc w)) = live (w_vars gw) /\
  (live (w_heap (dw_gc w)) <= live (w_vars (dw_gc w)))%nat.
Proof using Hos Hgw Hok.
  pose proof (gc_run_ok os gworld0 [] Inv_init) as G. rewrite Hos in G. destruct G as (gw0 & E0 & I). rewrite Hgw in E0. injection E0 as <-.
  destruct (drun_ok cs (rdev_new y0) [] gw vs [] (DInv_new y0) I eq_refl Hok) as (d' & gw' & gs' & k & E' & D' & I' & _).
  destruct (device_run os vs y0 cs Hos Hok) as (gw2 & w & bb & gs & E & R & Rel & F & B & V & L). rewrite Hgw in E. injection E as <-.
  exists w. split; [exact R|]. split; [exact V|]. split; [exact L|]. rewrite E' in R. injection R as <-. cbn [dw_gc].
  eapply Inv_live_bound; eauto.
Qed.
End Run.

Lemma least_box_unique b b' pts : least_box b pts -> least_box b' pts -> b = b'.
Proof.
  intros [F1 L1] [F2 L2]. destruct (L1 _ F2) as (A1 & A2 & A3 & A4), (L2 _ F1) as (B1 & B2 & B3 & B4).
  destruct b, b'; cbn in *. f_equal; apply Qcle_antisym; assumption.
Qed.

Lemma family_boundary os w v s : gc_run gworld0 os = Done w -> gc_view w v <> IllScoped -> has_nul s = false ->
  if (String.length s <=? 200)%nat then exists w', gc_set w v (SetFontFamily s) = Done w' else gc_set w v (SetFontFamily s) = Overrun.
Proof.
  intros R V N. destruct (gc_run_inv _ _ R) as (vs & _ & I).
  assert (value_of vs v <> None) as Hv by (intros Z; apply V; rewrite (Inv_view _ _ _ I), Z; reflexivity).
  destruct (set_family_outcome w vs v s I Hv) as [A B]. rewrite N in A.
  destruct (String.length s <=? 200)%nat eqn:L.
  - apply B. unfold c_safe. rewrite N, L. reflexivity.
  - exact A.
Qed.
Fixpoint many (n : nat) : string := match n with O => EmptyString | S n' => String "a" (many n') end.
Lemma many_length n : String.length (many n) = n. Proof. induction n; cbn; congruence. Qed.
Lemma many_nul n : has_nul (many n) = false. Proof. induction n; cbn; congruence. Qed.
Lemma many_overrun : has_nul (many 201) = false /\ gc_run gworld0 [GNew; GSet 0 (SetFontFamily (many 201))] = Overrun /\
  forall ge st wt size, font_new ge gworld0 (many 201) st wt size = Overrun.
Proof.
  pose proof (family_boundary [GNew] (GWorld [Some (CGC "black" "black" (px 12) (px (12#10)) 1 1 (px 1) "")] [Some (RCell 1 0)] [Some 0%nat]) 0 (many 201) eq_refl) as H.
  assert (gc_set (GWorld [Some (CGC "black" "black" (px 12) (px (12#10)) 1 1 (px 1) "")] [Some (RCell 1 0)] [Some 0%nat]) 0 (SetFontFamily (many 201)) = Overrun) as E.
  { rewrite many_length in H. apply H; [discriminate|apply many_nul]. }
  split; [apply many_nul|]. split.
  - cbn [gc_run gc_step]. unfold gc_new, gcontext_new. cbn [obind]. change (c_strcpy "black") with (Done "black"%string). change (c_strcpy "") with (Done ""%string).
    cbn [obind app length w_heap w_rcs w_vars gworld0]. rewrite E. reflexivity.
  - intros. unfold font_new, gc_new, gcontext_new. change (c_strcpy "black") with (Done "black"%string). change (c_strcpy "") with (Done ""%string).
    cbn [obind app length w_heap w_rcs w_vars gworld0]. rewrite E. reflexivity.
Qed.
