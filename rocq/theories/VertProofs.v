(** Proofs about baselines and heights of lines. *)
From Verif Require Import InlineModel InlineSpec InlineWrap InlineProofs VertSpec.
Local Open Scope len_scope.
Local Open Scope result_scope.

Section Vert.
Variable m_ascent m_descent : style -> Len.
Variable m_width : style -> text -> Len.
Variable cb : cblock.
Variable ta : text_align.
Variable rank : nat.

Notation seated := (seated m_ascent m_descent cb).
Notation all_seated := (all_seated m_ascent m_descent cb).
Notation lowered := (lowered m_ascent).
Notation text_extent := (text_extent m_ascent m_descent).
Notation newline_extent := (newline_extent m_ascent m_descent).
Notation add_text := (add_text m_ascent m_descent m_width).
Notation start_layout := (start_layout m_ascent m_descent).
Notation wrap_loop := (wrap_loop m_ascent m_descent m_width).
Notation nowrap_loop := (nowrap_loop m_ascent m_descent m_width).
Notation ifc_loop := (ifc_loop m_ascent m_descent m_width).
Notation bbs := (list (list (ilb abs_lay))).

(* -------- maxima -------- *)
Definition top_of (l : list Len) : Len := fold_right lmax l0 l.
Lemma top_of_app a b : top_of (a ++ b) = lmax (top_of a) (top_of b).
Proof.
  induction a as [|x a IH]; cbn [top_of fold_right app].
  - change (top_of b = lmax l0 (top_of b)). enough (l0 <= top_of b) by lenq.
    induction b as [|y b IHb]; cbn [top_of fold_right]; [lenq|]. fold (top_of b). lenq.
  - fold (top_of (a ++ b)) (top_of a). rewrite IH. apply lmax_assoc.
Qed.
Lemma top_of_greatest l : greatest (top_of l) (l0 :: l).
Proof.
  induction l as [|x l [IH1 IH2]]; cbn [top_of fold_right].
  - split; [left; reflexivity|]. intros y [<-|[]]. lenq.
  - fold (top_of l). split.
    + rewrite lmax_def. destruct (lleb x (top_of l)); [destruct IH1 as [IH1|IH1]; cbn; auto | right; left; reflexivity].
    + intros y [<-|[<-|Hy]].
      * specialize (IH2 l0 (or_introl eq_refl)). lenq.
      * lenq.
      * specialize (IH2 y (or_intror Hy)). lenq.
Qed.

(* -------- spec and code compute the same values -------- *)
Lemma line_height_used st : line_height st = used_line_height st.
Proof. unfold line_height, used_line_height, lpn_rel. destruct (sv st Lline_height); lring. Qed.
Lemma line_extent st fo : text_extent st fo (fst (line_ascent_descent m_ascent m_descent st fo)) (snd (line_ascent_descent m_ascent m_descent st fo)).
Proof.
  unfold line_ascent_descent, VertSpec.text_extent. cbn [fst snd]. rewrite line_height_used. split; lenq.
Qed.
Lemma shift_lowered sty st lv : lv_ascent lv = m_ascent sty -> lowered sty st (baseline_shift st (m_ascent st) (m_descent st) lv).
Proof.
  intros E. unfold VertSpec.lowered, baseline_shift. rewrite E. destruct (sv st Lvertical_align); try exact I; try reflexivity; try lenq.
  rewrite line_height_used. lring.
Qed.
Lemma down_by_code st : v_block (relative_adjustement st (cb_inline cb) (cb_block cb)) = down_by cb st.
Proof.
  unfold relative_adjustement, down_by. destruct (sv st Lposition); cbn [is_relatively_positioned]; try reflexivity.
  cbn [v_block]. unfold box_offsets, offset_of. cbn.
  destruct (sv st Ltop) as [t|t|], (sv st Lbottom) as [b|b|]; cbn; try reflexivity; destruct (cb_block cb); cbn; try reflexivity; lring.
Qed.

(* -------- fragments -------- *)
Lemma all_seated_snoc sty sh base fs es f e : all_seated sty sh base fs es -> seated sty sh base f e ->
  all_seated sty sh base (fs ++ [f]) (es ++ e).
Proof.
  intros H Hf. induction H; cbn [app].
  - rewrite <- (app_nil_r e). econstructor; [exact Hf | constructor].
  - rewrite <- app_assoc. constructor; auto.
Qed.
Lemma seated_translate d sty sh base f e : seated sty sh base f e -> seated sty sh (base + d) (translate_block d f) e.
Proof.
  intros H. inversion H; subst; cbn [translate_block].
  - constructor; cbn [shift_block r_start r_size v_block]; auto. lring.
  - econstructor; cbn [shift_block r_start r_size v_block]; eauto.
    match goal with H : _ + m_ascent st = _ |- _ => revert H end. lenq.
Qed.
Lemma all_seated_translate d sty sh base fs es : all_seated sty sh base fs es ->
  all_seated sty sh (base + d) (map (translate_block d) fs) es.
Proof. intros H. induction H; cbn [map]; constructor; auto. apply seated_translate; assumption. Qed.

(* -------- the invariant -------- *)
Variable parent : style.
Variable boxes : list (ilb abs_lay).

Definition level_ok (sty : style) (sh : Len) (lv : level) (ns : list (Len * Len)) : Prop :=
  lv_ascent lv = m_ascent sty /\ lv_baseline lv = sh /\
  exists es, all_seated sty sh (m_ascent sty) (lv_fragments lv) es /\
    lv_max_ascent lv = top_of (map fst (es ++ ns)) /\ lv_max_descent lv = top_of (map snd (es ++ ns)).
Definition rem_ok (sty : style) (sh : Len) (rem : list (ilb abs_lay)) : Prop :=
  forall e, newline_extent sty sh rem e -> newline_extent parent l0 boxes e.

Fixpoint vok (stack : list partial) (rems : bbs) (lv : level) (sty : style) (sh : Len) (ns : list (Len * Len)) : Prop :=
  level_ok sty sh lv ns /\ rem_ok sty sh (hd [] rems) /\
  match stack with
  | [] => sty = parent /\ sh = l0
  | p :: stack' => sty = pt_style p /\ pt_ascent p = m_ascent sty /\ pt_descent p = m_descent sty /\
      exists psty psh d, lowered psty sty d /\ sh = psh + d /\ v_block (pt_start p) = d + down_by cb sty /\
        vok stack' (tl rems) (pt_parent p) psty psh []
  end.
Lemma vok_level stack rems lv sty sh ns : vok stack rems lv sty sh ns -> level_ok sty sh lv ns /\ rem_ok sty sh (hd [] rems).
Proof. destruct stack; cbn; tauto. Qed.
Lemma vok_same stack rems rems' lv lv' sty sh ns ns' : vok stack rems lv sty sh ns -> level_ok sty sh lv' ns' ->
  rem_ok sty sh (hd [] rems') -> tl rems' = tl rems -> vok stack rems' lv' sty sh ns'.
Proof. intros H HL HR E. destruct stack; cbn in *; rewrite ?E; intuition. Qed.

Lemma level_next sty sh lv ns : level_ok sty sh lv ns -> level_ok sty sh (level_next_line lv) [].
Proof.
  intros (A & B & _). split; [exact A|]. split; [exact B|]. exists []. cbn. split; [constructor|]. split; reflexivity.
Qed.

Lemma finish_seated p stack rems lv sty sh ns pos brk : vok (p :: stack) rems lv sty sh ns ->
  exists psty psh, let p1 := fst (finish_layout p lv pos brk) in
    vok stack (tl rems) (pt_parent p1) psty psh ns /\
    sty = pt_style p /\ pt_style p1 = pt_style p /\ pt_ascent p1 = m_ascent sty /\ pt_descent p1 = m_descent sty /\ pt_start p1 = pt_start p /\
    exists d, lowered psty sty d /\ sh = psh + d /\ v_block (pt_start p) = d + down_by cb sty.
Proof.
  intros ((LA & LB & es & L1 & L2 & L3) & _ & Esty & Pa & Pd & psty & psh & d & Hd & Esh & Hst & HP).
  exists psty, psh. cbn zeta. unfold finish_layout. cbn [fst pt_parent pt_style pt_ascent pt_descent pt_start].
  split; [|split; [exact Esty|]; split; [reflexivity|]; split; [exact Pa|]; split; [exact Pd|]; split; [reflexivity|]; exists d; auto].
  destruct (vok_level _ _ _ _ _ _ HP) as [(QA & QB & es0 & Q1 & Q2 & Q3) QR].
  eapply vok_same; [exact HP | | exact QR | reflexivity].
  unfold level_ok, push_fragment, max_assign.
  cbn [lv_ascent lv_baseline lv_fragments lv_max_ascent lv_max_descent].
  split; [exact QA|]. split; [exact QB|]. exists (es0 ++ es). split; [|split].
  - apply all_seated_snoc; [exact Q1|]. subst sty. econstructor.
    + exact Hd.
    + cbn [r_start v_block]. rewrite Hst, QA, Pa. lring.
    + cbn [r_size v_block]. rewrite Pa, Pd. reflexivity.
    + rewrite <- Esh. exact L1.
  - rewrite <- app_assoc, map_app, top_of_app, <- L2. rewrite app_nil_r in Q2. rewrite <- Q2. reflexivity.
  - rewrite <- app_assoc, map_app, top_of_app, <- L3. rewrite app_nil_r in Q3. rewrite <- Q3. reflexivity.
Qed.

Lemma finish_partials_seated stack : forall rems lv sty sh ns pos stack' top pos',
  vok stack rems lv sty sh ns -> finish_partials stack lv pos = (stack', top, pos') ->
  vok stack' rems (level_next_line lv) sty sh [] /\ level_ok parent l0 top ns.
Proof.
  induction stack as [|p stack IH]; intros rems lv sty sh ns pos stack' top pos' H E.
  - cbn in E. injection E as <- <- <-. destruct H as (H1 & H2 & -> & ->). split; [|exact H1].
    cbn. repeat split; try exact H2; try (eapply level_next; exact H1).
  - cbn [finish_partials] in E.
    pose proof (finish_seated _ _ _ _ _ _ _ pos true H) as (psty & psh & HP & Es & S1 & S2 & S3 & S4 & d & D1 & D2 & D3).
    destruct (finish_layout p lv pos true) as [p1 pos1] eqn:Ef. cbn [fst] in *.
    destruct (finish_partials stack (pt_parent p1) pos1) as [[rest' top'] pos2] eqn:Ep.
    injection E as <- <- <-.
    destruct (IH _ _ _ _ _ _ _ _ _ HP Ep) as [I1 I2]. split; [|exact I2].
    destruct H as (H1 & H2 & _). cbn [vok]. split; [eapply level_next; exact H1|]. split; [exact H2|].
    cbn [partial_next_line pt_style pt_ascent pt_descent pt_start pt_parent v_block].
    rewrite S1, S4. split; [exact Es|]. split; [exact S2|]. split; [exact S3|].
    exists psty, psh, d. auto.
Qed.

Definition newlines_ok (ns : list (Len * Len)) : Prop := (List.length ns <= 1)%nat /\ Forall (newline_extent parent l0 boxes) ns.
Definition Vok (rems : bbs) (s : ifc) (sty : style) (sh : Len) (ns : list (Len * Len)) : Prop :=
  vok (is_stack s) rems (is_cur s) sty sh ns /\ Forall (line_seated m_ascent m_descent cb parent boxes) (ln_boxes (is_lines s)).

Lemma finish_line_seated rems s sty sh ns : Vok rems s sty sh ns -> newlines_ok ns -> Vok rems (finish_line cb ta s) sty sh [].
Proof.
  intros [H HL] [N1 N2]. unfold finish_line.
  destruct (finish_partials (is_stack s) (is_cur s) (is_pos s)) as [[stack top] pos] eqn:E.
  destruct (finish_partials_seated _ _ _ _ _ _ _ _ _ _ H E) as [V (TA & TB & es & T1 & T2 & T3)].
  split; [exact V|]. cbn [is_lines lines_finish ln_boxes]. apply Forall_app. split; [exact HL|]. constructor; [|constructor].
  cbn [line_seated]. exists (lv_max_ascent top), (lv_max_descent top), es, ns.
  split; [|split; [exact N1|]; split; [exact N2|]; split; [|split]].
  - replace (lv_max_ascent top) with (m_ascent parent + (lv_max_ascent top - lv_ascent top)) at 1 by (rewrite TA; lring).
    apply all_seated_translate. exact T1.
  - rewrite T2. apply top_of_greatest.
  - rewrite T3. apply top_of_greatest.
  - reflexivity.
Qed.

(** a text, perhaps with the newline that follows it *)
Lemma add_text_seated rems s sty sh st fo shaped nlf t rest l : Vok rems s sty sh [] ->
  rem_ok sty sh (l ++ TextRun st t fo :: rest) -> (nlf = true -> In nl t) ->
  exists ns, Vok rems (add_text st fo shaped nlf s) sty sh ns /\ newlines_ok ns /\ (nlf = false -> ns = []).
Proof.
  intros [H HL] HR Hnl. unfold InlineModel.add_text. destruct (seg_advance (m_width fo) shaped) as [w shp].
  pose proof (line_extent st fo) as X. destruct (line_ascent_descent m_ascent m_descent st fo) as [la_ ld]. cbn [fst snd] in X.
  destruct (vok_level _ _ _ _ _ _ H) as [(LA & LB & es & L1 & L2 & L3) LR]. rewrite app_nil_r in L2, L3.
  destruct (seg_empty shp) eqn:Ee; cbn [negb orb].
  - destruct nlf.
    + exists [(la_ - sh, ld + sh)]. split; [|split; [split; [cbn; lia|] | discriminate]].
      * split; [|exact HL]. cbn [set_cur is_stack is_cur]. eapply vok_same; [exact H| |exact LR|reflexivity].
        unfold level_ok, max_assign. cbn [lv_ascent lv_baseline lv_fragments lv_max_ascent lv_max_descent].
        split; [exact LA|]. split; [exact LB|]. exists es. split; [exact L1|]. rewrite !map_app, !top_of_app, <- L2, <- L3, LB.
        assert (Z : forall x y, lmax x (lmax y l0) = lmax l0 (lmax x y)) by (clear; lenq).
        assert (P1 : l0 <= lv_max_ascent (is_cur s)).
        { rewrite L2. apply (proj2 (top_of_greatest _)). left; reflexivity. }
        assert (P2 : l0 <= lv_max_descent (is_cur s)).
        { rewrite L3. apply (proj2 (top_of_greatest _)). left; reflexivity. }
        cbn [map top_of fold_right fst snd]. rewrite !Z. clear -P1 P2. split; lenq.
      * constructor; [|constructor]. apply HR. econstructor; [apply in_or_app; right; left; reflexivity | auto | exact X].
    + exists []. split; [|split; [split; [cbn; lia | constructor] | reflexivity]].
      split; [|exact HL]. exact H.
  - exists []. split; [|split; [split; [cbn; lia | constructor] | reflexivity]].
    split; [|exact HL]. cbn [is_stack is_cur]. eapply vok_same; [exact H| |exact LR|reflexivity].
    unfold level_ok, push_fragment, max_assign. cbn [lv_ascent lv_baseline lv_fragments lv_max_ascent lv_max_descent].
    split; [exact LA|]. split; [exact LB|]. exists (es ++ [(la_ - sh, ld + sh)]). rewrite app_nil_r. split.
    + apply all_seated_snoc; [exact L1|]. constructor; [cbn; lring | exact X | reflexivity].
    + rewrite !map_app, !top_of_app, <- L2, <- L3, LB.
      assert (Z : forall x y, lmax x (lmax y l0) = lmax l0 (lmax x y)) by (clear; lenq).
      assert (P1 : l0 <= lv_max_ascent (is_cur s)).
      { rewrite L2. apply (proj2 (top_of_greatest _)). left; reflexivity. }
      assert (P2 : l0 <= lv_max_descent (is_cur s)).
      { rewrite L3. apply (proj2 (top_of_greatest _)). left; reflexivity. }
      cbn [map top_of fold_right fst snd]. rewrite !Z. clear -P1 P2. split; lenq.
Qed.

Lemma wrap_line_newline fo avail : forall chars sh lb sh' rest nlf, wrap_line m_width fo avail chars sh lb = Ok (sh', rest, nlf) ->
  forall t, incl chars t -> (match lb with Some (_, it) => incl it t | None => True end) -> incl rest t /\ (nlf = true -> In nl t).
Proof.
  assert (BH : forall sh rest lb sh' rest' nlf t, break_here sh rest lb = Ok (sh', rest', nlf) -> incl rest t ->
    (match lb with Some (_, it) => incl it t | None => True end) -> incl rest' t /\ (nlf = true -> In nl t)).
  { intros sh rest lb sh' rest' nlf t E I1 I2. unfold break_here in E. destruct lb as [[stt it]|].
    - destruct (of_outcome (seg_restore sh stt)); cbn in E; try discriminate. injection E as <- <- <-. split; [exact I2 | discriminate].
    - injection E as <- <- <-. split; [exact I1 | discriminate]. }
  induction chars as [|ch chars IH]; intros sh lb sh' rest nlf E t I1 I2; cbn [wrap_line] in E.
  - destruct (seg_advance (m_width fo) sh) as [w sh1]. destruct (lltb avail w).
    + eapply BH; eauto.
    + injection E as <- <- <-. split; [exact I1 | discriminate].
  - assert (I3 : incl chars t) by (intros x Hx; apply I1; right; exact Hx).
    destruct (if is_break_char ch then _ else _) as [over sh1]. destruct over; [eapply BH; eauto|].
    destruct (N.eqb_spec ch nl) as [->|Hne].
    + injection E as <- <- <-. split; [exact I3|]. intros _. apply I1. left; reflexivity.
    + eapply IH; [exact E | exact I3 |]. destruct (ch =? hyphen)%N; [exact I3|]. destruct (ch =? sp)%N; [exact I3 | exact I2].
Qed.

Lemma wrap_seated st fo t l rest0 rems sty sh : rem_ok sty sh (l ++ TextRun st t fo :: rest0) ->
  forall fuel chars shp lb s s', incl chars t -> (match lb with Some (_, it) => incl it t | None => True end) ->
  Vok rems s sty sh [] -> wrap_loop fuel cb ta st fo chars shp lb s = Ok s' -> Vok rems s' sty sh [].
Proof.
  intros HR. induction fuel as [|fuel IH]; intros chars shp lb s s' I1 I2 V E; cbn [InlineModel.wrap_loop] in E; [discriminate|].
  destruct (wrap_line m_width fo (cb_inline cb - is_pos s) chars shp lb) as [[[sh1 rest] nlf]| |] eqn:Ew; cbn [bind] in E; try discriminate.
  destruct (wrap_line_newline _ _ _ _ _ _ _ _ Ew _ I1 I2) as [J1 J2].
  destruct (add_text_seated _ _ _ _ st fo sh1 nlf t rest0 l V HR J2) as (ns & A1 & A2 & A3).
  destruct (negb (match rest with [] => true | _ => false end) || nlf) eqn:Eb.
  - eapply IH; [exact J1 | | | exact E]; [exact I|]. eapply finish_line_seated; eassumption.
  - apply orb_false_elim in Eb. destruct Eb as [_ ->]. injection E as <-. rewrite (A3 eq_refl) in A1. exact A1.
Qed.

Lemma nowrap_line_newline : forall chars sh sh' rest nlf, nowrap_line chars sh = (sh', rest, nlf) ->
  forall t, incl chars t -> incl rest t /\ (nlf = true -> In nl t).
Proof.
  induction chars as [|ch chars IH]; intros sh sh' rest nlf E t I1; cbn [nowrap_line] in E.
  - injection E as <- <- <-. split; [exact I1 | discriminate].
  - assert (I3 : incl chars t) by (intros x Hx; apply I1; right; exact Hx).
    destruct (N.eqb_spec ch nl) as [->|Hne].
    + injection E as <- <- <-. split; [exact I3|]. intros _. apply I1. left; reflexivity.
    + eapply IH; eauto.
Qed.
Lemma nowrap_seated st fo t l rest0 rems sty sh : rem_ok sty sh (l ++ TextRun st t fo :: rest0) ->
  forall fuel chars s s', incl chars t ->
  Vok rems s sty sh [] -> nowrap_loop fuel cb ta st fo chars s = Ok s' -> Vok rems s' sty sh [].
Proof.
  intros HR. induction fuel as [|fuel IH]; intros chars s s' I1 V E; cbn [InlineModel.nowrap_loop] in E; [discriminate|].
  destruct (nowrap_line chars seg_new) as [[sh1 rest] nlf] eqn:Ew.
  destruct (nowrap_line_newline _ _ _ _ _ Ew _ I1) as [J1 J2].
  destruct (add_text_seated _ _ _ _ st fo sh1 nlf t rest0 l V HR J2) as (ns & A1 & A2 & A3).
  destruct (negb (match rest with [] => true | _ => false end) || nlf) eqn:Eb.
  - eapply IH; [exact J1 | | exact E]. eapply finish_line_seated; eassumption.
  - apply orb_false_elim in Eb. destruct Eb as [_ ->]. injection E as <-. rewrite (A3 eq_refl) in A1. exact A1.
Qed.
Lemma text_run_seated st fo t rest0 rems sty sh s s' : rem_ok sty sh (TextRun st t fo :: rest0) ->
  Vok rems s sty sh [] -> text_run_layout m_ascent m_descent m_width cb ta st fo t s = Ok s' -> Vok rems s' sty sh [].
Proof.
  intros HR V E. unfold text_run_layout in E.
  destruct (sv st Lwhite_space); unfold layout_wrap in E;
    first [ exact (nowrap_seated st fo t [] rest0 rems sty sh HR _ t s s' (incl_refl _) V E)
          | exact (wrap_seated st fo t [] rest0 rems sty sh HR _ t _ (Some (_, t)) s s' (incl_refl _) (incl_refl _) V E) ].
Qed.

Lemma rem_tail sty sh b rest : rem_ok sty sh (b :: rest) -> rem_ok sty sh rest.
Proof. intros H e He. apply H. inversion He; subst; [eapply ne_text | eapply ne_box]; eauto using in_cons. Qed.
Lemma vok_pop stack rems b rest lv sty sh ns : hd [] rems = b :: rest -> vok stack rems lv sty sh ns -> vok stack (rest :: tl rems) lv sty sh ns.
Proof.
  intros E H. destruct (vok_level _ _ _ _ _ _ H) as [H1 H2]. eapply vok_same; [exact H | exact H1 | | reflexivity].
  cbn. rewrite E in H2. eapply rem_tail; exact H2.
Qed.

Lemma loop_seated : forall fuel rems s s' sty sh, Vok rems s sty sh [] -> ifc_loop fuel cb ta rank rems s = Ok s' ->
  Forall (line_seated m_ascent m_descent cb parent boxes) (ln_boxes (is_lines s')).
Proof.
  induction fuel as [|fuel IH]; intros rems s s' sty sh [V VL] E; cbn [InlineModel.ifc_loop] in E; [discriminate|].
  destruct (vok_level _ _ _ _ _ _ V) as [VV VR].
  destruct (hd [] rems) as [|child rest] eqn:Er.
  - destruct (is_stack s) as [|p stack] eqn:Es.
    + injection E as <-. assert (V' : Vok rems s sty sh []) by (split; [rewrite Es; exact V | exact VL]).
      apply finish_line_seated in V'; [exact (proj2 V') | split; [cbn; lia | constructor]].
    + pose proof (finish_seated _ _ _ _ _ _ _ (is_pos s) false V) as (psty & psh & HP & _).
      destruct (finish_layout p (is_cur s) (is_pos s) false) as [p1 pos]. cbn [fst] in HP.
      eapply IH; [|exact E]. split; [exact HP | exact VL].
  - destruct child as [st first last ch|st t fo|st lay|st c].
    + eapply (IH _ _ _ st (sh + baseline_shift st (m_ascent st) (m_descent st) (is_cur s))); [|exact E].
      destruct VV as (LA & LB & LE).
      split; [|exact VL]. unfold InlineModel.start_layout. cbn [is_stack is_cur vok pt_style pt_ascent pt_descent pt_start pt_parent hd tl].
      split; [|split; [|split; [reflexivity|]; split; [reflexivity|]; split; [reflexivity|]]].
      * split; [reflexivity|]. split; [cbn; rewrite LB; reflexivity|]. exists []. cbn. split; [constructor|]. split; reflexivity.
      * intros e He. apply VR. eapply ne_box; [left; reflexivity | eapply shift_lowered; exact LA | exact He].
      * exists sty, sh, (baseline_shift st (m_ascent st) (m_descent st) (is_cur s)).
        split; [eapply shift_lowered; exact LA|]. split; [reflexivity|]. split.
        -- cbn [vec2_add v_block]. rewrite down_by_code. reflexivity.
        -- eapply vok_pop; eassumption.
    + destruct (text_run_layout m_ascent m_descent m_width cb ta st fo t s) as [s1| |] eqn:Et; cbn [bind] in E; try discriminate.
      pose proof (text_run_seated _ _ _ _ rems _ _ _ _ VR (conj V VL) Et) as [V1 V1L].
      eapply IH; [|exact E]. split; [|exact V1L]. eapply vok_pop; eassumption.
    + destruct (inline_static_corner st s) as [c| |]; cbn [bind] in E; try discriminate.
      eapply IH; [|exact E]. split; [|exact VL]. cbn [push_abs is_stack is_cur]. eapply vok_pop; eassumption.
    + eapply IH; [|exact E]. split; [|exact VL]. eapply vok_pop; eassumption.
Qed.

Theorem ifc_layout_seated abs fl abs' : ta = sv parent Ltext_align ->
  ifc_layout m_ascent m_descent m_width parent boxes cb rank abs = Ok (fl, abs') ->
  Forall (line_seated m_ascent m_descent cb parent boxes) (fl_fragments fl).
Proof.
  intros Eta E. unfold ifc_layout in E. rewrite <- Eta in E.
  destruct (ifc_loop _ cb ta rank [boxes] (ifc_start m_ascent m_descent parent abs)) as [s| |] eqn:El; cbn [bind] in E; try discriminate.
  injection E as <- <-. cbn [fl_fragments]. eapply loop_seated; [|exact El].
  split; [|constructor]. cbn. split; [|split; [intros e He; exact He | split; reflexivity]].
  split; [reflexivity|]. split; [reflexivity|]. exists []. cbn. split; [constructor|]. split; reflexivity.
Qed.
End Vert.

(* ------------------------------------------------------------------ *)
(** * Consequences *)
Section Use.
Variable m_ascent m_descent : style -> Len.
Variable cb : cblock.
Notation seated := (seated m_ascent m_descent cb).
Notation all_seated := (all_seated m_ascent m_descent cb).

Lemma newline_extent_map {A B} (F : style -> A -> B) p sh l' e : newline_extent m_ascent m_descent p sh l' e ->
  forall l, l' = map (ilb_map F) l -> newline_extent m_ascent m_descent p sh l e.
Proof.
  intros H. induction H as [p sh st t font up down l' Hin Hnl Hx|p sh st fi la_ ch d l' e Hin Hd H IH]; intros l ->.
  - apply in_map_iff in Hin. destruct Hin as ([| | |] & E & Hin); cbn in E; try discriminate. injection E as -> -> ->. eapply ne_text; eauto.
  - apply in_map_iff in Hin. destruct Hin as ([st0 fi0 la0 ch0| | |] & E & Hin); cbn in E; try discriminate. injection E as -> -> -> <-.
    eapply ne_box; eauto.
Qed.
Lemma line_seated_map {A B} (F : style -> A -> B) p l f : line_seated m_ascent m_descent cb p (map (ilb_map F) l) f ->
  line_seated m_ascent m_descent cb p l f.
Proof.
  destruct f as [|r ch|]; cbn; try contradiction. intros (a & b & ts & ns & H1 & H2 & H3 & H4). exists a, b, ts, ns.
  split; [exact H1|]. split; [exact H2|]. split; [|exact H4]. eapply Forall_impl; [|exact H3]. intros e He. eapply newline_extent_map; [exact He | reflexivity].
Qed.

Lemma lowered_lowering p st d : lowered m_ascent p st d -> implemented st -> d = lowering m_ascent p st.
Proof.
  unfold lowered, implemented, lowering. destruct (sv st Lvertical_align); try contradiction; intros; try assumption; lenq.
Qed.
Scheme seated_mind := Induction for VertSpec.seated Sort Prop
with all_seated_mind := Induction for VertSpec.all_seated Sort Prop.
Lemma seated_drawn p sh base fs es : all_seated p sh base fs es -> fold_right (fun x P => plain_fonts m_ascent p x /\ P) True fs ->
  forall y, flat_map (drawn_baselines m_ascent y) fs = flat_map (due_baselines m_ascent cb p (y + base)) fs.
Proof.
  intros H. induction H as [p sh base st r font seg up down H1 H2 H3|p sh base st ch r pd b m cm d exts H1 H2 H3 H4 IH|p sh base|p sh base f fs e es H1 IH1 H2 IH2]
    using all_seated_mind with
    (P := fun p sh base f e _ => plain_fonts m_ascent p f -> forall y, drawn_baselines m_ascent y f = due_baselines m_ascent cb p (y + base) f).
  - cbn. intros E y. rewrite E. f_equal. revert H1. clear. lenq.
  - cbn. intros [Hi Hf] y. rewrite (IH Hf). rewrite (lowered_lowering _ _ _ H1 Hi) in H2.
    replace (y + v_block (r_start r) + m_ascent st) with (y + base + lowering m_ascent p st + down_by cb st); [reflexivity|].
    revert H2. clear. lenq.
  - reflexivity.
  - cbn. intros [F1 F2] y. rewrite (IH1 F1), (IH2 F2). reflexivity.
Qed.
End Use.
