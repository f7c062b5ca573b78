(** Consequences of InlineProofs.ifc_layout_ok: text, edges, alignment, termination. *)
From Verif Require Import InlineModel InlineSpec InlineWrap InlineProofs.
Local Open Scope len_scope.

(* ------------------------------------------------------------------ *)
(** * Text *)

Section Any.
Context {ar : Arith}.
Lemma marks_text_app a b : marks_text (a ++ b) = marks_text a ++ marks_text b.
Proof. induction a as [|m a IH]; [reflexivity|]. destruct m; cbn; rewrite ?IH, ?app_assoc; reflexivity. Qed.
Fixpoint events_text (es : list event) : text :=
  match es with
  | [] => []
  | EMark (MText _ _ t) :: es' => t ++ events_text es'
  | _ :: es' => events_text es'
  end.
Lemma events_text_app a b : events_text (a ++ b) = events_text a ++ events_text b.
Proof. induction a as [|[m|] a IH]; [reflexivity | destruct m |]; cbn; rewrite ?IH, ?app_assoc; reflexivity. Qed.
Lemma concat_app_hd {A} (p : list A) ls : ls <> [] -> concat (app_hd p ls) = p ++ concat ls.
Proof. destruct ls; [congruence|]. intros _. cbn. rewrite app_assoc. reflexivity. Qed.
Lemma marks_text_close l : marks_text (map close0 l) = [].
Proof. induction l; [reflexivity|]. exact IHl. Qed.
Lemma marks_text_open l : marks_text (map open0 l) = [].
Proof. induction l; [reflexivity|]. exact IHl. Qed.
Lemma cut_text es : forall o, marks_text (concat (cut o es)) = events_text es.
Proof.
  induction es as [|[m|] es IH]; intros o; cbn [cut].
  - reflexivity.
  - rewrite concat_app_hd by apply cut_nonempty. cbn [app]. destruct m; cbn; rewrite IH; reflexivity.
  - cbn [concat]. rewrite concat_app_hd by apply cut_nonempty.
    rewrite !marks_text_app, marks_text_close, marks_text_open, IH. reflexivity.
Qed.

Lemma deletes_app P a b a' b' : deletes P a a' -> deletes P b b' -> deletes P (a ++ b) (a' ++ b').
Proof. induction 1; intros H'; cbn; [exact H' | constructor; auto | apply del_drop; auto]. Qed.
Lemma deletes_refl P t : deletes P t t. Proof. induction t; constructor; assumption. Qed.
Lemma deletes_all P t : Forall P t -> deletes P t []. Proof. induction 1; [constructor | apply del_drop; assumption]. Qed.
Lemma deletes_weaken (P Q : char -> Prop) t s : (forall c, In c t -> P c -> Q c) -> deletes P t s -> deletes Q t s.
Proof.
  intros H D. induction D as [|c t s D IH | c t s HP D IH]; [constructor | |].
  - constructor. apply IH. intros; apply H; [right|]; assumption.
  - apply del_drop; [apply H; [left; reflexivity | exact HP]|]. apply IH. intros; apply H; [right|]; assumption.
Qed.
Lemma piece_text st fo p : events_text (piece_events st fo p) = p.
Proof. destruct p; [reflexivity|]. cbn. rewrite app_nil_r. reflexivity. Qed.
Lemma lines_text st fo ls : events_text (lines_events st fo ls) = concat ls.
Proof.
  induction ls as [|p ls IH]; [reflexivity|]. destruct ls as [|q ls].
  - cbn [lines_events concat]. rewrite piece_text, app_nil_r. reflexivity.
  - rewrite lines_events_cons by discriminate. rewrite events_text_app, piece_text.
    cbn [events_text]. rewrite IH. reflexivity.
Qed.
Lemma dropped_last_break w a p d : dropped_last w a p d -> Forall break_char d.
Proof. destruct 1 as [|? | c [-> | ->] ?]; repeat (apply Forall_cons; [unfold break_char; auto|]); apply Forall_nil. Qed.
Lemma dropped_soft_break w f a p d : dropped_soft w f a p d -> Forall break_char d.
Proof. destruct 1 as [| | | c [-> | ->] ?]; repeat (apply Forall_cons; [unfold break_char; auto|]); apply Forall_nil. Qed.
Lemma wrapped_deletes w ok cw f a t ls : wrapped w ok cw f a t ls -> deletes break_char t (concat ls).
Proof.
  induction 1 as [f a p d H1 H2 H3 | f a p d t ls H1 H2 H3 H4 H5 H6 IH | f a p d t ls H1 H2 H3 H6 IH]; cbn [concat].
  - apply deletes_app; [apply deletes_refl|]. apply deletes_all. eapply dropped_last_break; exact H1.
  - apply deletes_app; [apply deletes_refl|]. change (concat ls) with ([] ++ concat ls). apply deletes_app; [|exact IH].
    apply deletes_all. eapply dropped_soft_break; exact H1.
  - apply deletes_app; [apply deletes_refl|]. change (concat ls) with ([] ++ concat ls). apply deletes_app; [|exact IH].
    apply deletes_all. destruct H1 as [-> | ->]; repeat (apply Forall_cons; [unfold break_char; auto|]); apply Forall_nil.
Qed.
Lemma split_nl_deletes t : deletes (fun c => c = nl) t (concat (split_nl t)).
Proof.
  induction t as [|c t IH]; [constructor|]. cbn [split_nl].
  pose proof (split_nl_nonempty t) as Hn. destruct (split_nl t) as [|l ls]; [congruence|]. clear Hn.
  destruct (c =? nl)%N eqn:Ec.
  - apply N.eqb_eq in Ec. subst c. apply del_drop; [reflexivity | exact IH].
  - cbn [concat app] in *. constructor. exact IH.
Qed.

Lemma boxes_deletes {C} mw ok cw : forall n (l : list (ilb C)), (boxes_steps l <= n)%nat -> forall pos es pos',
  boxes_events mw ok cw pos l es pos' -> deletes break_char (flat_map ilb_text l) (events_text es).
Proof.
  induction n as [n IHn] using lt_wf_ind. intros l Hn pos es pos' H.
  inversion H as [|? b bs e es' p1 ? Hb Hbs]; subst; [constructor|].
  change (boxes_steps (b :: bs)) with (ilb_steps b + boxes_steps bs)%nat in Hn.
  assert (Hlt : (boxes_steps bs < n)%nat) by (destruct b; cbn [ilb_steps] in Hn; lia).
  cbn [flat_map]. rewrite events_text_app. apply deletes_app; [|exact (IHn _ Hlt bs (le_n _) _ _ _ Hbs)].
  inversion Hb as [? st first last ch es0 p2 Hch E1 E2 E3 | ? st t fo ls Hr | |]; subst; try constructor.
  - change (ilb_steps (InlineBox st first last ch)) with (S (S (boxes_steps ch))) in Hn.
    assert (Hlt2 : (boxes_steps ch < n)%nat) by lia.
    cbn [ilb_text].
    change (EMark (start_mark cw st first) :: es0 ++ [EMark (end_mark cw st last)])
      with ([EMark (start_mark cw st first)] ++ es0 ++ [EMark (end_mark cw st last)]).
    rewrite !events_text_app.
    replace (events_text [EMark (start_mark cw st first)]) with (@nil char) by (destruct first; reflexivity).
    replace (events_text [EMark (end_mark cw st last)]) with (@nil char) by (destruct last; reflexivity).
    cbn [app]. rewrite app_nil_r. exact (IHn _ Hlt2 ch (le_n _) _ _ _ Hch).
  - rewrite lines_text. cbn [ilb_text]. inversion Hr as [Hw E | ls0 Hw1 Hw2 Hw]; subst.
    + eapply deletes_weaken; [|apply split_nl_deletes]. intros c _ ->. unfold break_char; auto.
    + eapply wrapped_deletes; exact Hw.
Qed.

Lemma wrapped_weaken w (ok ok' : Len -> text -> Prop) cw f a t ls : (forall a p, ok a p -> ok' a p) ->
  wrapped w ok cw f a t ls -> wrapped w ok' cw f a t ls.
Proof.
  intros Hok. induction 1 as [f a p d H1 H2 H3 | f a p d t ls H1 H2 H3 H4 H5 H6 IH | f a p d t ls H1 H2 H3 H6 IH].
  - apply wr_last; auto. - apply wr_soft; auto. - apply wr_newline; auto.
Qed.
Lemma boxes_events_weaken {C} mw (ok ok' : style -> Len -> text -> Prop) cw : (forall fo a p, ok fo a p -> ok' fo a p) ->
  forall n (l : list (ilb C)), (boxes_steps l <= n)%nat -> forall pos es pos',
  boxes_events mw ok cw pos l es pos' -> boxes_events mw ok' cw pos l es pos'.
Proof.
  intros Hok. induction n as [n IHn] using lt_wf_ind. intros l Hn pos es pos' H.
  inversion H as [|? b bs e es' p1 ? Hb Hbs]; subst; [constructor|].
  change (boxes_steps (b :: bs)) with (ilb_steps b + boxes_steps bs)%nat in Hn.
  assert (Hlt : (boxes_steps bs < n)%nat) by (destruct b; cbn [ilb_steps] in Hn; lia).
  eapply bes_cons; [|apply (IHn _ Hlt bs (le_n _) _ _ _ Hbs)].
  inversion Hb as [? st first last ch es0 p2 Hch E1 E2 E3 | ? st t fo ls Hr | |]; subst; try constructor.
  - change (ilb_steps (InlineBox st first last ch)) with (S (S (boxes_steps ch))) in Hn.
    assert (Hlt2 : (boxes_steps ch < n)%nat) by lia. apply (IHn _ Hlt2 ch (le_n _) _ _ _ Hch).
  - inversion Hr as [Hw E | ls0 Hw1 Hw2 Hw]; subst; [constructor; assumption|].
    apply rl_wrap; [assumption | assumption |]. eapply wrapped_weaken; [|exact Hw]. intros; apply Hok; assumption.
Qed.

(* ------------------------------------------------------------------ *)
(** * Text that is not wrapped *)

Lemma nowrap_det {C} mw ok cw : forall n (l : list (ilb C)), (boxes_steps l <= n)%nat ->
  fold_right (fun x P => nowrap_only x /\ P) True l -> forall pos es pos',
  boxes_events mw ok cw pos l es pos' -> es = flat_map (nowrap_events cw) l.
Proof.
  induction n as [n IHn] using lt_wf_ind. intros l Hn Hno pos es pos' H.
  inversion H as [|? b bs e es' p1 ? Hb Hbs]; subst; [reflexivity|].
  change (boxes_steps (b :: bs)) with (ilb_steps b + boxes_steps bs)%nat in Hn.
  assert (Hlt : (boxes_steps bs < n)%nat) by (destruct b; cbn [ilb_steps] in Hn; lia).
  cbn [fold_right] in Hno. destruct Hno as [Hno1 Hno2].
  cbn [flat_map]. rewrite (IHn _ Hlt bs (le_n _) Hno2 _ _ _ Hbs). f_equal.
  inversion Hb as [? st first last ch es0 p2 Hch E1 E2 E3 | ? st t fo ls Hr | |]; subst; try reflexivity.
  - change (ilb_steps (InlineBox st first last ch)) with (S (S (boxes_steps ch))) in Hn.
    assert (Hlt2 : (boxes_steps ch < n)%nat) by lia. cbn [nowrap_only] in Hno1.
    cbn [nowrap_events]. rewrite (IHn _ Hlt2 ch (le_n _) Hno1 _ _ _ Hch). reflexivity.
  - cbn [nowrap_events nowrap_only] in *. inversion Hr as [Hw E | ls0 Hw1 Hw2 Hw]; subst; [reflexivity|]. destruct Hno1; contradiction.
Qed.

Lemma cut_app_nobreak o ms es : Forall (fun m => mark_opens m o = o) ms ->
  cut o (map EMark ms ++ es) = app_hd ms (cut o es).
Proof.
  induction ms as [|m ms IH]; intros H; cbn [map app cut].
  - destruct (cut o es) eqn:E; [|reflexivity]. exfalso; revert E; apply cut_nonempty.
  - inversion H as [|? ? H1 H2]; subst. rewrite H1, IH by exact H2. rewrite app_hd_app by apply cut_nonempty. reflexivity.
Qed.
Lemma cut_lines st fo ls : ls <> [] -> cut [] (lines_events st fo ls) = map (piece_marks st fo) ls.
Proof.
  induction ls as [|p ls IH]; intros Hn; [congruence|]. destruct ls as [|q ls].
  - destruct p; reflexivity.
  - rewrite lines_events_cons by discriminate. specialize (IH ltac:(discriminate)).
    destruct p as [|c p].
    + cbn [piece_events app cut map rev]. rewrite IH. reflexivity.
    + cbn [piece_events app cut map rev mark_opens]. rewrite IH. reflexivity.
Qed.

End Any.

(* ------------------------------------------------------------------ *)
(** * Edges, in exact arithmetic *)

Lemma total_app f a b : total f (a ++ b) = total f a + total f b.
Proof. unfold total, lsum. rewrite map_app. induction (map f a) as [|x l IH]; cbn; [ring|]. rewrite IH. ring. Qed.
Fixpoint events_total (f : mark -> Len) (es : list event) : Len :=
  match es with [] => l0 | EMark m :: es' => f m + events_total f es' | EBreak :: es' => events_total f es' end.
Lemma events_total_app f a b : events_total f (a ++ b) = events_total f a + events_total f b.
Proof. induction a as [|[m|] a IH]; cbn; [ring | rewrite IH; ring | exact IH]. Qed.
Lemma total_zero f ms : Forall (fun m => f m = l0) ms -> total f ms = l0.
Proof. unfold total, lsum. induction 1 as [|m ms H1 H2 IH]; cbn; [reflexivity|]. rewrite H1, IH. ring. Qed.
Lemma cut_total f es : (forall st, f (close0 st) = l0) -> (forall st, f (open0 st) = l0) ->
  forall o, total f (concat (cut o es)) = events_total f es.
Proof.
  intros Hc Ho. induction es as [|[m|] es IH]; intros o; cbn [cut].
  - reflexivity.
  - rewrite concat_app_hd by apply cut_nonempty. rewrite total_app, IH. cbn. unfold total, lsum; cbn. ring.
  - cbn [concat]. rewrite concat_app_hd by apply cut_nonempty. rewrite !total_app, IH.
    rewrite (total_zero f (map close0 o)), (total_zero f (map open0 (rev o))).
    + cbn. ring.
    + apply Forall_forall. intros m Hm. apply in_map_iff in Hm. destruct Hm as (st & <- & _). apply Ho.
    + apply Forall_forall. intros m Hm. apply in_map_iff in Hm. destruct Hm as (st & <- & _). apply Hc.
Qed.
Lemma boxes_total {C} mw ok cw f : (forall st fo t, f (MText st fo t) = l0) ->
  forall n (l : list (ilb C)), (boxes_steps l <= n)%nat -> forall pos es pos',
  boxes_events mw ok cw pos l es pos' -> events_total f es = lsum (map (boxes_edges f cw) l).
Proof.
  intros Hf. induction n as [n IHn] using lt_wf_ind. intros l Hn pos es pos' H.
  inversion H as [|? b bs e es' p1 ? Hb Hbs]; subst; [reflexivity|].
  change (boxes_steps (b :: bs)) with (ilb_steps b + boxes_steps bs)%nat in Hn.
  assert (Hlt : (boxes_steps bs < n)%nat) by (destruct b; cbn [ilb_steps] in Hn; lia).
  change (lsum (map (boxes_edges f cw) (b :: bs))) with (boxes_edges f cw b + lsum (map (boxes_edges f cw) bs)).
  rewrite events_total_app, (IHn _ Hlt bs (le_n _) _ _ _ Hbs). f_equal.
  inversion Hb as [? st first last ch es0 p2 Hch E1 E2 E3 | ? st t fo ls Hr | |]; subst; try reflexivity.
  - change (ilb_steps (InlineBox st first last ch)) with (S (S (boxes_steps ch))) in Hn.
    assert (Hlt2 : (boxes_steps ch < n)%nat) by lia. cbn [events_total boxes_edges].
    rewrite events_total_app, (IHn _ Hlt2 ch (le_n _) _ _ _ Hch). cbn [events_total]. ring.
  - cbn [boxes_edges]. clear - Hf. induction ls as [|p ls IH]; [reflexivity|]. destruct ls as [|q ls].
    + destruct p; cbn; [reflexivity|]. rewrite Hf. ring.
    + rewrite lines_events_cons by discriminate. rewrite events_total_app. cbn [events_total]. rewrite IH.
      destruct p; cbn; [|rewrite Hf]; ring.
Qed.

(* ------------------------------------------------------------------ *)
(** * Termination for all boxes *)
Section Any2.
Context {ar : Arith}.
Lemma Forall2_len {A B} (R : A -> B -> Prop) l l' : Forall2 R l l' -> List.length l = List.length l'.
Proof. induction 1; cbn; congruence. Qed.
Section Total.
Variable m_ascent m_descent : style -> Len.
Variable m_width : style -> text -> Len.
Variable cb : cblock.
Variable ta : text_align.
Variable rank : nat.
Notation loop := (ifc_loop m_ascent m_descent m_width).
Definition ends (r : result ifc) (k fuel : nat) (r' : list (ilb abs_lay)) rs : Prop :=
  r = Panic \/ (exists s, r = loop fuel cb ta rank (r' :: rs) s /\ List.length (is_stack s) = k).
Lemma loop_total : forall n (l : list (ilb abs_lay)), (boxes_steps l <= n)%nat ->
  forall r rs s fuel, ends (loop (boxes_steps l + fuel) cb ta rank ((l ++ r) :: rs) s) (List.length (is_stack s)) fuel r rs.
Proof.
  induction n as [n IHn] using lt_wf_ind. intros l Hn r rs s fuel. destruct l as [|b bs].
  { right. exists s. split; reflexivity. }
  change (boxes_steps (b :: bs)) with (ilb_steps b + boxes_steps bs)%nat in *.
  assert (Hlt : (boxes_steps bs < n)%nat) by (destruct b; cbn [ilb_steps] in Hn; lia).
  pose proof (IHn _ Hlt bs (le_n _) r rs) as Hrest.
  destruct b as [st first last ch | st t fo | st lay | st lay].
  - change (ilb_steps (InlineBox st first last ch)) with (S (S (boxes_steps ch))) in *.
    replace (S (S (boxes_steps ch)) + boxes_steps bs + fuel)%nat with (S (boxes_steps ch + S (boxes_steps bs + fuel)))%nat by lia.
    cbn [InlineModel.ifc_loop hd tl app].
    assert (Hlt2 : (boxes_steps ch < n)%nat) by lia.
    pose proof (IHn _ Hlt2 ch (le_n _) [] ((bs ++ r) :: rs) (start_layout m_ascent m_descent cb st first last s) (S (boxes_steps bs + fuel))) as H.
    rewrite app_nil_r in H. destruct H as [H | (s' & H & Hl)]; rewrite H.
    + left; reflexivity.
    + cbn [InlineModel.ifc_loop hd tl]. unfold start_layout in Hl. cbn [is_stack List.length] in Hl.
      destruct (is_stack s') as [|p stk] eqn:Es; [discriminate|].
      destruct (finish_layout p (is_cur s') (is_pos s') false) as [p1 pos1].
      injection Hl as Hl. rewrite <- Hl.
      apply (Hrest (Ifc (is_lines s') pos1 stk (pt_parent p1) (is_abs s'))).
  - cbn [ilb_steps Nat.add InlineModel.ifc_loop hd tl app].
    destruct (text_run_ok m_ascent m_descent m_width cb ta rank st fo t s) as (s1 & ls & H1 & _ & _ & H2). rewrite H1.
    rewrite (Forall2_len _ _ _ H2). apply Hrest.
  - cbn [ilb_steps Nat.add InlineModel.ifc_loop hd tl app].
    destruct (inline_static_corner st s) eqn:E; cbn [bind].
    + apply (Hrest (push_abs s _)).
    + left; reflexivity.
    + exfalso. revert E. unfold inline_static_corner. destruct (s_specified_display st) as [| |[] ?]; discriminate.
  - cbn [ilb_steps Nat.add InlineModel.ifc_loop hd tl app]. apply Hrest.
Qed.
End Total.
Lemma ifc_layout_total ma md mw parent boxes cb rank abs :
  ifc_layout ma md mw parent boxes cb rank abs <> OutOfFuel.
Proof.
  unfold ifc_layout.
  pose proof (loop_total ma md mw cb (sv parent Ltext_align) rank _ boxes (le_n _) [] [] (ifc_start ma md parent abs) 1) as H.
  rewrite app_nil_r in H. replace (boxes_steps boxes + 1)%nat with (S (boxes_steps boxes)) in H by lia.
  destruct H as [H | (s' & H & Hl)]; rewrite H; cbn [bind]; try discriminate.
  cbn [ifc_loop hd]. destruct (is_stack s') as [|p stk]; [|discriminate]. cbn [bind]. discriminate.
Qed.

(* ------------------------------------------------------------------ *)
(** * Alignment only moves lines *)
Section Align.
Variable m_ascent m_descent : style -> Len.
Variable m_width : style -> text -> Len.
Variable cb : cblock.
Variable ta ta' : text_align.
Variable rank : nat.
Definition lines_sim (a b : lines) : Prop := Forall2 same_line (ln_boxes a) (ln_boxes b) /\ ln_next a = ln_next b.
Definition sim (s s' : ifc) : Prop :=
  exists ls, lines_sim (is_lines s) ls /\ s' = Ifc ls (is_pos s) (is_stack s) (is_cur s) (is_abs s).
Definition simr (r r' : result ifc) : Prop :=
  match r, r' with Ok s, Ok s' => sim s s' | Panic, Panic => True | OutOfFuel, OutOfFuel => True | _, _ => False end.
Lemma sim_finish_line s s' : sim s s' -> sim (finish_line cb ta s) (finish_line cb ta' s').
Proof.
  intros (ls & [H1 H2] & ->). unfold finish_line. cbn [is_stack is_cur is_pos is_lines is_abs].
  destruct (finish_partials (is_stack s) (is_cur s) (is_pos s)) as [[stk top] pos]. cbn [is_stack is_cur is_pos is_lines is_abs].
  eexists; split; [|reflexivity]. cbn [is_lines]. unfold lines_finish, lines_sim. cbn [ln_boxes ln_next]. rewrite H2.
  split; [|reflexivity]. apply Forall2_app; [exact H1|]. repeat constructor.
Qed.
Lemma sim_add_text st fo sh nlb s s' : sim s s' ->
  sim (add_text m_ascent m_descent m_width st fo sh nlb s) (add_text m_ascent m_descent m_width st fo sh nlb s').
Proof.
  intros (ls & H & ->). unfold add_text. destruct (seg_advance (m_width fo) sh) as [w sh']. unfold line_ascent_descent.
  cbn [is_stack is_cur is_pos is_lines is_abs].
  destruct (negb (seg_empty sh')); eexists; (split; [exact H | reflexivity]).
Qed.
Lemma sim_pos s s' : sim s s' -> is_pos s' = is_pos s. Proof. intros (? & _ & ->). reflexivity. Qed.
Lemma sim_wrap fuel st fo : forall chars sh lb s s', sim s s' ->
  simr (wrap_loop m_ascent m_descent m_width fuel cb ta st fo chars sh lb s)
       (wrap_loop m_ascent m_descent m_width fuel cb ta' st fo chars sh lb s').
Proof.
  induction fuel as [|fuel IH]; intros chars sh lb s s' H; [exact I|].
  cbn [wrap_loop]. rewrite (sim_pos _ _ H).
  destruct (wrap_line m_width fo (cb_inline cb - is_pos s) chars sh lb) as [[[sh1 ch1] nlb]| |]; cbn [bind]; try exact I.
  destruct (negb match ch1 with [] => true | _ => false end || nlb).
  - apply IH. apply sim_finish_line. apply sim_add_text. exact H.
  - apply sim_add_text. exact H.
Qed.
Lemma sim_nowrap fuel st fo : forall chars s s', sim s s' ->
  simr (nowrap_loop m_ascent m_descent m_width fuel cb ta st fo chars s)
       (nowrap_loop m_ascent m_descent m_width fuel cb ta' st fo chars s').
Proof.
  induction fuel as [|fuel IH]; intros chars s s' H; [exact I|].
  cbn [nowrap_loop]. destruct (nowrap_line chars seg_new) as [[sh1 ch1] nlb].
  destruct (negb match ch1 with [] => true | _ => false end || nlb).
  - apply IH. apply sim_finish_line. apply sim_add_text. exact H.
  - apply sim_add_text. exact H.
Qed.
Lemma sim_loop fuel : forall rems s s', sim s s' ->
  simr (ifc_loop m_ascent m_descent m_width fuel cb ta rank rems s) (ifc_loop m_ascent m_descent m_width fuel cb ta' rank rems s').
Proof.
  induction fuel as [|fuel IH]; intros rems s s' H; [exact I|].
  cbn [ifc_loop]. destruct (hd [] rems) as [|b rest].
  - destruct H as (ls & H & ->). cbn [is_stack is_cur is_pos is_lines is_abs]. destruct (is_stack s) as [|p stk] eqn:Es.
    + cbn [simr]. apply sim_finish_line. exists ls. split; [exact H|]. rewrite Es. reflexivity.
    + destruct (finish_layout p (is_cur s) (is_pos s) false) as [p1 pos]. apply IH. exists ls. split; [exact H | reflexivity].
  - destruct b as [st first last ch | st t fo | st lay | st lay].
    + apply IH. destruct H as (ls & H & ->). exists ls. split; [exact H | reflexivity].
    + assert (R : simr (text_run_layout m_ascent m_descent m_width cb ta st fo t s) (text_run_layout m_ascent m_descent m_width cb ta' st fo t s')).
      { unfold text_run_layout, layout_wrap. destruct (sv st Lwhite_space); auto using sim_wrap, sim_nowrap. }
      destruct (text_run_layout m_ascent m_descent m_width cb ta st fo t s), (text_run_layout m_ascent m_descent m_width cb ta' st fo t s');
        cbn [simr bind] in *; try contradiction; try exact I. apply IH; exact R.
    + destruct H as (ls & H & ->). unfold inline_static_corner. cbn [is_stack is_cur is_pos is_lines is_abs].
      destruct H as [H1 H2]. rewrite H2.
      destruct (s_specified_display st) as [| |[] ?]; cbn [bind]; try exact I;
        apply IH; exists ls; (split; [split; assumption | reflexivity]).
    + apply IH; exact H.
Qed.
End Align.
Lemma ifc_layout_align ma md mw parent parent' boxes cb rank abs fl abs' :
  ma parent' = ma parent -> md parent' = md parent -> sv parent' Lfont_size = sv parent Lfont_size ->
  ifc_layout ma md mw parent boxes cb rank abs = Ok (fl, abs') ->
  exists fl', ifc_layout ma md mw parent' boxes cb rank abs = Ok (fl', abs') /\
    Forall2 same_line (fl_fragments fl) (fl_fragments fl') /\ fl_block_size fl' = fl_block_size fl.
Proof.
  intros Ha Hd Hs H. unfold ifc_layout in *.
  assert (E : ifc_start ma md parent' abs = ifc_start ma md parent abs).
  { unfold ifc_start, font_ex. rewrite Ha, Hd, Hs. reflexivity. }
  rewrite E.
  assert (Hsim : sim (ifc_start ma md parent abs) (ifc_start ma md parent abs)).
  { exists (Lines [] l0). split; [split; [constructor | reflexivity] | reflexivity]. }
  pose proof (sim_loop ma md mw cb (sv parent Ltext_align) (sv parent' Ltext_align) rank (S (boxes_steps boxes)) [boxes] _ _ Hsim) as S.
  destruct (ifc_loop ma md mw (Datatypes.S (boxes_steps boxes)) cb (sv parent Ltext_align) rank [boxes] (ifc_start ma md parent abs)) as [s| |];
    cbn [bind] in H; try discriminate.
  destruct (ifc_loop ma md mw (Datatypes.S (boxes_steps boxes)) cb (sv parent' Ltext_align) rank [boxes] (ifc_start ma md parent abs)) as [s'| |];
    cbn [simr] in S; try contradiction.
  destruct S as (ls & [L1 L2] & ->).
  injection H as <- <-. cbn [bind is_lines is_abs]. eexists; split; [reflexivity|]. cbn [fl_fragments fl_block_size].
  split; [exact L1 | symmetry; exact L2].
Qed.
End Any2.
