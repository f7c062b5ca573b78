(** Proof for C92. *)
From Verif Require Import InlineModel InlineSpec InlineWrap InlineProofs InlineFacts WordSpec.
Local Open Scope len_scope.

Section Any.
Context {ar : Arith}.

(** the texts of the lines of a stream of marks and breaks *)
Fixpoint etexts (es : list event) : list text :=
  match es with
  | [] => [[]]
  | EMark (MText _ _ t) :: es' => app_hd t (etexts es')
  | EMark _ :: es' => etexts es'
  | EBreak :: es' => [] :: etexts es'
  end.
Lemma map_app_hd (p : list mark) ls : ls <> [] -> map marks_text (app_hd p ls) = app_hd (marks_text p) (map marks_text ls).
Proof. destruct ls; [congruence|]. intros _. cbn [app_hd map]. rewrite marks_text_app. reflexivity. Qed.
Lemma app_hd_nil {A} (ls : list (list A)) : ls <> [] -> app_hd [] ls = ls.
Proof. destruct ls; [congruence | reflexivity]. Qed.
Lemma etexts_nonempty es : etexts es <> [].
Proof. induction es as [|[[]|] es IH]; cbn [etexts]; try discriminate; try assumption. destruct (etexts es); discriminate. Qed.
Lemma cut_etexts es : forall o, map marks_text (cut o es) = etexts es.
Proof.
  induction es as [|[m|] es IH]; intros o; cbn [cut].
  - reflexivity.
  - rewrite map_app_hd by apply cut_nonempty. rewrite IH. destruct m; cbn [marks_text etexts]; rewrite ?app_nil_r;
      try reflexivity; apply app_hd_nil; apply etexts_nonempty.
  - cbn [map etexts]. rewrite marks_text_close, map_app_hd by apply cut_nonempty. rewrite marks_text_open, IH, app_hd_nil by apply etexts_nonempty.
    reflexivity.
Qed.
Lemma etexts_piece st fo p es : etexts (piece_events st fo p ++ es) = app_hd p (etexts es).
Proof. destruct p; [|reflexivity]. cbn [piece_events app]. symmetry. apply app_hd_nil, etexts_nonempty. Qed.

(** the lines of a run: [d] is what is dropped at its end *)
Inductive run_shown : list text -> text -> text -> Prop :=
| rs_last p d : gap d -> run_shown [p] d (p ++ d)
| rs_line p g ls d t : gap g -> run_shown ls d t -> run_shown (p :: ls) d (p ++ g ++ t).
Lemma run_shown_nonempty ls d t : run_shown ls d t -> ls <> [].
Proof. inversion 1; discriminate. Qed.
Lemma run_shown_end ls d t : run_shown ls d t -> gap d /\ exists u, t = u ++ d.
Proof.
  induction 1 as [p d H | p g ls d t H H1 [IH1 [u IH2]]]; [split; [exact H | exists p; reflexivity]|].
  split; [exact IH1|]. exists (p ++ g ++ u). rewrite IH2, <- !app_assoc. reflexivity.
Qed.
Lemma wrapped_shown w ok cw f a t ls : wrapped w ok cw f a t ls -> exists d, run_shown ls d t.
Proof.
  induction 1 as [f a p d H1 H2 H3 | f a p d t ls H1 H2 H3 H4 H5 H6 IH | f a p d t ls H1 H2 H3 H6 IH].
  - exists d. apply rs_last. unfold gap. destruct H1 as [|? | c [-> | ->] ?]; auto 6.
  - destruct IH as [d0 IH]. exists d0. apply rs_line; [|exact IH]. unfold gap. destruct H1 as [| | | c [-> | ->] ?]; auto 6.
  - destruct IH as [d0 IH]. exists d0. apply rs_line; [|exact IH]. unfold gap. destruct H1 as [-> | ->]; auto 6.
Qed.
Lemma split_nl_shown t : run_shown (split_nl t) [] t.
Proof.
  induction t as [|c t IH]; [apply (rs_last [] []); left; reflexivity|]. cbn [split_nl].
  pose proof (split_nl_nonempty t) as Hn. destruct (split_nl t) as [|l ls]; [congruence|]. clear Hn.
  destruct (c =? nl)%N eqn:Ec.
  - apply N.eqb_eq in Ec. subst c. apply (rs_line [] [nl]); [unfold gap; auto | exact IH].
  - inversion IH as [p d Hg | p g ls0 d t0 Hg H]; subst.
    + apply (rs_last (c :: l) []). exact Hg.
    + apply (rs_line (c :: l) g); assumption.
Qed.

Lemma shown_on_app p L t : shown_on L t -> shown_on (app_hd p L) (p ++ t).
Proof. destruct 1; cbn [app_hd]; rewrite app_assoc; constructor; assumption. Qed.
Lemma run_merge st fo ls d t : run_shown ls d t -> forall es2 t2, shown_on (etexts es2) t2 -> d = [] \/ t2 = [] ->
  shown_on (etexts (lines_events st fo ls ++ es2)) (t ++ t2).
Proof.
  induction 1 as [p d Hg | p g ls d t Hg H IH]; intros es2 t2 H2 Hd.
  - cbn [lines_events]. rewrite etexts_piece. destruct Hd as [-> | ->].
    + rewrite app_nil_r. apply shown_on_app; exact H2.
    + rewrite app_nil_r. inversion H2 as [l d0 Hg0 E1 E2 | l d0 ls t0 Hg0 H0 E1 E2].
      * apply app_eq_nil in E2. destruct E2 as [-> ->]. cbn [app_hd]. rewrite app_nil_r. apply so_last; exact Hg.
      * apply app_eq_nil in E2. destruct E2 as [-> E2]. apply app_eq_nil in E2. destruct E2 as [-> ->].
        cbn [app_hd]. rewrite app_nil_r. rewrite <- (app_nil_r d). apply so_line; assumption.
  - rewrite lines_events_cons by (eapply run_shown_nonempty; exact H). rewrite <- app_assoc, etexts_piece.
    cbn [app etexts app_hd]. rewrite app_nil_r, <- !app_assoc. apply so_line; [exact Hg|]. apply IH; assumption.
Qed.

Lemma flat_run_texts {C} : forall n (l : list (ilb C)), (boxes_steps l <= n)%nat -> concat (flat_map run_texts l) = flat_map ilb_text l.
Proof.
  induction n as [n IHn] using lt_wf_ind. intros [|b bs] Hn; [reflexivity|].
  change (boxes_steps (b :: bs)) with (ilb_steps b + boxes_steps bs)%nat in Hn.
  assert (Hlt : (boxes_steps bs < n)%nat) by (destruct b; cbn [ilb_steps] in Hn; lia).
  cbn [flat_map]. rewrite concat_app, (IHn _ Hlt bs (le_n _)). f_equal.
  destruct b as [st first last ch | st t fo | |]; try reflexivity.
  - change (ilb_steps (InlineBox st first last ch)) with (S (S (boxes_steps ch))) in Hn.
    cbn [run_texts ilb_text]. apply (IHn (boxes_steps ch)); lia.
  - cbn. apply app_nil_r.
Qed.
Lemma no_loose_tail a l : no_loose_end (a ++ l) -> no_loose_end l.
Proof. intros H before t c after -> Hc. apply (H (a ++ before) t c); [rewrite <- app_assoc; reflexivity | exact Hc]. Qed.

Lemma boxes_shown {C} mw ok cw : forall n (l : list (ilb C)), (boxes_steps l <= n)%nat -> forall pos es pos',
  boxes_events mw ok cw pos l es pos' -> forall es2 rest, shown_on (etexts es2) (concat rest) ->
  no_loose_end (flat_map run_texts l ++ rest) -> shown_on (etexts (es ++ es2)) (flat_map ilb_text l ++ concat rest).
Proof.
  induction n as [n IHn] using lt_wf_ind. intros l Hn pos es pos' H es2 rest H2 Ha.
  inversion H as [|? b bs e es' p1 ? Hb Hbs]; subst; [exact H2|].
  change (boxes_steps (b :: bs)) with (ilb_steps b + boxes_steps bs)%nat in Hn.
  assert (Hlt : (boxes_steps bs < n)%nat) by (destruct b; cbn [ilb_steps] in Hn; lia).
  cbn [flat_map] in *. rewrite <- !app_assoc in *.
  pose proof (IHn _ Hlt bs (le_n _) _ _ _ Hbs es2 rest H2 (no_loose_tail _ _ Ha)) as Htail.
  rewrite <- (flat_run_texts _ bs (le_n _)), <- concat_app in *.
  inversion Hb as [? st first last ch es0 p2 Hch E1 E2 E3 | ? st t fo ls Hr | |]; subst; try exact Htail.
  - change (ilb_steps (InlineBox st first last ch)) with (S (S (boxes_steps ch))) in Hn.
    assert (Hlt2 : (boxes_steps ch < n)%nat) by lia. cbn [ilb_text app]. rewrite <- app_assoc.
    assert (Es : forall es, etexts (EMark (start_mark cw st first) :: es) = etexts es) by (intros; destruct first; reflexivity).
    assert (Ee : forall es, etexts (EMark (end_mark cw st last) :: es) = etexts es) by (intros; destruct last; reflexivity).
    rewrite Es. eapply (IHn _ Hlt2 ch (le_n _) _ _ _ Hch); [cbn [app]; rewrite Ee; exact Htail | exact Ha].
  - cbn [ilb_text]. 
    assert (Hs : exists d, run_shown ls d t).
    { inversion Hr as [Hw E | ls0 Hw1 Hw2 Hw]; subst; [exists []; apply split_nl_shown | eapply wrapped_shown; exact Hw]. }
    destruct Hs as [d Hs]. apply (run_merge _ _ _ _ _ Hs); [exact Htail|].
    destruct (run_shown_end _ _ _ Hs) as [Hg [u Hu]].
    assert (Hc : d = [] \/ exists d' c, d = d' ++ [c] /\ break_char c).
    { unfold gap, break_char in *. destruct Hg as [-> | [-> | [-> | [-> | ->]]]]; [left; reflexivity | right.. ].
      - exists [], sp; auto. - exists [], nl; auto. - exists [sp], nl; auto. - exists [], hyphen; auto. }
    destruct Hc as [Hc | (d' & c & -> & Hc)]; [left; exact Hc|]. right.
    apply (Ha [] (u ++ d') c); [|exact Hc]. cbn [app run_texts]. rewrite Hu, app_assoc. reflexivity.
Qed.
End Any.
