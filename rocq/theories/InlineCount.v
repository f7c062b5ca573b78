(** How many lines a run of wrapping text takes, in two widths. *)
From Verif Require Import InlineModel InlineSpec InlineWrap InlineProofs.
Local Open Scope len_scope.

Section Any.
Context {ar : Arith}.
Notation ends_nl t := (exists u, t = u ++ [nl]) (only parsing).

(* ------------------------------------------------------------------ *)
(** * Where a line ends, without the glyphs *)

Section Scan.
Variable width : text -> Len.

(** [wrap_line] seen from its text only: [g] is the text since the start of the line, [lb] the text behind the last
    break opportunity; the result is the rest and whether a newline ended the line. *)
Fixpoint scan (avail : Len) (chars g : text) (lb : option text) : text * bool :=
  match chars with
  | [] => if lltb avail (width g) then (match lb with Some it => it | None => [] end, false) else ([], false)
  | ch :: rest =>
      if is_break_char ch && lltb avail (width g) then (match lb with Some it => it | None => rest end, false)
      else if (ch =? nl)%N then (rest, true)
      else scan avail rest (g ++ [ch]) (if ((ch =? sp) || (ch =? hyphen))%N then Some rest else lb)
  end.

(** the number of lines *)
Inductive counted (avail : Len) : text -> option text -> nat -> Prop :=
| c_done t lb : scan avail t [] lb = ([], false) -> counted avail t lb 1
| c_more t lb r n k : scan avail t [] lb = (r, n) -> r <> [] \/ n = true -> counted avail r None k ->
    counted avail t lb (S k).

Definition suff (r t : text) : Prop := exists x, t = x ++ r.
Lemma suff_refl t : suff t t. Proof. exists []; reflexivity. Qed.
Lemma suff_nil t : suff [] t. Proof. exists t; symmetry; apply app_nil_r. Qed.
Lemma suff_cons c t : suff t (c :: t). Proof. exists [c]; reflexivity. Qed.
Lemma suff_trans a b c : suff a b -> suff b c -> suff a c.
Proof. intros [x ->] [y ->]. exists (y ++ x). apply app_assoc. Qed.
Lemma suff_of_nil t : suff t [] -> t = [].
Proof. intros [x H]. symmetry in H. apply app_eq_nil in H. tauto. Qed.
Lemma suff_ends r t : suff r t -> r <> [] -> ends_nl t -> ends_nl r.
Proof.
  intros [x ->] Hr [u H]. destruct (exists_last Hr) as (r0 & c & ->). rewrite app_assoc in H.
  apply app_inj_tail in H. destruct H as [_ ->]. exists r0; reflexivity.
Qed.
Lemma suff_ends' r t : suff r t -> ends_nl r -> ends_nl t.
Proof. intros [x ->] [u ->]. exists (x ++ u). apply app_assoc. Qed.
Lemma app_suff_cases : forall (x y a b : text), x ++ a = y ++ b -> suff a b \/ suff b a.
Proof.
  induction x as [|c x IH]; intros y a b H; [right; exists y; exact H|].
  destruct y as [|d y]; [left; exists (c :: x); symmetry; exact H|]. injection H as _ H. exact (IH _ _ _ H).
Qed.

Definition lb_suff (chars : text) (lb : option text) : Prop :=
  match lb with Some it => suff chars it | None => True end.
Lemma lb_suff_step ch rest lb : lb_suff (ch :: rest) lb ->
  lb_suff rest (if ((ch =? sp) || (ch =? hyphen))%N then Some rest else lb).
Proof.
  intros H. destruct ((ch =? sp) || (ch =? hyphen))%N; [apply suff_refl|]. destruct lb as [it|]; [|exact I].
  eapply suff_trans; [apply suff_cons | exact H].
Qed.

(** a line ends in the text or at the last opportunity *)
Lemma scan_suff avail : forall chars g lb r n, scan avail chars g lb = (r, n) -> suff r chars \/ lb = Some r.
Proof.
  induction chars as [|ch rest IH]; intros g lb r n; cbn [scan].
  - destruct (lltb avail (width g)); [destruct lb|]; intros [= <- <-]; auto using suff_refl.
  - destruct (is_break_char ch && lltb avail (width g)); [destruct lb; intros [= <- <-]; auto using suff_cons|].
    destruct (ch =? nl)%N; [intros [= <- <-]; auto using suff_cons|]. intros H. apply IH in H.
    destruct H as [H | H]; [left; eapply suff_trans; [exact H | apply suff_cons]|].
    destruct ((ch =? sp) || (ch =? hyphen))%N; [injection H as <-; left; apply suff_cons | right; exact H].
Qed.
(** a newline at the end of a line is one of the text *)
Lemma scan_newline avail : forall chars g lb r, scan avail chars g lb = (r, true) -> exists x, chars = x ++ nl :: r.
Proof.
  induction chars as [|ch rest IH]; intros g lb r; cbn [scan].
  - destruct (lltb avail (width g)); discriminate.
  - destruct (is_break_char ch && lltb avail (width g)); [discriminate|]. destruct (ch =? nl)%N eqn:E.
    + intros [= <-]. apply N.eqb_eq in E. subst ch. exists []; reflexivity.
    + intros H. destruct (IH _ _ _ H) as [x ->]. exists (ch :: x). reflexivity.
Qed.

(** reading on to a later place, or stopping before it *)
Lemma scan_to avail t' : forall x g lb r n, lb_suff (x ++ t') lb -> scan avail (x ++ t') g lb = (r, n) ->
  suff t' r \/ exists lb2, lb_suff t' lb2 /\ (x = [] -> lb2 = lb) /\ scan avail t' (g ++ x) lb2 = (r, n).
Proof.
  induction x as [|ch x IH]; intros g lb r n Hl H.
  - right. exists lb. rewrite app_nil_r. auto.
  - cbn [app scan] in H. destruct (is_break_char ch && lltb avail (width g)).
    { left. destruct lb as [it|]; injection H as <- <-; [|exists x; reflexivity].
      eapply suff_trans; [|exact Hl]. exists (ch :: x). reflexivity. }
    destruct (ch =? nl)%N; [injection H as <- <-; left; exists x; reflexivity|].
    apply IH in H; [|apply lb_suff_step; exact Hl].
    destruct H as [H | (lb2 & H1 & _ & H2)]; [left; exact H|]. right. exists lb2. rewrite <- app_assoc in H2.
    split; [exact H1|]. split; [discriminate | exact H2].
Qed.

Section Two.
Variables W W' : Len.
(** what fits in the first width, from some place on fits in the second *)
Hypothesis wider : forall a b, fits W (width (a ++ b)) -> fits W' (width b).

Definition lb_rel (lb lb' : option text) : Prop :=
  match lb' with
  | None => True
  | Some it' => match lb with Some it => suff it' it | None => False end
  end.

(** the line begun later, in the second width, ends later *)
Lemma scan_later : forall chars g g' lb lb' r n r' n',
  suff g' g -> lb_suff chars lb -> lb_suff chars lb' -> lb_rel lb lb' ->
  scan W chars g lb = (r, n) -> scan W' chars g' lb' = (r', n') ->
  suff r' r /\ (r = [] -> n = false -> n' = true -> ends_nl chars).
Proof.
  induction chars as [|ch rest IH]; intros g g' lb lb' r n r' n' Hg Hl Hl' Hr H H'; cbn [scan] in H, H'.
  - assert (n' = false) by (destruct (lltb W' (width g')); congruence). subst n'.
    split; [|discriminate]. destruct (lltb W (width g)) eqn:E.
    + destruct lb as [it|]; injection H as <- <-.
      * destruct (lltb W' (width g')); [destruct lb' as [it'|]|]; injection H' as <-; try apply suff_nil. exact Hr.
      * destruct lb' as [it'|]; [destruct Hr|]. destruct (lltb W' (width g')); injection H' as <-; apply suff_nil.
    + assert (E' : lltb W' (width g') = false) by (destruct Hg as [a ->]; exact (wider a g' E)).
      rewrite E' in H'. injection H' as <-. apply suff_nil.
  - destruct (is_break_char ch && lltb W (width g)) eqn:E.
    + injection H as <- <-. 
      assert (HR : suff r' (ch :: rest) \/ lb' = Some r').
      { apply (scan_suff W' (ch :: rest) g' lb' r' n'). cbn [scan]. exact H'. }
      destruct lb as [it|].
      * split.
        -- destruct HR as [HR | HR]; [eapply suff_trans; [exact HR | exact Hl]|]. subst lb'. exact Hr.
        -- intros ->. apply suff_of_nil in Hl. discriminate.
      * destruct lb' as [it'|]; [destruct Hr|]. apply andb_true_iff in E. destruct E as [Eb _]. rewrite Eb in H'.
        cbn [andb] in H'. destruct (lltb W' (width g')).
        { injection H' as <- <-. split; [apply suff_refl | discriminate]. }
        destruct (ch =? nl)%N eqn:En.
        { injection H' as <- <-. split; [apply suff_refl|]. intros -> _ _. apply N.eqb_eq in En. subst ch. exists []; reflexivity. }
        assert (Es : ((ch =? sp) || (ch =? hyphen))%N = true).
        { unfold is_break_char in Eb. rewrite En, orb_false_r in Eb. exact Eb. }
        rewrite Es in H'. split.
        -- destruct (scan_suff _ _ _ _ _ _ H') as [HS | HS]; [exact HS|]. injection HS as <-. apply suff_refl.
        -- intros -> _ ->. cbn [scan] in H'. destruct (lltb W' _); discriminate.
    + assert (E' : is_break_char ch && lltb W' (width g') = false).
      { destruct (is_break_char ch); [|reflexivity]. cbn [andb] in *. destruct Hg as [a ->]. exact (wider a g' E). }
      rewrite E' in H'. destruct (ch =? nl)%N.
      { injection H as <- <-. injection H' as <- <-. split; [apply suff_refl | discriminate]. }
      edestruct (IH (g ++ [ch]) (g' ++ [ch])) as [IH1 IH2]; [| | | |exact H|exact H'|].
      * destruct Hg as [a ->]. exists a. symmetry. apply app_assoc.
      * apply lb_suff_step; exact Hl.
      * apply lb_suff_step; exact Hl'.
      * destruct ((ch =? sp) || (ch =? hyphen))%N; [apply suff_refl | exact Hr].
      * split; [exact IH1|]. intros A B C. destruct (IH2 A B C) as [u ->]. exists (ch :: u). reflexivity.
Qed.

Lemma counted_nil A lb k : lb = None \/ lb = Some [] -> counted A [] lb k -> k = 1%nat.
Proof.
  intros Hl H. inversion H as [? ? _ | t lb0 r n k0 H1 H2 H3]; subst; [reflexivity|]. exfalso.
  cbn [scan] in H1. destruct (lltb A (width [])); destruct Hl as [-> | ->]; injection H1 as <- <-; destruct H2; congruence.
Qed.

Lemma counted_fewer (e : nat) : forall t lb k, counted W t lb k -> lb = None \/ lb = Some t -> (ends_nl t -> (1 <= e)%nat) ->
  forall t' lb' k', suff t' t -> lb' = None \/ (t' = t /\ lb' = Some t /\ lb = Some t) -> counted W' t' lb' k' ->
  (k' <= k + e)%nat.
Proof.
  (* in step: the line of the second text is begun where that of the first stands *)
  assert (Sync : forall x t' lb lb' lb2 r n r' n', scan W t' ([] ++ x) lb2 = (r, n) -> scan W' t' [] lb' = (r', n') ->
     lb_suff t' lb2 -> (x = [] -> lb2 = lb) -> lb' = None \/ (t' = x ++ t' /\ lb' = Some (x ++ t') /\ lb = Some (x ++ t')) ->
     suff r' r /\ (r = [] -> n = false -> n' = true -> ends_nl t')).
  { intros x t' lb lb' lb2 r n r' n' H H' Hl2 Hx Hlb.
    eapply (scan_later t' ([] ++ x) [] lb2 lb'); [apply suff_nil | exact Hl2 | | | exact H | exact H'].
    - destruct Hlb as [-> | (Ht & -> & _)]; [exact I | rewrite <- Ht; apply suff_refl].
    - destruct Hlb as [-> | (Ht & -> & ->)]; [exact I|].
      assert (x = []) by (apply (f_equal (@List.length _)) in Ht; rewrite app_length in Ht; destruct x; [reflexivity | cbn in Ht; lia]).
      subst x. rewrite (Hx eq_refl). apply suff_refl. }
  induction 1 as [t lb H | t lb r n k H Hm Hc IH]; intros Hl He t' lb' k' Hs Hlb Hk.
  - destruct Hs as [x ->]. apply scan_to in H; [|destruct Hl as [-> | ->]; [exact I | apply suff_refl]].
    destruct H as [H | (lb2 & H1 & H2 & H3)].
    + apply suff_of_nil in H. subst t'. apply counted_nil in Hk; [lia|]. destruct Hlb as [-> | (Hx & -> & _)]; [auto|].
      rewrite <- Hx. auto.
    + destruct Hk as [t1 lb1 Hk | t1 lb1 r1 n1 k1 Hk Hm1 Hc1]; [lia|].
      destruct (Sync _ _ _ _ _ _ _ _ _ H3 Hk H1 H2 Hlb) as [S1 S2].
      apply suff_of_nil in S1. subst r1. apply counted_nil in Hc1; [|auto]. subst k1.
      destruct Hm1 as [Hm1 | Hm1]; [congruence|]. subst n1.
      enough (1 <= e)%nat by lia. apply He. eapply suff_ends'; [|apply S2; reflexivity]. exists x; reflexivity.
  - assert (HrT : suff r t).
    { destruct (scan_suff _ _ _ _ _ _ H) as [Hr | Hr]; [exact Hr|].
      destruct Hl as [-> | ->]; [discriminate | injection Hr as <-; apply suff_refl]. }
    assert (IH' : forall t' k', suff t' r -> counted W' t' None k' -> (k' <= k + e)%nat).
    { intros t1 k1 H1 H2. eapply IH; [auto | | exact H1 | auto | exact H2].
      intros E. apply He. eapply suff_ends'; eassumption. }
    destruct Hs as [x ->].
    assert (Hstep : forall lb2, scan W t' ([] ++ x) lb2 = (r, n) -> lb_suff t' lb2 -> (x = [] -> lb2 = lb) -> (k' <= S k + e)%nat).
    { intros lb2 H3 H1 H2. destruct Hk as [t1 lb1 Hk | t1 lb1 r1 n1 k1 Hk Hm1 Hc1]; [lia|].
      destruct (Sync _ _ _ _ _ _ _ _ _ H3 Hk H1 H2 Hlb) as [S1 _]. specialize (IH' _ _ S1 Hc1). lia. }
    destruct x as [|c x].
    + apply (Hstep lb); [exact H | destruct Hl as [-> | ->]; [exact I | apply suff_refl] | reflexivity].
    + apply scan_to in H; [|destruct Hl as [-> | ->]; [exact I | apply suff_refl]].
      destruct H as [H | (lb2 & H1 & H2 & H3)]; [|exact (Hstep lb2 H3 H1 H2)].
      destruct Hlb as [-> | (Hx & _)].
      * specialize (IH' _ _ H Hk). lia.
      * exfalso. apply (f_equal (@List.length _)) in Hx. rewrite app_length in Hx. cbn in Hx. lia.
Qed.
End Two.
End Scan.

(* ------------------------------------------------------------------ *)
(** * The lines of the layout *)

Section Layout.
Variables m_ascent m_descent : style -> Len.
Variable m_width : style -> text -> Len.
Notation wrap_loop := (wrap_loop m_ascent m_descent m_width).

Lemma wrap_line_scan fo avail : forall chars sh lb sh' r n, seg_ok m_width fo sh ->
  wrap_line m_width fo avail chars sh lb = Ok (sh', r, n) ->
  scan (m_width fo) avail chars (seg_glyphs sh) (option_map snd lb) = (r, n).
Proof.
  assert (Hb : forall sh rest lb sh' r n, break_here sh rest lb = Ok (sh', r, n) ->
     (match option_map snd lb with Some it => it | None => rest end, false) = (r, n)).
  { intros sh rest [[st it]|] sh' r n; cbn [break_here option_map snd].
    - destruct (seg_restore sh st); cbn [of_outcome bind]; try discriminate. intros [= _ <- <-]; reflexivity.
    - intros [= _ <- <-]; reflexivity. }
  induction chars as [|ch rest IH]; intros sh lb sh' r n Hs; cbn [wrap_line scan].
  - rewrite seg_advance_ok by exact Hs. destruct (lltb avail _); [apply Hb | intros [= _ <- <-]; reflexivity].
  - set (sh1 := if is_break_char ch then Seg (seg_glyphs sh) (Some (m_width fo (seg_glyphs sh))) else sh).
    assert (E1 : (if is_break_char ch
        then let '(w, s0) := seg_advance (m_width fo) sh in (lltb avail w, s0)
        else (false, sh)) = (is_break_char ch && lltb avail (m_width fo (seg_glyphs sh)), sh1)).
    { unfold sh1. destruct (is_break_char ch); [rewrite seg_advance_ok by exact Hs|]; reflexivity. }
    rewrite E1. clear E1.
    assert (Hg1 : seg_glyphs sh1 = seg_glyphs sh) by (unfold sh1; destruct (is_break_char ch); reflexivity).
    clearbody sh1. destruct (is_break_char ch && lltb avail (m_width fo (seg_glyphs sh))); [apply Hb|].
    destruct (ch =? nl)%N; [intros [= _ <- <-]; reflexivity|]. intros H. apply IH in H; [|apply seg_append_ok].
    cbn [seg_append_char seg_glyphs] in H. rewrite Hg1 in H. rewrite <- H. f_equal.
    destruct (ch =? hyphen)%N; [rewrite orb_true_r; reflexivity|]. rewrite orb_false_r.
    destruct (ch =? sp)%N; reflexivity.
Qed.

Definition nlines (s : ifc) : nat := List.length (ln_boxes (is_lines s)).
Lemma nlines_add_text st fo sg n s : nlines (add_text m_ascent m_descent m_width st fo sg n s) = nlines s.
Proof. unfold nlines, add_text. destruct (seg_advance (m_width fo) sg) as [w sh]. destruct (negb (seg_empty sh)); reflexivity. Qed.
Lemma nlines_finish cb ta s : nlines (finish_line cb ta s) = S (nlines s).
Proof.
  unfold nlines, finish_line. destruct (finish_partials (is_stack s) (is_cur s) (is_pos s)) as [[a b] c].
  cbn [is_lines lines_finish ln_boxes]. rewrite app_length. cbn. lia.
Qed.
Lemma pos_finish cb ta s : is_pos (finish_line cb ta s) = l0.
Proof. unfold finish_line. destruct (finish_partials (is_stack s) (is_cur s) (is_pos s)) as [[a b] c]. reflexivity. Qed.

Lemma wrap_loop_counted cb ta st fo : forall fuel chars sh lb s s', seg_ok m_width fo sh -> seg_glyphs sh = [] ->
  is_pos s = l0 -> (exists sh' r n, wrap_line m_width fo (cb_inline cb - is_pos s) chars sh lb = Ok (sh', r, n) /\ seg_ok m_width fo sh') ->
  wrap_loop fuel cb ta st fo chars sh lb s = Ok s' ->
  exists k, counted (m_width fo) (cb_inline cb - l0) chars (option_map snd lb) (S k) /\ nlines s' = (nlines s + k)%nat.
Proof.
  induction fuel as [|fuel IH]; intros chars sh lb s s' Hs Hg Hp (sh' & r & n & E & Hs'); [discriminate|].
  cbn [InlineModel.wrap_loop]. rewrite E. cbn [bind].
  apply wrap_line_scan in E; [|exact Hs]. rewrite Hg, Hp in E.
  destruct (negb match r with [] => true | _ :: _ => false end || n) eqn:Ec.
  - intros H. 
    assert (Hsh : seg_ok m_width fo (if seg_empty sh' then snd (seg_advance (m_width fo) sh') else seg_new) /\
                  seg_glyphs (if seg_empty sh' then snd (seg_advance (m_width fo) sh') else seg_new) = []).
    { destruct (seg_empty sh') eqn:Ee; [|split; [apply seg_new_ok | reflexivity]].
      rewrite seg_advance_ok by exact Hs'. split; [right; reflexivity | apply seg_empty_iff in Ee; exact Ee]. }
    destruct Hsh as [Hsh1 Hsh2].
    apply IH in H; [| exact Hsh1 | exact Hsh2 | apply pos_finish |].
    + destruct H as (k & H1 & H2). exists (S k). split.
      * eapply c_more; [exact E | | exact H1]. apply orb_true_iff in Ec. destruct Ec as [Ec | Ec]; [left | right; exact Ec].
        destruct r; [discriminate | discriminate].
      * rewrite H2, nlines_finish, nlines_add_text. lia.
    + edestruct (wrap_line_ok m_width fo false (cb_inline cb - l0) r) as (sh2 & r2 & n2 & G1 & G2 & _);
        [exact Hsh1 | rewrite Hsh2; intros [] | | rewrite pos_finish; exists sh2, r2, n2; split; [exact G1 | exact G2]].
      rewrite Hsh2. split; [constructor | reflexivity].
  - intros [= <-]. exists 0%nat. rewrite nlines_add_text. split; [|lia]. apply c_done. rewrite E.
    apply orb_false_iff in Ec. destruct Ec as [Ec ->]. destruct r; [reflexivity | discriminate].
Qed.

Lemma run_counted parent st fo t cb rank abs : sv st Lwhite_space <> WSNowrap -> sv st Lwhite_space <> WSPre ->
  exists fl abs', ifc_layout m_ascent m_descent m_width parent [TextRun st t fo] cb rank abs = Ok (fl, abs') /\
    counted (m_width fo) (cb_inline cb - l0) t (Some t) (List.length (fl_fragments fl)).
Proof.
  intros H1 H2.
  destruct (ifc_layout_any m_ascent m_descent m_width parent [TextRun st t fo] cb rank abs) as (fl & abs' & es & pos & E & _); [cbn; tauto|].
  exists fl, (abs ++ abs'). split; [exact E|].
  unfold ifc_layout in E. cbn [boxes_steps ilb_steps map fold_right list_sum ifc_loop hd tl Nat.add] in E.
  assert (ET : text_run_layout m_ascent m_descent m_width cb (sv parent Ltext_align) st fo t (ifc_start m_ascent m_descent parent abs)
    = layout_wrap m_ascent m_descent m_width cb (sv parent Ltext_align) st fo t (ifc_start m_ascent m_descent parent abs)).
  { unfold text_run_layout. destruct (sv st Lwhite_space); congruence. }
  rewrite ET in E. clear ET.
  destruct (layout_wrap m_ascent m_descent m_width cb (sv parent Ltext_align) st fo t (ifc_start m_ascent m_descent parent abs)) as [s1| |] eqn:El;
    cbn [bind] in E; try discriminate.
  assert (Hst : is_stack s1 = []).
  { destruct (text_run_ok m_ascent m_descent m_width cb (sv parent Ltext_align) rank st fo t (ifc_start m_ascent m_descent parent abs))
      as (s2 & ls & G1 & _ & _ & G2).
    assert (s2 = s1).
    { unfold text_run_layout in G1. destruct (sv st Lwhite_space); congruence. }
    subst s2. inversion G2; reflexivity. }
  rewrite Hst in E. cbn [bind] in E. injection E as <- _. cbn [fl_fragments].
  change (counted (m_width fo) (cb_inline cb - l0) t (Some t) (nlines (finish_line cb (sv parent Ltext_align) s1))).
  rewrite nlines_finish. unfold layout_wrap in El. apply wrap_loop_counted in El.
  - destruct El as (k & G1 & G2). rewrite G2. exact G1.
  - apply seg_new_ok.
  - reflexivity.
  - reflexivity.
  - edestruct (wrap_line_ok m_width fo true (cb_inline cb - l0) t seg_new (Some (seg_save seg_new, t))) as (sh2 & r2 & n2 & G1 & G2 & _);
      [apply seg_new_ok | intros [] | | exists sh2, r2, n2; split; [exact G1 | exact G2]].
    exists [], [], []. split; [reflexivity|]. split; [constructor|]. split; [reflexivity|]. split; [reflexivity|].
    split; [left; reflexivity|]. right; right. auto.
Qed.
End Layout.
End Any.
