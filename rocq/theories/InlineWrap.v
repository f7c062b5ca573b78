(** Line breaking of one text run: the loop over the chars of a line. *)
From Verif Require Import InlineModel InlineSpec.
Local Open Scope len_scope.

Section Any.
Context {ar : Arith}.
Lemma utf8_len_pos c : (1 <= utf8_len c)%nat.
Proof. unfold utf8_len. destruct (c <? 128)%N, (c <? 2048)%N, (c <? 65536)%N; lia. Qed.
Lemma str_len_app a b : str_len (a ++ b) = (str_len a + str_len b)%nat.
Proof. induction a as [|c a IH]; cbn; [reflexivity|]. fold (str_len (a ++ b)); fold (str_len a). rewrite IH. lia. Qed.
Lemma str_len_0 a : str_len a = 0%nat -> a = [].
Proof. destruct a as [|c a]; [reflexivity|]. cbn. pose proof (utf8_len_pos c). lia. Qed.
Lemma str_take_app p x : str_take (p ++ x) (str_len p) = Done p.
Proof.
  induction p as [|c p IH].
  - destruct x; reflexivity.
  - change (str_len (c :: p)) with (utf8_len c + str_len p)%nat.
    pose proof (utf8_len_pos c) as Hc.
    destruct (utf8_len c + str_len p)%nat as [|n] eqn:En; [lia|].
    cbn [str_take app]. rewrite <- En.
    destruct (Nat.leb_spec (utf8_len c) (utf8_len c + str_len p)); [|lia].
    replace (utf8_len c + str_len p - utf8_len c)%nat with (str_len p) by lia.
    rewrite IH. reflexivity.
Qed.
Lemma str_truncate_app p x : str_truncate (p ++ x) (str_len p) = Done p.
Proof.
  unfold str_truncate. rewrite str_len_app.
  destruct (Nat.leb_spec (str_len p) (str_len p + str_len x)); [|lia]. apply str_take_app.
Qed.
Lemma seg_empty_iff s : seg_empty s = true <-> seg_glyphs s = [].
Proof.
  unfold seg_empty. rewrite Nat.eqb_eq. split; [apply str_len_0 | intros ->; reflexivity].
Qed.

Lemma is_break_char_iff c : is_break_char c = true <-> break_char c.
Proof.
  unfold is_break_char, break_char. rewrite !orb_true_iff, !N.eqb_eq. tauto.
Qed.
Lemma is_break_char_false c : is_break_char c = false <-> ~ break_char c.
Proof. rewrite <- is_break_char_iff. destruct (is_break_char c); split; congruence || (intros; exfalso; tauto) || auto. Qed.

Lemma first_word_stop w ch rest : no_break_char w -> break_char ch -> first_word (w ++ ch :: rest) = w.
Proof.
  intros Hw Hc. induction w as [|c w IH]; cbn [app first_word].
  - change ((ch =? sp) || (ch =? nl) || (ch =? hyphen))%N with (is_break_char ch).
    destruct (is_break_char ch) eqn:E; [reflexivity|]. apply is_break_char_false in E. contradiction.
  - inversion Hw as [|? ? Hc1 Hw1]; subst.
    change ((c =? sp) || (c =? nl) || (c =? hyphen))%N with (is_break_char c).
    destruct (is_break_char c) eqn:E; [apply is_break_char_iff in E; contradiction|].
    rewrite IH by assumption. reflexivity.
Qed.
Lemma first_word_all w : no_break_char w -> first_word w = w.
Proof.
  induction w as [|c w IH]; intros Hw; [reflexivity|]. inversion Hw as [|? ? Hc1 Hw1]; subst. cbn [first_word].
  change ((c =? sp) || (c =? nl) || (c =? hyphen))%N with (is_break_char c).
  destruct (is_break_char c) eqn:E; [apply is_break_char_iff in E; contradiction|]. rewrite IH by assumption. reflexivity.
Qed.
Lemma no_break_char_app a b : no_break_char (a ++ b) <-> no_break_char a /\ no_break_char b.
Proof. unfold no_break_char. apply Forall_app. Qed.
Lemma no_newline_app a b : no_newline (a ++ b) <-> no_newline a /\ no_newline b.
Proof. unfold no_newline. rewrite in_app_iff. tauto. Qed.
Lemma no_break_no_newline a : no_break_char a -> no_newline a.
Proof. intros H Hin. unfold no_break_char in H. rewrite Forall_forall in H. apply (H _ Hin). right; left; reflexivity. Qed.

Section Wrap.
Variable m_width : style -> text -> Len.
Variable fo : style.
Notation width := (m_width fo).

(** the cached width, when there is one, is the width of the glyphs *)
Definition seg_ok (s : segment) : Prop := seg_width s = None \/ seg_width s = Some (width (seg_glyphs s)).
Lemma seg_new_ok : seg_ok seg_new. Proof. left; reflexivity. Qed.
Lemma seg_append_ok s c : seg_ok (seg_append_char s c). Proof. left; reflexivity. Qed.
Lemma seg_advance_ok s : seg_ok s ->
  seg_advance width s = (width (seg_glyphs s), Seg (seg_glyphs s) (Some (width (seg_glyphs s)))).
Proof. intros [H | H]; unfold seg_advance; rewrite H; [reflexivity|]. destruct s as [g w]; cbn in *; subst; reflexivity. Qed.
Lemma seg_strip_ok s : seg_ok s -> seg_ok (seg_strip_space s).
Proof.
  intros H. unfold seg_strip_space. destruct (rev (seg_glyphs s)) as [|c r]; [exact H|].
  destruct (c =? sp)%N; [left; reflexivity | exact H].
Qed.
Lemma seg_strip_glyphs s : seg_glyphs (seg_strip_space s) = seg_glyphs s \/
  seg_glyphs s = seg_glyphs (seg_strip_space s) ++ [sp].
Proof.
  unfold seg_strip_space. destruct (rev (seg_glyphs s)) as [|c r] eqn:E; [left; reflexivity|].
  destruct (c =? sp)%N eqn:Ec; [right | left; reflexivity]. cbn.
  apply N.eqb_eq in Ec. subst c. rewrite <- (rev_involutive (seg_glyphs s)), E. reflexivity.
Qed.

(** a text fits where it fits with a space behind it *)
Definition space_monotone : Prop := forall avail p, fits avail (width (p ++ [sp])) -> fits avail (width p).

Definition lb_ok (first : bool) (avail : Len) (g chars : text) (lb : option (seg_state * text)) : Prop :=
  match lb with
  | None => no_break_char g /\ first = false
  | Some (st, it) => exists p d w,
      g = p ++ d ++ w /\ no_break_char w /\ it = w ++ chars /\ ss_glyphs st = str_len p /\
      (ss_width st = None \/ ss_width st = Some (width p)) /\
      ((d = [sp] /\ fits avail (width p)) \/
       (d = [] /\ exists q, p = q ++ [hyphen] /\ fits avail (width q)) \/
       (first = true /\ d = [] /\ p = []))
  end.

Definition line_result (first : bool) (avail : Len) (T p rest : text) (newline : bool) : Prop :=
  exists d, T = p ++ d ++ rest /\ no_newline p /\ (space_monotone -> fits_or_unbreakable width avail p) /\
    ((newline = true /\ (d = [nl] \/ d = [sp; nl])) \/
     (newline = false /\ rest = [] /\ dropped_last width avail p d) \/
     (newline = false /\ rest <> [] /\ dropped_soft width first avail p d /\ no_room width avail p d rest)).

Lemma break_here_ok first avail chars sh lb ch :
  seg_ok sh -> no_newline (seg_glyphs sh) -> lb_ok first avail (seg_glyphs sh) chars lb ->
  too_wide avail (width (seg_glyphs sh)) ->
  (chars = [] /\ ch = []) \/ (exists c, ch = [c] /\ break_char c) ->
  exists sh' rest,
    break_here sh (tl chars) lb = Ok (sh', rest, false) /\ seg_ok sh' /\
    (firstn 1 chars = ch -> line_result first avail (seg_glyphs sh ++ chars) (seg_glyphs sh') rest false).
Proof.
  intros Hs Hn Hlb Hover Hch. unfold break_here. destruct lb as [[st it]|].
  - destruct Hlb as (p & d & w & Hg & Hw & Hit & Hlen & Hwid & Hcase).
    assert (Hr : seg_restore sh st = Done (Seg p (ss_width st))).
    { unfold seg_restore. rewrite Hg, Hlen. rewrite (str_truncate_app p (d ++ w)). reflexivity. }
    rewrite Hr. cbn [of_outcome bind]. exists (Seg p (ss_width st)), it. split; [reflexivity|].
    split; [exact Hwid|]. intros Hfirst. cbn [seg_glyphs]. exists d.
    assert (HT : seg_glyphs sh ++ chars = p ++ d ++ it) by (rewrite Hg, Hit, !app_assoc; reflexivity).
    split; [exact HT|].
    assert (Hpn : no_newline p) by (rewrite Hg in Hn; apply no_newline_app in Hn; tauto).
    split; [exact Hpn|]. split.
    { intros _. destruct Hcase as [[_ H] | [[_ H] | [_ [_ H]]]].
      - left; exact H.
      - right; right; exact H.
      - right; left. rewrite H. constructor. }
    right.
    assert (Hroom : it <> [] -> no_room width avail p d it).
    { intros _. left. destruct Hch as [[Hc1 _] | (c & Hc1 & Hc2)].
      - subst chars. rewrite app_nil_r in Hit. subst it. rewrite first_word_all by exact Hw. rewrite <- Hg. exact Hover.
      - destruct chars as [|c' chars]; [rewrite Hc1 in Hfirst; discriminate|]. cbn in Hfirst. rewrite Hc1 in Hfirst.
        injection Hfirst as ->. rewrite Hit, first_word_stop by assumption. rewrite <- Hg. exact Hover. }
    destruct it as [|i it'] eqn:Eit.
    + left. split; [reflexivity|]. split; [reflexivity|].
      assert (Hw0 : w = [] /\ chars = []) by (symmetry in Hit; apply app_eq_nil in Hit; exact Hit).
      destruct Hw0 as [-> ->]. rewrite app_nil_r in Hg.
      destruct Hcase as [[-> H] | [[-> _] | [_ [-> _]]]]; [|apply dl_nothing|apply dl_nothing].
      apply dl_space. left. rewrite <- Hg. exact Hover.
    + right. split; [reflexivity|]. split; [discriminate|]. split; [|apply Hroom; discriminate].
      destruct Hcase as [[-> H] | [[-> (q & Hq & _)] | (Hf & -> & ->)]].
      * apply ds_space. * eapply ds_hyphen; eassumption. * apply ds_start; auto.
  - destruct Hlb as [Hnb Hfirst0]. exists sh, (tl chars). split; [reflexivity|]. split; [exact Hs|]. intros Hfirst.
    assert (Hov : overlong width avail (seg_glyphs sh)) by (split; assumption).
    exists ch. destruct chars as [|c chars].
    + cbn in Hfirst. subst ch. cbn [tl]. split; [rewrite !app_nil_r; reflexivity|]. split; [exact Hn|].
      split; [intros _; right; left; exact Hnb|]. right; left. repeat split. apply dl_nothing.
    + cbn in Hfirst. subst ch. destruct Hch as [[? _] | (c0 & Hc0 & Hbc)]; [discriminate|]. injection Hc0 as <-.
      cbn [tl]. split; [reflexivity|]. split; [exact Hn|]. split; [intros _; right; left; exact Hnb|]. right.
      destruct chars as [|c1 chars].
      * left. repeat split. destruct Hbc as [-> | Hbc]; [apply dl_space; right; exact Hov | apply dl_char; assumption].
      * right. split; [reflexivity|]. split; [discriminate|]. split; [|right; exact Hov].
        destruct Hbc as [-> | Hbc]; [apply ds_space | apply ds_char; assumption].
Qed.

Lemma wrap_line_ok first avail : forall chars sh lb,
  seg_ok sh -> no_newline (seg_glyphs sh) -> lb_ok first avail (seg_glyphs sh) chars lb ->
  exists sh' rest newline,
    wrap_line m_width fo avail chars sh lb = Ok (sh', rest, newline) /\ seg_ok sh' /\
    line_result first avail (seg_glyphs sh ++ chars) (seg_glyphs sh') rest newline.
Proof.
  induction chars as [|ch chars IH]; intros sh lb Hs Hn Hlb.
  - cbn [wrap_line]. rewrite seg_advance_ok by exact Hs.
    set (sh1 := Seg (seg_glyphs sh) (Some (width (seg_glyphs sh)))).
    destruct (lltb avail (width (seg_glyphs sh))) eqn:Eo.
    +
      destruct (break_here_ok first avail [] sh1 lb []) as (sh' & rest & H1 & H2 & H3); try assumption.
      { right; reflexivity. } { left; auto. }
      exists sh', rest, false. cbn [tl] in H1. rewrite H1. split; [reflexivity|]. split; [exact H2|]. apply H3. reflexivity.
    + exists sh1, [], false. split; [reflexivity|]. split; [right; reflexivity|].
      exists []. rewrite !app_nil_r. repeat split; [exact Hn | intros _; left; exact Eo |].
      right; left. repeat split. apply dl_nothing.
  - cbn [wrap_line].
    (* measuring *)
    set (sh1 := if is_break_char ch then Seg (seg_glyphs sh) (Some (width (seg_glyphs sh))) else sh).
    assert (E1 : (if is_break_char ch
        then let '(w, s0) := seg_advance width sh in (lltb avail w, s0)
        else (false, sh)) = (is_break_char ch && lltb avail (width (seg_glyphs sh)), sh1)).
    { unfold sh1. destruct (is_break_char ch); [rewrite seg_advance_ok by exact Hs|]; reflexivity. }
    rewrite E1. clear E1.
    assert (Hg1 : seg_glyphs sh1 = seg_glyphs sh) by (unfold sh1; destruct (is_break_char ch); reflexivity).
    assert (Hs1 : seg_ok sh1) by (unfold sh1; destruct (is_break_char ch); [right; reflexivity | exact Hs]).
    clearbody sh1.
    destruct (is_break_char ch && lltb avail (width (seg_glyphs sh))) eqn:Eo.
    + apply andb_true_iff in Eo. destruct Eo as [Eb Eo]. apply is_break_char_iff in Eb. 
      destruct (break_here_ok first avail (ch :: chars) sh1 lb [ch]) as (sh' & rest & H1 & H2 & H3);
        rewrite ?Hg1; try assumption.
      { right. exists ch. auto. }
      exists sh', rest, false. cbn [tl] in H1. rewrite H1. split; [reflexivity|]. split; [exact H2|].
      rewrite <- Hg1. apply H3. reflexivity.
    + assert (Hfit : break_char ch -> fits avail (width (seg_glyphs sh))).
      { intros Hb. apply is_break_char_iff in Hb. rewrite Hb in Eo. exact Eo. }
      destruct (ch =? nl)%N eqn:Enl.
      * apply N.eqb_eq in Enl. subst ch. specialize (Hfit (or_intror (or_introl eq_refl))).
        exists (seg_strip_space sh1), chars, true. split; [reflexivity|]. split; [apply seg_strip_ok; exact Hs1|].
        pose proof (seg_strip_glyphs sh1) as Hst. rewrite Hg1 in Hst.
        destruct Hst as [Hst | Hst].
        -- exists [nl]. rewrite Hst. split; [reflexivity|]. split; [exact Hn|].
           split; [intros _; left; exact Hfit|]. left; auto.
        -- exists [sp; nl]. split; [rewrite Hst, <- !app_assoc; reflexivity|].
           split; [rewrite Hst in Hn; apply no_newline_app in Hn; tauto|].
           split; [|left; auto]. intros Hm. left. apply Hm. rewrite <- Hst. exact Hfit.
      * apply N.eqb_neq in Enl.
        set (lb1 := if (ch =? sp)%N then Some (seg_save sh1, chars) else lb).
        set (lb2 := if (ch =? hyphen)%N then Some (seg_save (seg_append_char sh1 ch), chars) else lb1).
        edestruct (IH (seg_append_char sh1 ch) lb2) as (sh' & rest & newline & H1 & H2 & H3).
        { apply seg_append_ok. }
        { cbn [seg_append_char seg_glyphs]. rewrite Hg1. apply no_newline_app. split; [exact Hn|].
          intros [H | []]. congruence. }
        { cbn [seg_append_char seg_glyphs]. rewrite Hg1. unfold lb2, lb1.
          destruct (ch =? hyphen)%N eqn:Eh.
          - apply N.eqb_eq in Eh. subst ch. exists (seg_glyphs sh ++ [hyphen]), [], [].
            rewrite !app_nil_r. split; [reflexivity|]. split; [constructor|]. split; [reflexivity|].
            cbn [seg_save ss_glyphs ss_width seg_append_char seg_glyphs seg_width]. rewrite Hg1.
            split; [reflexivity|]. split; [left; reflexivity|]. right; left. split; [reflexivity|].
            eexists; split; [reflexivity|]. apply Hfit. right; right; reflexivity.
          - destruct (ch =? sp)%N eqn:Es.
            + apply N.eqb_eq in Es. subst ch. exists (seg_glyphs sh), [sp], [].
              split; [reflexivity|]. split; [constructor|]. split; [reflexivity|].
              cbn [seg_save ss_glyphs ss_width]. rewrite Hg1. split; [reflexivity|].
              split; [rewrite <- Hg1; exact Hs1|]. left. split; [reflexivity|]. apply Hfit. left; reflexivity.
            + apply N.eqb_neq in Eh, Es.
              assert (Hnb : ~ break_char ch) by (intros [H | [H | H]]; congruence).
              destruct lb as [[st it]|].
              * destruct Hlb as (p & d & w & Hg & Hw & Hit & Hlen & Hwid & Hcase).
                exists p, d, (w ++ [ch]). split; [rewrite Hg, <- !app_assoc; reflexivity|].
                split; [apply no_break_char_app; split; [exact Hw | constructor; [exact Hnb | constructor]]|].
                split; [rewrite Hit, <- app_assoc; reflexivity|]. auto.
              * destruct Hlb as [Hb Hf]. split; [|exact Hf].
                apply no_break_char_app; split; [exact Hb | constructor; [exact Hnb | constructor]]. }
        exists sh', rest, newline. split; [exact H1|]. split; [exact H2|].
        cbn [seg_append_char seg_glyphs] in H3. rewrite Hg1, <- app_assoc in H3. exact H3.
Qed.
End Wrap.
End Any.
