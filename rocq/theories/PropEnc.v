From Verif Require Import EncSpec CStrProofs.
Local Open Scope N_scope.
Local Open Scope outcome_scope.

Lemma proper_scalar t : proper t -> forallb is_scalar t = true.
Proof.
  intros H. apply forallb_forall. intros c Hc. unfold proper in H. rewrite Forall_forall in H. specialize (H c Hc). unfold is_scalar.
  apply Bool.orb_true_iff. destruct H as [_ [H | [H1 H2]]]; [left; now apply N.ltb_lt | right].
  apply Bool.andb_true_iff. split; [now apply N.leb_le | now apply N.ltb_lt].
Qed.
Lemma proper_nul t : proper t -> ~ In 0 t.
Proof. intros H Hc. unfold proper in H. rewrite Forall_forall in H. destruct (H 0 Hc) as [E _]. now apply E. Qed.
Lemma proper_bytes t : proper t -> until_nul (utf8 t ++ [0]) = utf8 t.
Proof. intros H. apply until_nul_id. rewrite nul_utf8. apply no_nul_iff, proper_nul, H. Qed.

Lemma upd_app {A} (l : list A) x r f : upd (length l) f (l ++ x :: r) = l ++ f x :: r.
Proof. induction l as [|y l IH]; cbn; [reflexivity | now rewrite IH]. Qed.
Lemma nth_app {A} (l : list A) x r : nth_error (l ++ x :: r) (length l) = Some x.
Proof. induction l as [|y l IH]; cbn; [reflexivity | exact IH]. Qed.

Section Md.
Variable md : text -> text.
Hypothesis md_proper : forall t, proper t -> proper (md t).

Lemma md_one_ok loc m s t : shown loc s = Some t -> proper t ->
  md_one md loc m s = Done (mk_char_utf8 (utf8 (md t)), m ++ [None; None]).
Proof.
  intros Hs Ht. unfold md_one, sinab_md_to_html, translate_utf8. rewrite Hs. unfold cstring_to_str. rewrite nth_app. cbn [obind].
  rewrite (proper_bytes t Ht), (utf8_roundtrip t (proper_scalar t Ht)). cbn [obind]. unfold str_to_cstring.
  rewrite nul_utf8. assert (E : existsb (fun c : N => c =? 0) (md t) = false) by (apply no_nul_iff, proper_nul, md_proper, Ht).
  rewrite E. cbn [obind]. rewrite nth_app. cbn [obind]. rewrite (proper_bytes (md t) (md_proper t Ht)). cbn [obind].
  unfold sinab_free_cstring. rewrite nth_app. cbn [obind]. rewrite upd_app. rewrite <- app_assoc. cbn [app]. rewrite upd_app. reflexivity.
Qed.
End Md.

(** C96, markdown conversion: whatever the locale and the encodings of the strings, each string is converted on its own;
    R shows the conversion of the text it showed for the input, in every locale; and all memory is given back.
    [md] is the conversion itself (pulldown_cmark), which makes proper texts of proper texts. *)
Theorem C96_md_to_html : forall (md : text -> text) loc m v, (forall t, proper t -> proper (md t)) ->
  Forall (fun s => exists t, shown loc s = Some t /\ proper t) v ->
  exists out, C_md_to_html md loc m v = Done (out, m ++ repeat None (2 * length v)) /\
    Forall2 (fun s r => forall t, shown loc s = Some t -> forall loc', shown loc' r = Some (md t)) v out.
Proof.
  intros md loc m v Hmd H. revert m. induction H as [|s v (t & Hs & Ht) H IH]; intros m.
  - exists []. cbn. rewrite app_nil_r. now split.
  - destruct (IH (m ++ [None; None])) as (out & E & F). exists (mk_char_utf8 (utf8 (md t)) :: out). split.
    + cbn [C_md_to_html]. rewrite (md_one_ok md Hmd loc m s t Hs Ht). cbn [obind fst snd]. rewrite E. cbn [obind fst snd].
      rewrite <- app_assoc. replace (2 * length (s :: v))%nat with (S (S (2 * length v))) by (cbn; lia). reflexivity.
    + constructor; [|exact F]. intros t' Hs' loc'. rewrite Hs in Hs'. injection Hs' as <-. unfold shown. cbn [rs_mark rs_bytes mk_char_utf8].
      apply utf8_roundtrip, proper_scalar, Hmd, Ht.
Qed.
Print Assumptions C96_md_to_html.
(** a Latin 1 string and a UTF-8 string in a Latin 1 locale *)
Example C96_md_to_html_case : exists out,
  C_md_to_html (fun t => 60 :: t) latin1 [] [RString [233] MNative; RString [195; 169] MUtf8] = Done (out, repeat None 4) /\
  map (shown latin1) out = [Some [60; 233]; Some [60; 233]].
Proof. eexists. split; vm_compute; reflexivity. Qed.

(** C96, on the way in: the text and the style sheet that are rendered are those R shows for the arguments *)
Theorem C96_received : forall loc s t, shown loc s = Some t -> proper t -> received loc s = Done (Some t).
Proof.
  intros loc s t Hs Ht. unfold received, translate_utf8, cstring_to_str. rewrite Hs. cbn [nth_error].
  now rewrite (proper_bytes t Ht), (utf8_roundtrip t (proper_scalar t Ht)).
Qed.
Print Assumptions C96_received.

Lemma string_bytes_of bs : (forall b, In b bs -> b < 256) -> string_bytes (bytes_string bs) = bs.
Proof.
  induction bs as [|b bs IH]; intros H; cbn [bytes_string string_bytes]; [reflexivity|].
  rewrite IH by (intros x Hx; apply H; now right). rewrite N_ascii_embedding by (apply H; now left). reflexivity.
Qed.
Lemma ascii_utf8 t : ascii_only t -> utf8 t = t.
Proof.
  induction 1 as [|c t H _ IH]; [reflexivity|]. change (utf8_char c ++ utf8 t = c :: t)%list. rewrite IH. unfold utf8_char.
  assert (E : c <? 128 = true) by (apply N.ltb_lt, H). now rewrite E.
Qed.
Lemma label_bytes t : proper t -> string_bytes (label_of t) = utf8 t.
Proof. intros H. apply string_bytes_of. intros b Hb. exact (utf8_bytes t (proper_scalar t H) b Hb). Qed.

Lemma nth_upd {A} (l : list A) i x : (i < length l)%nat -> nth_error (upd i (fun _ => x) l) i = Some x.
Proof. revert i. induction l as [|y l IH]; intros [|i] H; cbn in *; try lia; [reflexivity | apply IH; lia]. Qed.
Lemma add_last d g d' : rdev_add d g = Done d' -> nth_error (d_grobs d') (d_size d) = Some (Some g).
Proof.
  unfold rdev_add. intros H.
  assert (K : forall e, d_size e = d_size d -> (let* v := set_vector_elt (d_grobs e) (d_size e) (Some g) in
      Done (RDev v (d_size e + 1) (d_capacity e) (d_y0 e) (d_xmin e) (d_ymin e) (d_xmax e) (d_ymax e) (d_set e))) = Done d' ->
      nth_error (d_grobs d') (d_size d) = Some (Some g)).
  { intros e E K. unfold set_vector_elt in K. destruct (d_size e <? length (d_grobs e))%nat eqn:L; cbn [obind] in K; [|discriminate].
    injection K as <-. cbn [d_grobs]. rewrite <- E. apply nth_upd. now apply Nat.ltb_lt. }
  destruct (d_size d =? d_capacity d)%nat.
  - unfold rdev_grow_capacity in H. destruct (copy_elts (d_grobs d) (repeat None (2 * d_capacity d)) 0 (d_size d)); cbn [obind] in H; try discriminate.
    eapply K; [|exact H]. reflexivity.
  - cbn [obind] in H. eapply K; [reflexivity | exact H].
Qed.
Lemma draw_text_last w l x y f c w' : draw_text w l x y f c = Done w' ->
  exists x' y' gp, nth_error (d_grobs (dw_dev w')) (d_size (dw_dev w)) = Some (Some (TextGrob l x' y' l0 l0 gp)).
Proof.
  unfold draw_text, cstring_unwrap. destruct (has_nul l); cbn [obind]; [discriminate|].
  destruct (gc_clone (dw_gc w) (f_gc f)) as [g1| | | | |]; cbn [obind]; try discriminate.
  destruct (gc_set g1 _ _) as [g2| | | | |]; cbn [obind]; try discriminate.
  destruct (gc_view g2 _) as [v| | | | |]; cbn [obind]; try discriminate. unfold rdev_draw_text.
  destruct (rdev_add (dw_dev w) _) as [d| | | | |] eqn:E; cbn [obind]; try discriminate.
  destruct (gc_drop g2 _) as [g3| | | | |]; cbn [obind]; try discriminate.
  intros H. injection H as <-. cbn [dw_dev]. do 3 eexists. exact (add_last _ _ _ E).
Qed.

(** A font (of a device where every text is 1 inch wide) *)
Definition some_font : font * gworld :=
  match font_new (fun _ _ _ _ => (px 1, l0, px 1)) gworld0 "sans" FSNormal FWNormal (px 16) with
  | Done r => r
  | _ => (Font "" FSNormal FWNormal l0 l0 l0 l0 0, gworld0)
  end.
(** C96 in full: text that is drawn is shown by R as the text it is, in every locale.  False: the label of a text grob is
    made with mkString, without saying that it is UTF-8. *)
Theorem C96_refuted : ~ forall loc w t x y f c w', ascii_locale loc -> proper t -> draw_text w (label_of t) x y f c = Done w' ->
  exists g s, nth_error (d_grobs (dw_dev w')) (d_size (dw_dev w)) = Some (Some g) /\ label_string g = Some s /\ shown loc s = Some t.
Proof.
  intros H.
  destruct some_font as [f gw] eqn:Ef. set (w := DWorld (rdev_new l0) gw).
  specialize (H latin1 w [233] l0 l0 f (RGBA zero zero zero zero)).
  destruct (draw_text w (label_of [233]) l0 l0 f (RGBA zero zero zero zero)) as [w'| | | | |] eqn:E; try (subst w; unfold some_font in Ef; vm_compute in Ef; injection Ef as <- <-; vm_compute in E; discriminate).
  destruct (H w') as (g & s & Hg & Hl & Hs).
  - intros t _. reflexivity.
  - repeat constructor; discriminate.
  - reflexivity.
  - destruct (draw_text_last _ _ _ _ _ _ _ E) as (x' & y' & gp & Hn). rewrite Hn in Hg. injection Hg as <-. cbn [label_string] in Hl.
    injection Hl as <-. vm_compute in Hs. discriminate.
Qed.
Print Assumptions C96_refuted.

(** It is shown as it is if R's native encoding is UTF-8, and in every locale if it is ASCII. *)
Theorem C96_drawn_partial {ar : Arith} : forall loc w t x y f c w', proper t -> utf8_locale loc \/ (ascii_locale loc /\ ascii_only t) ->
  draw_text w (label_of t) x y f c = Done w' ->
  exists g s, nth_error (d_grobs (dw_dev w')) (d_size (dw_dev w)) = Some (Some g) /\ label_string g = Some s /\ shown loc s = Some t.
Proof.
  intros loc w t x y f c w' Ht Hl H. destruct (draw_text_last _ _ _ _ _ _ _ H) as (x' & y' & gp & Hn).
  do 2 eexists. split; [exact Hn|]. split; [reflexivity|]. unfold shown. cbn [rs_mark rs_bytes mk_string].
  rewrite (label_bytes t Ht). destruct Hl as [Hl | [Hl Ha]]; [exact (Hl t Ht) | rewrite (ascii_utf8 t Ha); exact (Hl t Ha)].
Qed.
Print Assumptions C96_drawn_partial.

(** In a Latin 1 locale exactly the ASCII texts are shown as they are. *)
Theorem C96_latin1 {ar : Arith} : forall w t x y f c w', proper t -> draw_text w (label_of t) x y f c = Done w' ->
  exists g s, nth_error (d_grobs (dw_dev w')) (d_size (dw_dev w)) = Some (Some g) /\ label_string g = Some s /\
    (shown latin1 s = Some t <-> ascii_only t).
Proof.
  intros w t x y f c w' Ht H. destruct (draw_text_last _ _ _ _ _ _ _ H) as (x' & y' & gp & Hn).
  do 2 eexists. split; [exact Hn|]. split; [reflexivity|]. unfold shown. cbn [rs_mark rs_bytes mk_string latin1 native].
  rewrite (label_bytes t Ht). split; [|intros Ha; now rewrite (ascii_utf8 t Ha)].
  intros E. injection E as E. clear H Hn. revert E.
  assert (L : forall u, (length u <= length (utf8 u))%nat).
  { intros u. induction u as [|d u IH]; [reflexivity|]. change (utf8 (d :: u)) with (utf8_char d ++ utf8 u)%list. cbn [length]. rewrite app_length.
    assert (1 <= length (utf8_char d))%nat. { unfold utf8_char. repeat destruct (_ <? _); cbn; lia. } lia. }
  induction Ht as [|d u [Hd0 Hd] Hu IH]; intros E; [constructor|]. change (utf8 (d :: u)) with (utf8_char d ++ utf8 u)%list in E.
  destruct (d <? 128) eqn:D.
  - assert (E1 : utf8_char d = [d]) by (unfold utf8_char; now rewrite D). rewrite E1 in E. cbn [app] in E. injection E as E.
    constructor; [apply N.ltb_lt in D; lia | exact (IH E)].
  - exfalso. apply (f_equal (@length N)) in E. rewrite app_length in E. cbn [length] in E. specialize (L u).
    assert (2 <= length (utf8_char d))%nat. { unfold utf8_char. rewrite D. repeat destruct (_ <? _); cbn; lia. } unfold text, char in *. lia.
Qed.
Print Assumptions C96_latin1.

(** There are locales of both kinds, and drawing succeeds. *)
Example C96_locales : utf8_locale (Locale from_utf8 (fun _ => [])) /\ ascii_locale (Locale from_utf8 (fun _ => [])) /\ ascii_locale latin1.
Proof.
  repeat split; try (intros t _; reflexivity).
  - intros t H. apply utf8_roundtrip, proper_scalar, H.
  - intros t H. rewrite <- (ascii_utf8 t H) at 1. apply utf8_roundtrip. apply proper_scalar. eapply Forall_impl; [|exact H]. cbn. intros c Hc. split; [lia | left; lia].
Qed.
Example C96_drawn_case : let (f, gw) := some_font in
  exists w', draw_text (DWorld (rdev_new l0) gw) (label_of [71; 233; 8364]) l0 l0 f (RGBA zero zero zero zero) = Done w' /\ proper [71; 233; 8364].
Proof.
  destruct some_font as [f gw] eqn:E. vm_compute in E. injection E as <- <-.
  eexists. split; [vm_compute; reflexivity|]. repeat constructor; try discriminate; left; reflexivity.
Qed.
