(** Proofs about the graphics engine. *)
From Verif Require Import GfxModel GfxSpec.
Local Open Scope len_scope.
Local Open Scope outcome_scope.

(* ------------------------------------------------------------ list helpers *)
Definition lk {A} (l : list (option A)) (i : nat) : option A :=
  match nth_error l i with Some (Some x) => Some x | _ => None end.

Lemma upd_len {A} i f (l : list A) : length (upd i f l) = length l.
Proof. revert i; induction l as [|x l IH]; intros [|i]; cbn; auto. Qed.
Lemma upd_nth {A} i j f (l : list A) :
  nth_error (upd i f l) j = if Nat.eqb i j then option_map f (nth_error l j) else nth_error l j.
Proof.
  revert i j; induction l as [|x l IH]; intros [|i] [|j]; cbn; auto.
  destruct (Nat.eqb i j); reflexivity.
Qed.
Lemma lk_app {A} (l : list (option A)) x i :
  lk (l ++ [x]) i = if Nat.eqb i (length l) then x else lk l i.
Proof.
  unfold lk. destruct (Nat.eqb_spec i (length l)) as [->|N].
  - rewrite nth_error_app2, Nat.sub_diag by lia. cbn. destruct x; reflexivity.
  - destruct (Nat.lt_ge_cases i (length l)).
    + rewrite nth_error_app1 by lia. reflexivity.
    + rewrite nth_error_app2 by lia. rewrite (proj2 (nth_error_None l i)) by lia.
      destruct (i - length l)%nat as [|k] eqn:E; [lia|]. cbn. destruct k; reflexivity.
Qed.
Lemma lk_upd {A} (l : list (option A)) x i j y :
  lk l i = Some y -> lk (upd i (fun _ => x) l) j = if Nat.eqb j i then x else lk l j.
Proof.
  unfold lk. intros H. rewrite upd_nth, (Nat.eqb_sym i j). destruct (Nat.eqb_spec j i) as [->|N]; [|reflexivity].
  destruct (nth_error l i) as [z|]; [|discriminate]. cbn. destruct x; reflexivity.
Qed.
Lemma lk_lt {A} (l : list (option A)) i x : lk l i = Some x -> (i < length l)%nat.
Proof. unfold lk. destruct (nth_error l i) eqn:E; [|discriminate]. intros _. apply nth_error_Some. congruence. Qed.
Lemma value_lk vs v : value_of vs v = lk vs v.
Proof. reflexivity. Qed.

Definition hit (r : nat) (o : option nat) : bool := match o with Some r' => Nat.eqb r' r | None => false end.
Definition cnt (r : nat) (l : list (option nat)) : nat := length (filter (hit r) l).
Lemma cnt_app r l x : cnt r (l ++ [x]) = (cnt r l + if hit r x then 1 else 0)%nat.
Proof. unfold cnt. rewrite filter_app, app_length. cbn. destruct (hit r x); reflexivity. Qed.
Lemma cnt_upd r l v x r0 : lk l v = Some r0 ->
  (cnt r (upd v (fun _ => x) l) + (if Nat.eqb r0 r then 1 else 0) = cnt r l + if hit r x then 1 else 0)%nat.
Proof.
  revert v; induction l as [|y l IH]; intros [|v]; unfold lk; cbn; try discriminate.
  - destruct y as [z|]; [|discriminate]. intros [= ->]. unfold cnt; cbn.
    destruct (Nat.eqb r0 r), (hit r x); cbn; lia.
  - intros H. specialize (IH v H). unfold cnt in *; cbn. destruct (hit r y); cbn; lia.
Qed.
Lemma cnt_pos r l v : lk l v = Some r -> (0 < cnt r l)%nat.
Proof.
  unfold lk, cnt. revert v; induction l as [|y l IH]; intros [|v]; cbn; try discriminate.
  - destruct y; [|discriminate]. intros [= ->]. cbn. rewrite Nat.eqb_refl. cbn; lia.
  - intros H. apply IH in H. destruct (hit r y); cbn; lia.
Qed.
Lemma cnt_zero r l : (0 < cnt r l)%nat -> exists v, lk l v = Some r.
Proof.
  unfold cnt. induction l as [|y l IH]; cbn; [lia|]. destruct (hit r y) eqn:E.
  - intros _. exists 0%nat. unfold lk; cbn. destruct y; [|discriminate]. cbn in E. apply Nat.eqb_eq in E. congruence.
  - intros H. destruct (IH H) as [v Hv]. exists (S v). exact Hv.
Qed.

(* ------------------------------------------------------------ strings *)
Lemma c_safe_strcpy s : c_safe s = true -> cstring_unwrap s = Done s /\ c_strcpy s = Done s.
Proof.
  unfold c_safe, cstring_unwrap, c_strcpy, STRING_BUFFER_SIZE. intros H. apply andb_true_iff in H as [H1 H2].
  apply negb_true_iff in H1. rewrite H1. apply Nat.leb_le in H2.
  rewrite (proj2 (Nat.leb_le _ _)) by lia. auto.
Qed.

Lemma strcpy_iff s : c_strcpy s = Done s <-> (String.length s <= 200)%nat.
Proof.
  unfold c_strcpy, STRING_BUFFER_SIZE. destruct (Nat.leb_spec (String.length s + 1) 201); split; intros; try reflexivity; try lia; discriminate.
Qed.
Lemma strcpy_overrun s : c_strcpy s = Overrun <-> (201 <= String.length s)%nat.
Proof.
  unfold c_strcpy, STRING_BUFFER_SIZE. destruct (Nat.leb_spec (String.length s + 1) 201); split; intros; try reflexivity; try lia; discriminate.
Qed.
Lemma strcpy_total s : c_strcpy s = if (String.length s <=? 200)%nat then Done s else Overrun.
Proof.
  unfold c_strcpy, STRING_BUFFER_SIZE.
  destruct (Nat.leb_spec (String.length s + 1) 201), (Nat.leb_spec (String.length s) 200); try reflexivity; lia.
Qed.

(* ------------------------------------------------------------ colours *)
Lemma hex_digit_value n : (n < 16)%N -> hex_value (hex_digit n) = Some n.
Proof.
  intros H. assert (n = 0 \/ n = 1 \/ n = 2 \/ n = 3 \/ n = 4 \/ n = 5 \/ n = 6 \/ n = 7 \/ n = 8 \/ n = 9 \/ n = 10
    \/ n = 11 \/ n = 12 \/ n = 13 \/ n = 14 \/ n = 15)%N as D by lia.
  repeat (destruct D as [D|D]; [subst; reflexivity|]). subst; reflexivity.
Qed.
Lemma N_of_ascii_lt b : (N_of_ascii b < 256)%N.
Proof. apply N_ascii_bounded. Qed.
Lemma hex_byte_fmt b : exists x y, fmt_02x b = String x (String y EmptyString) /\ hex_byte x y = Some b.
Proof.
  unfold fmt_02x. eexists _, _; split; [reflexivity|]. unfold hex_byte.
  pose proof (N_of_ascii_lt b).
  rewrite !hex_digit_value.
  - f_equal. rewrite <- N.div_mod by lia. apply ascii_N_embedding.
  - apply N.mod_lt; lia.
  - apply N.div_lt_upper_bound; lia.
Qed.
Lemma colour_roundtrip c : r_colour (rgba_to_string c) = Some c.
Proof.
  destruct c as [r g b a]. unfold rgba_to_string. cbn [c_red c_green c_blue c_alpha].
  destruct (hex_byte_fmt r) as (x1 & x2 & E1 & F1), (hex_byte_fmt g) as (x3 & x4 & E2 & F2),
    (hex_byte_fmt b) as (x5 & x6 & E3 & F3), (hex_byte_fmt a) as (x7 & x8 & E4 & F4).
  rewrite E1, E2, E3, E4.
  destruct (N.eqb_spec (N_of_ascii a) 255) as [Ea|Ea]; cbn.
  - rewrite F1, F2, F3. rewrite <- (ascii_N_embedding a), Ea. reflexivity.
  - rewrite F1, F2, F3, F4. reflexivity.
Qed.
Lemma colour_length c :
  String.length (rgba_to_string c) = if (N_of_ascii (c_alpha c) =? 255)%N then 7%nat else 9%nat.
Proof. unfold rgba_to_string. destruct (N_of_ascii (c_alpha c) =? 255)%N; reflexivity. Qed.
Lemma hex_digit_not_nul n : (n < 16)%N -> Ascii.eqb (hex_digit n) zero = false.
Proof.
  intros H. apply hex_digit_value in H. destruct (Ascii.eqb_spec (hex_digit n) zero) as [E|]; [|reflexivity].
  rewrite E in H. discriminate.
Qed.
Lemma fmt_not_nul b s : has_nul (fmt_02x b ++ s) = has_nul s.
Proof.
  unfold fmt_02x. cbn [append has_nul]. pose proof (N_of_ascii_lt b).
  rewrite !hex_digit_not_nul; [reflexivity|apply N.mod_lt; lia|apply N.div_lt_upper_bound; lia].
Qed.
Lemma append_nil_r s : (s ++ "")%string = s.
Proof. induction s; cbn; congruence. Qed.
Lemma colour_safe c : c_safe (rgba_to_string c) = true.
Proof.
  unfold c_safe. rewrite colour_length. apply andb_true_iff; split.
  - apply negb_true_iff. unfold rgba_to_string.
    rewrite <- (append_nil_r (fmt_02x (c_alpha c))), <- (append_nil_r (fmt_02x (c_blue c))) at 1.
    destruct (_ =? 255)%N; cbn [append has_nul Ascii.eqb]; rewrite ?append_nil_r, ?fmt_not_nul.
    + rewrite <- (append_nil_r (fmt_02x (c_blue c))), fmt_not_nul. reflexivity.
    + rewrite <- (append_nil_r (fmt_02x (c_alpha c))), !fmt_not_nul. reflexivity.
  - destruct (_ =? 255)%N; reflexivity.
Qed.

(* ------------------------------------------------------------ setters on a native record *)
Definition safe_vals (g : gvals) : Prop := c_safe (gv_color g) = true /\ c_safe (gv_fill g) = true /\ c_safe (gv_family g) = true.

Lemma set_value_safe g s g' : safe_vals g -> set_value g s = Some g' -> safe_vals g'.
Proof.
  destruct g as [col fill fam b i sz lh ls lw]. intros (H1 & H2 & H3). cbn in H1, H2, H3.
  destruct s; cbn; try destruct (c_safe s) eqn:E; intros [= <-]; repeat split; cbn; auto using colour_safe.
Qed.
Lemma fresh_safe : safe_vals gvals_fresh. Proof. repeat split. Qed.
Lemma native_fresh : native gvals_fresh = CGC "black" "black" (px 12) (px (12#10)) 1 1 (px 1) "".
Proof. unfold native, gvals_fresh; cbn. f_equal. lenq. Qed.

Lemma read_lk h p g : lk h p = Some g -> heap_read h p = Done g.
Proof. unfold lk, heap_read. destruct (nth_error h p) as [[x|]|]; congruence. Qed.
Lemma write_lk h p g g' : lk h p = Some g -> heap_write h p g' = Done (upd p (fun _ => Some g') h).
Proof. unfold lk, heap_write. destruct (nth_error h p) as [[x|]|]; congruence. Qed.

Lemma upd_same {A} (h : list (option A)) p g : lk h p = Some g -> upd p (fun _ => Some g) h = h.
Proof.
  revert p; induction h as [|x h IH]; intros [|p]; unfold lk; cbn; try discriminate.
  - destruct x; congruence.
  - intros H. f_equal. apply IH. exact H.
Qed.

Lemma impl_set_spec h p g s : lk h p = Some (native g) ->
  match set_value g s with
  | Some g' => impl_set h p s = Done (upd p (fun _ => Some (native g')) h)
  | None => impl_set h p s = RustPanic \/ impl_set h p s = Overrun
  end.
Proof.
  intros L. pose proof (read_lk _ _ _ L) as R.
  pose proof (fun g' => write_lk _ _ _ g' L) as W.
  destruct g as [col fill fam b i sz lh ls lw].
  destruct s; cbn [set_value impl_set].
  - destruct (c_safe_strcpy _ (colour_safe c)) as [E1 E2]. rewrite E1; cbn [obind].
    unfold gcontext_set_color. rewrite R; cbn [obind]. rewrite E2; cbn [obind]. rewrite W. reflexivity.
  - destruct (c_safe_strcpy _ (colour_safe c)) as [E1 E2]. rewrite E1; cbn [obind].
    unfold gcontext_set_fill. rewrite R; cbn [obind]. rewrite E2; cbn [obind]. rewrite W. reflexivity.
  - destruct (c_safe s) eqn:S.
    + destruct (c_safe_strcpy _ S) as [E1 E2]. rewrite E1; cbn [obind].
      unfold gcontext_set_fontfamily. rewrite R; cbn [obind]. rewrite E2; cbn [obind]. rewrite W. reflexivity.
    + unfold c_safe in S. unfold cstring_unwrap. destruct (has_nul s); [left; reflexivity|].
      cbn in S. right. cbn [obind]. unfold gcontext_set_fontfamily. rewrite R; cbn [obind].
      rewrite strcpy_total, S. reflexivity.
  - unfold impl_set_fontface, gcontext_set_fontface. rewrite R; cbn [obind]. rewrite W. destruct f; reflexivity.
  - assert (forall x, native (GVals col fill fam b x sz lh ls lw) = native (GVals col fill fam b i sz lh ls lw) ->
      Done h = Done (upd p (fun _ => Some (native (GVals col fill fam b x sz lh ls lw))) h)) as Same.
    { intros x E. rewrite E, upd_same by exact L. reflexivity. }
    unfold impl_set_fontstyle, impl_get_fontface, impl_set_fontface, gcontext_set_fontface.
    destruct s; cbn [is_italic].
    + apply Same. rewrite orb_false_r. reflexivity.
    + rewrite R; cbn [obind native g_fontface]. destruct b, i; cbn; rewrite ?R; cbn [obind]; rewrite ?W; try reflexivity; apply Same; reflexivity.
    + rewrite R; cbn [obind native g_fontface]. destruct b, i; cbn; rewrite ?R; cbn [obind]; rewrite ?W; try reflexivity; apply Same; reflexivity.
  - assert (forall x, native (GVals col fill fam x i sz lh ls lw) = native (GVals col fill fam b i sz lh ls lw) ->
      Done h = Done (upd p (fun _ => Some (native (GVals col fill fam x i sz lh ls lw))) h)) as Same.
    { intros x E. rewrite E, upd_same by exact L. reflexivity. }
    unfold impl_set_fontweight, impl_get_fontface, impl_set_fontface, gcontext_set_fontface.
    destruct w; cbn [is_bold].
    + apply Same. rewrite orb_false_r. reflexivity.
    + rewrite R; cbn [obind native g_fontface]. destruct b, i; cbn; rewrite ?R; cbn [obind]; rewrite ?W; try reflexivity; apply Same; reflexivity.
  - unfold impl_set_fontsize, gcontext_set_fontsize. rewrite R; cbn [obind]. rewrite W. unfold native; cbn.
    replace (ldiv (l * px 72) (px 96)) with (l * px (3#4)); [reflexivity|].
    change (ldiv (l * px 72) (px 96)) with (lmul (l * px 72) (Qcinv (@px Exact 96))).
    replace (Qcinv (@px Exact 96)) with (px (1#96)) by (apply Qc_is_canon; reflexivity). lenq.
  - unfold gcontext_set_linetype. rewrite R; cbn [obind]. rewrite W. destruct s; reflexivity.
  - unfold gcontext_set_linewidth. rewrite R; cbn [obind]. rewrite W. reflexivity.
Qed.

(* ------------------------------------------------------------ ownership invariant *)
Record Inv (w : gworld) (vs : vstore) : Prop := {
  i_len : length (w_vars w) = length vs;
  i_none : forall v, lk (w_vars w) v = None <-> lk vs v = None;
  i_cell : forall v r, lk (w_vars w) v = Some r -> exists c, lk (w_rcs w) r = Some c;
  i_cnt : forall r c, lk (w_rcs w) r = Some c -> rc_strong c = cnt r (w_vars w) /\ (0 < rc_strong c)%nat;
  i_val : forall r c v g, lk (w_rcs w) r = Some c -> lk (w_vars w) v = Some r -> lk vs v = Some g ->
            lk (w_heap w) (rc_ptr c) = Some (native g);
  i_inj : forall r1 r2 c1 c2, lk (w_rcs w) r1 = Some c1 -> lk (w_rcs w) r2 = Some c2 -> rc_ptr c1 = rc_ptr c2 -> r1 = r2;
  i_own : forall p g, lk (w_heap w) p = Some g -> exists r c, lk (w_rcs w) r = Some c /\ rc_ptr c = p;
  i_live : forall r c, lk (w_rcs w) r = Some c -> exists g, lk (w_heap w) (rc_ptr c) = Some g;
  i_safe : forall v g, lk vs v = Some g -> safe_vals g }.

Lemma Inv_init : Inv gworld0 [].
Proof.
  constructor; unfold lk, gworld0; cbn; intros; try (destruct v; discriminate); try (destruct r; discriminate);
    try (destruct p; discriminate); try (destruct v; tauto); try reflexivity; try (destruct r1; discriminate).
Qed.

Ltac eqb_case := match goal with
  | H : context [Nat.eqb ?a ?b] |- _ => destruct (Nat.eqb_spec a b)
  | |- context [Nat.eqb ?a ?b] => destruct (Nat.eqb_spec a b)
  end.

Lemma lk_ge {A} (l : list (option A)) i : (length l <= i)%nat -> lk l i = None.
Proof. intros H. unfold lk. rewrite (proj2 (nth_error_None _ _) H). reflexivity. Qed.
Lemma cnt_fresh w vs r : Inv w vs -> lk (w_rcs w) r = None -> cnt r (w_vars w) = 0%nat.
Proof.
  intros I H. destruct (cnt r (w_vars w)) eqn:E; [reflexivity|].
  destruct (cnt_zero r (w_vars w)) as [v Hv]; [lia|]. destruct (i_cell _ _ I _ _ Hv). congruence.
Qed.

Lemma Inv_alloc w vs g : Inv w vs -> safe_vals g ->
  Inv (GWorld (w_heap w ++ [Some (native g)]) (w_rcs w ++ [Some (RCell 1 (length (w_heap w)))]) (w_vars w ++ [Some (length (w_rcs w))]))
      (vs ++ [Some g]).
Proof.
  intros I Sg. pose proof (i_len _ _ I) as L. constructor; cbn [w_heap w_rcs w_vars].
  - rewrite !app_length, L. reflexivity.
  - intros v. rewrite !lk_app, L. eqb_case; [split; discriminate|]. apply (i_none _ _ I).
  - intros v r. rewrite !lk_app. eqb_case.
    + intros [= <-]. rewrite Nat.eqb_refl. eauto.
    + intros H. destruct (i_cell _ _ I _ _ H) as [c Hc]. eqb_case; eauto.
  - intros r c. rewrite lk_app, cnt_app. cbn [hit]. eqb_case.
    + subst. intros [= <-]. cbn. rewrite Nat.eqb_refl, (cnt_fresh _ _ _ I) by (apply lk_ge; lia). lia.
    + intros H. destruct (Nat.eqb_spec (length (w_rcs w)) r); [lia|]. rewrite Nat.add_0_r. apply (i_cnt _ _ I _ _ H).
  - intros r c v g0. rewrite !lk_app, L. intros Hr Hv Hg.
    destruct (Nat.eqb_spec v (length vs)) as [->|Nv].
    + injection Hv as <-. injection Hg as <-. rewrite Nat.eqb_refl in Hr. injection Hr as <-. cbn. rewrite Nat.eqb_refl. reflexivity.
    + destruct (Nat.eqb_spec r (length (w_rcs w))) as [->|Nr].
      * destruct (i_cell _ _ I _ _ Hv) as [c' Hc']. apply lk_lt in Hc'. lia.
      * pose proof (i_val _ _ I _ _ _ _ Hr Hv Hg) as H. pose proof (lk_lt _ _ _ H). eqb_case; [lia|exact H].
  - intros r1 r2 c1 c2. rewrite !lk_app. repeat eqb_case; intros H1 H2 E; subst; auto.
    + injection H1 as <-. cbn in E. destruct (i_live _ _ I _ _ H2) as [g' Hg']. apply lk_lt in Hg'. lia.
    + injection H2 as <-. cbn in E. destruct (i_live _ _ I _ _ H1) as [g' Hg']. apply lk_lt in Hg'. lia.
    + eapply (i_inj _ _ I); eauto.
  - intros p g0. rewrite lk_app. eqb_case.
    + intros _. exists (length (w_rcs w)), (RCell 1 p). rewrite lk_app, Nat.eqb_refl. subst. auto.
    + intros H. destruct (i_own _ _ I _ _ H) as (r & c & Hr & E). exists r, c. split; [|exact E].
      rewrite lk_app. pose proof (lk_lt _ _ _ Hr). eqb_case; [lia|exact Hr].
  - intros r c. rewrite !lk_app. eqb_case.
    + intros [= <-]. cbn. rewrite Nat.eqb_refl. eauto.
    + intros H. destruct (i_live _ _ I _ _ H) as [g' Hg']. eqb_case; eauto.
  - intros v g0. rewrite lk_app. eqb_case; [intros [= <-]; exact Sg|]. apply (i_safe _ _ I).
Qed.

Lemma Inv_share w vs v r c g : Inv w vs -> lk (w_vars w) v = Some r -> lk (w_rcs w) r = Some c -> lk vs v = Some g ->
  Inv (GWorld (w_heap w) (upd r (fun _ => Some (RCell (S (rc_strong c)) (rc_ptr c))) (w_rcs w)) (w_vars w ++ [Some r])) (vs ++ [Some g]).
Proof.
  intros I Hv Hr Hg. pose proof (i_len _ _ I) as L. constructor; cbn [w_heap w_rcs w_vars].
  - rewrite !app_length, L. reflexivity.
  - intros v'. rewrite !lk_app, L. eqb_case; [split; discriminate|]. apply (i_none _ _ I).
  - intros v' r'. rewrite !lk_app, (lk_upd _ _ _ _ _ Hr). destruct (Nat.eqb_spec r' r) as [->|N]; eauto.
    eqb_case; [congruence|]. apply (i_cell _ _ I).
  - intros r' c'. rewrite (lk_upd _ _ _ _ _ Hr), cnt_app. cbn [hit]. rewrite (Nat.eqb_sym r r'). eqb_case.
    + subst. intros [= <-]. cbn. destruct (i_cnt _ _ I _ _ Hr). lia.
    + rewrite Nat.add_0_r. apply (i_cnt _ _ I).
  - intros r' c' v' g'. rewrite !lk_app, L, (lk_upd _ _ _ _ _ Hr). intros Hr' Hv' Hg'.
    destruct (Nat.eqb_spec v' (length vs)) as [->|Nv].
    + injection Hv' as <-. injection Hg' as <-. rewrite Nat.eqb_refl in Hr'. injection Hr' as <-. cbn.
      eapply (i_val _ _ I); eauto.
    + destruct (Nat.eqb_spec r' r) as [->|Nr].
      * injection Hr' as <-. cbn. eapply (i_val _ _ I); eauto.
      * eapply (i_val _ _ I); eauto.
  - intros r1 r2 c1 c2. rewrite !(lk_upd _ _ _ _ _ Hr). repeat eqb_case; intros H1 H2 E; subst; auto.
    + injection H1 as <-. cbn in E. eapply (i_inj _ _ I); eauto.
    + injection H2 as <-. cbn in E. eapply (i_inj _ _ I); eauto.
    + eapply (i_inj _ _ I); eauto.
  - intros p g0 H. destruct (i_own _ _ I _ _ H) as (r' & c' & Hr' & E).
    destruct (Nat.eq_dec r' r) as [->|N].
    + exists r. eexists. rewrite (lk_upd _ _ _ _ _ Hr), Nat.eqb_refl. split; [reflexivity|]. cbn. congruence.
    + exists r', c'. rewrite (lk_upd _ _ _ _ _ Hr). destruct (Nat.eqb_spec r' r); [lia|auto].
  - intros r' c'. rewrite (lk_upd _ _ _ _ _ Hr). eqb_case.
    + intros [= <-]. cbn. eapply (i_live _ _ I); eauto.
    + apply (i_live _ _ I).
  - intros v' g0. rewrite lk_app. eqb_case; [intros [= <-]; eapply (i_safe _ _ I); eauto|]. apply (i_safe _ _ I).
Qed.

Lemma Inv_drop_last w vs v r c : Inv w vs -> lk (w_vars w) v = Some r -> lk (w_rcs w) r = Some c -> rc_strong c = 1%nat ->
  Inv (GWorld (upd (rc_ptr c) (fun _ => None) (w_heap w)) (upd r (fun _ => None) (w_rcs w)) (upd v (fun _ => None) (w_vars w)))
      (put vs v None).
Proof.
  intros I Hv Hr E1. pose proof (i_len _ _ I) as L.
  destruct (i_live _ _ I _ _ Hr) as [g0 Hp].
  assert (exists gv, lk vs v = Some gv) as [gv Hvs].
  { destruct (lk vs v) eqn:E; [eauto|]. apply (i_none _ _ I) in E. congruence. }
  assert (forall v', lk (w_vars w) v' = Some r -> v' = v) as Only.
  { intros v' Hv'. destruct (Nat.eq_dec v' v); [auto|]. exfalso.
    pose proof (cnt_upd r (w_vars w) v None r Hv) as C. rewrite Nat.eqb_refl in C. cbn in C.
    destruct (i_cnt _ _ I _ _ Hr) as [C1 _]. 
    assert (lk (upd v (fun _ => None) (w_vars w)) v' = Some r) as H.
    { rewrite (lk_upd _ _ _ _ _ Hv). destruct (Nat.eqb_spec v' v); [lia|exact Hv']. }
    apply cnt_pos in H. lia. }
  constructor; cbn [w_heap w_rcs w_vars]; unfold put.
  - rewrite !upd_len. exact L.
  - intros v'. rewrite (lk_upd _ _ _ _ _ Hv), (lk_upd _ _ _ _ _ Hvs). eqb_case; [tauto|]. apply (i_none _ _ I).
  - intros v' r'. rewrite (lk_upd _ _ _ _ _ Hv), (lk_upd _ _ _ _ _ Hr). eqb_case; [discriminate|]. intros H.
    destruct (Nat.eqb_spec r' r) as [->|N]; [exfalso; auto|]. apply (i_cell _ _ I _ _ H).
  - intros r' c'. rewrite (lk_upd _ _ _ _ _ Hr). eqb_case; [discriminate|]. intros H.
    pose proof (cnt_upd r' (w_vars w) v None r Hv) as C. cbn in C.
    destruct (Nat.eqb_spec r r'); [lia|]. destruct (i_cnt _ _ I _ _ H). lia.
  - intros r' c' v' g'. rewrite (lk_upd _ _ _ _ _ Hr), (lk_upd _ _ _ _ _ Hv), (lk_upd _ _ _ _ _ Hvs), (lk_upd _ _ _ _ _ Hp).
    destruct (Nat.eqb_spec r' r); [discriminate|]. destruct (Nat.eqb_spec v' v); [discriminate|].
    intros H1 H2 H3. destruct (Nat.eqb_spec (rc_ptr c') (rc_ptr c)) as [E|_].
    + exfalso. apply n. eapply (i_inj _ _ I); eauto.
    + eapply (i_val _ _ I); eauto.
  - intros r1 r2 c1 c2. rewrite !(lk_upd _ _ _ _ _ Hr). repeat eqb_case; try discriminate. apply (i_inj _ _ I).
  - intros p g'. rewrite (lk_upd _ _ _ _ _ Hp). eqb_case; [discriminate|]. intros H.
    destruct (i_own _ _ I _ _ H) as (r' & c' & Hr' & E). exists r', c'. rewrite (lk_upd _ _ _ _ _ Hr).
    destruct (Nat.eqb_spec r' r) as [->|]; [|auto]. congruence.
  - intros r' c'. rewrite (lk_upd _ _ _ _ _ Hr), (lk_upd _ _ _ _ _ Hp). eqb_case; [discriminate|]. intros H.
    destruct (Nat.eqb_spec (rc_ptr c') (rc_ptr c)) as [E|_]; [exfalso; apply n; eapply (i_inj _ _ I); eauto|].
    apply (i_live _ _ I _ _ H).
  - intros v' g'. rewrite (lk_upd _ _ _ _ _ Hvs). eqb_case; [discriminate|]. apply (i_safe _ _ I).
Qed.

Lemma Inv_drop_shared w vs v r c n : Inv w vs -> lk (w_vars w) v = Some r -> lk (w_rcs w) r = Some c -> rc_strong c = S (S n) ->
  Inv (GWorld (w_heap w) (upd r (fun _ => Some (RCell (S n) (rc_ptr c))) (w_rcs w)) (upd v (fun _ => None) (w_vars w)))
      (put vs v None).
Proof.
  intros I Hv Hr E1. pose proof (i_len _ _ I) as L.
  assert (exists gv, lk vs v = Some gv) as [gv Hvs].
  { destruct (lk vs v) eqn:E; [eauto|]. apply (i_none _ _ I) in E. congruence. }
  constructor; cbn [w_heap w_rcs w_vars]; unfold put.
  - rewrite !upd_len. exact L.
  - intros v'. rewrite (lk_upd _ _ _ _ _ Hv), (lk_upd _ _ _ _ _ Hvs). eqb_case; [tauto|]. apply (i_none _ _ I).
  - intros v' r'. rewrite (lk_upd _ _ _ _ _ Hv), (lk_upd _ _ _ _ _ Hr). eqb_case; [discriminate|]. intros H.
    destruct (Nat.eqb_spec r' r) as [->|N]; [eauto|]. apply (i_cell _ _ I _ _ H).
  - intros r' c'. rewrite (lk_upd _ _ _ _ _ Hr).
    pose proof (cnt_upd r' (w_vars w) v None r Hv) as C. cbn in C. rewrite (Nat.eqb_sym r r') in C. eqb_case.
    + subst. intros [= <-]. cbn. destruct (i_cnt _ _ I _ _ Hr). lia.
    + intros H. destruct (i_cnt _ _ I _ _ H). lia.
  - intros r' c' v' g'. rewrite (lk_upd _ _ _ _ _ Hr), (lk_upd _ _ _ _ _ Hv), (lk_upd _ _ _ _ _ Hvs).
    destruct (Nat.eqb_spec v' v); [discriminate|]. destruct (Nat.eqb_spec r' r) as [->|].
    + intros [= <-]. cbn. intros; eapply (i_val _ _ I); eauto.
    + intros; eapply (i_val _ _ I); eauto.
  - intros r1 r2 c1 c2. rewrite !(lk_upd _ _ _ _ _ Hr). repeat eqb_case; intros H1 H2 E; subst; auto.
    + injection H1 as <-. cbn in E. eapply (i_inj _ _ I); eauto.
    + injection H2 as <-. cbn in E. eapply (i_inj _ _ I); eauto.
    + eapply (i_inj _ _ I); eauto.
  - intros p g0 H. destruct (i_own _ _ I _ _ H) as (r' & c' & Hr' & E).
    destruct (Nat.eq_dec r' r) as [->|N].
    + exists r. eexists. rewrite (lk_upd _ _ _ _ _ Hr), Nat.eqb_refl. split; [reflexivity|]. cbn. congruence.
    + exists r', c'. rewrite (lk_upd _ _ _ _ _ Hr). destruct (Nat.eqb_spec r' r); [lia|auto].
  - intros r' c'. rewrite (lk_upd _ _ _ _ _ Hr). eqb_case.
    + intros [= <-]. cbn. eapply (i_live _ _ I); eauto.
    + apply (i_live _ _ I).
  - intros v' g0. rewrite (lk_upd _ _ _ _ _ Hvs). eqb_case; [discriminate|]. apply (i_safe _ _ I).
Qed.

(** moving variable [v] (dropped) to a fresh private context *)
Lemma Inv_rebind w vs v g r0 : Inv w (put vs v None) -> lk (w_vars w) v = None -> lk vs v = Some r0 -> safe_vals g ->
  Inv (GWorld (w_heap w ++ [Some (native g)]) (w_rcs w ++ [Some (RCell 1 (length (w_heap w)))])
         (upd v (fun _ => Some (length (w_rcs w))) (w_vars w)))
      (put vs v (Some g)).
Proof.
  intros I Hv Hvs Sg. pose proof (i_len _ _ I) as L. unfold put in L. rewrite upd_len in L.
  assert (v < length (w_vars w))%nat as Lv by (rewrite L; eapply lk_lt; eauto).
  assert (forall j, lk (upd v (fun _ => Some (length (w_rcs w))) (w_vars w)) j = if Nat.eqb j v then Some (length (w_rcs w)) else lk (w_vars w) j) as U.
  { intros j. unfold lk. rewrite upd_nth, (Nat.eqb_sym v j). destruct (Nat.eqb_spec j v) as [->|]; [|reflexivity].
    destruct (nth_error (w_vars w) v) eqn:E; [reflexivity|]. apply nth_error_None in E. lia. }
  assert (forall r, cnt r (upd v (fun _ => Some (length (w_rcs w))) (w_vars w)) = (cnt r (w_vars w) + if Nat.eqb (length (w_rcs w)) r then 1 else 0)%nat) as CU.
  { intros r. clear -Hv Lv. unfold cnt. generalize dependent v. generalize (length (w_rcs w)) as x. intros x.
    induction (w_vars w) as [|y l IH]; intros [|v] H Lv; cbn in *; try lia.
    - unfold lk in H; cbn in H. destruct y; [discriminate|]. cbn. destruct (Nat.eqb x r); cbn; lia.
    - rewrite !(fun b (p q : list (option nat)) => match b as b return length (if b then y :: p else p) = ((if b then 1 else 0) + length p)%nat with true => eq_refl | false => eq_refl end).
      specialize (IH v H). destruct (hit r y); cbn; rewrite IH by lia; lia. }
  assert (forall x j, lk (put vs v x) j = if Nat.eqb j v then x else lk vs j) as PU by (intros; apply (lk_upd _ _ _ _ _ Hvs)).
  constructor; cbn [w_heap w_rcs w_vars].
  - unfold put. rewrite !upd_len. exact L.
  - intros v'. rewrite U, PU. eqb_case; [split; discriminate|]. rewrite (i_none _ _ I), PU. eqb_case; [lia|tauto].
  - intros v' r'. rewrite U, lk_app. eqb_case.
    + intros [= <-]. rewrite Nat.eqb_refl. eauto.
    + intros H. destruct (i_cell _ _ I _ _ H) as [c Hc]. eqb_case; eauto.
  - intros r' c'. rewrite lk_app, CU. eqb_case.
    + subst. intros [= <-]. cbn. rewrite Nat.eqb_refl, (cnt_fresh _ _ _ I) by (apply lk_ge; lia). lia.
    + intros H. destruct (Nat.eqb_spec (length (w_rcs w)) r'); [lia|]. rewrite Nat.add_0_r. apply (i_cnt _ _ I _ _ H).
  - intros r c v' g'. rewrite U, PU, !lk_app. intros Hr Hv' Hg'.
    destruct (Nat.eqb_spec v' v) as [->|Nv].
    + injection Hv' as <-. injection Hg' as <-. rewrite Nat.eqb_refl in Hr. injection Hr as <-. cbn. rewrite Nat.eqb_refl. reflexivity.
    + destruct (Nat.eqb_spec r (length (w_rcs w))) as [->|Nr].
      * destruct (i_cell _ _ I _ _ Hv') as [c' Hc']. apply lk_lt in Hc'. lia.
      * assert (lk (w_heap w) (rc_ptr c) = Some (native g')) as H.
        { eapply (i_val _ _ I); eauto. rewrite PU. destruct (Nat.eqb_spec v' v); [lia|exact Hg']. }
        pose proof (lk_lt _ _ _ H). eqb_case; [lia|exact H].
  - intros r1 r2 c1 c2. rewrite !lk_app. repeat eqb_case; intros H1 H2 E; subst; auto.
    + injection H1 as <-. cbn in E. destruct (i_live _ _ I _ _ H2) as [g' Hg']. apply lk_lt in Hg'. lia.
    + injection H2 as <-. cbn in E. destruct (i_live _ _ I _ _ H1) as [g' Hg']. apply lk_lt in Hg'. lia.
    + eapply (i_inj _ _ I); eauto.
  - intros p g0. rewrite lk_app. eqb_case.
    + intros _. exists (length (w_rcs w)), (RCell 1 p). rewrite lk_app, Nat.eqb_refl. subst. auto.
    + intros H. destruct (i_own _ _ I _ _ H) as (r & c & Hr & E). exists r, c. split; [|exact E].
      rewrite lk_app. pose proof (lk_lt _ _ _ Hr). eqb_case; [lia|exact Hr].
  - intros r c. rewrite !lk_app. eqb_case.
    + intros [= <-]. cbn. rewrite Nat.eqb_refl. eauto.
    + intros H. destruct (i_live _ _ I _ _ H) as [g' Hg']. eqb_case; eauto.
  - intros v' g0. rewrite PU. eqb_case; [intros [= <-]; exact Sg|].
    intros H. apply (i_safe _ _ I v'). rewrite PU. eqb_case; [lia|exact H].
Qed.

(** writing through the only variable of a context *)
Lemma Inv_write w vs v r c g g' : Inv w vs -> lk (w_vars w) v = Some r -> lk (w_rcs w) r = Some c -> rc_strong c = 1%nat ->
  lk vs v = Some g -> safe_vals g' ->
  Inv (GWorld (upd (rc_ptr c) (fun _ => Some (native g')) (w_heap w)) (w_rcs w) (w_vars w)) (put vs v (Some g')).
Proof.
  intros I Hv Hr E1 Hvs Sg.
  pose proof (i_val _ _ I _ _ _ _ Hr Hv Hvs) as Hp.
  assert (forall v', lk (w_vars w) v' = Some r -> v' = v) as Only.
  { intros v' Hv'. destruct (Nat.eq_dec v' v); [auto|]. exfalso.
    pose proof (cnt_upd r (w_vars w) v None r Hv) as C. rewrite Nat.eqb_refl in C. cbn in C.
    destruct (i_cnt _ _ I _ _ Hr) as [C1 _].
    assert (lk (upd v (fun _ => None) (w_vars w)) v' = Some r) as H.
    { rewrite (lk_upd _ _ _ _ _ Hv). destruct (Nat.eqb_spec v' v); [lia|exact Hv']. }
    apply cnt_pos in H. lia. }
  constructor; cbn [w_heap w_rcs w_vars]; unfold put.
  - rewrite upd_len. apply (i_len _ _ I).
  - intros v'. rewrite (lk_upd _ _ _ _ _ Hvs). eqb_case; [subst; split; congruence|]. apply (i_none _ _ I).
  - apply (i_cell _ _ I).
  - apply (i_cnt _ _ I).
  - intros r' c' v' g0. rewrite (lk_upd _ _ _ _ _ Hvs), (lk_upd _ _ _ _ _ Hp). intros H1 H2 H3.
    destruct (Nat.eqb_spec v' v) as [->|Nv].
    + injection H3 as <-. assert (r' = r) by congruence. subst. assert (c' = c) by congruence. subst. rewrite Nat.eqb_refl. reflexivity.
    + destruct (Nat.eqb_spec (rc_ptr c') (rc_ptr c)) as [E|].
      * exfalso. apply Nv, Only. rewrite H2. f_equal. eapply (i_inj _ _ I); eauto.
      * eapply (i_val _ _ I); eauto.
  - apply (i_inj _ _ I).
  - intros p g0. rewrite (lk_upd _ _ _ _ _ Hp). eqb_case; [subst; eauto|]. apply (i_own _ _ I).
  - intros r' c' H. rewrite (lk_upd _ _ _ _ _ Hp). eqb_case; [eauto|]. apply (i_live _ _ I _ _ H).
  - intros v' g0. rewrite (lk_upd _ _ _ _ _ Hvs). eqb_case; [intros [= <-]; exact Sg|]. apply (i_safe _ _ I).
Qed.

Lemma var_rc_lk w v : var_rc w v = match lk (w_vars w) v with Some r => Done r | None => IllScoped end.
Proof. unfold var_rc, lk. destruct (nth_error (w_vars w) v) as [[r|]|]; reflexivity. Qed.
Lemma rc_get_lk w r : rc_get w r = match lk (w_rcs w) r with Some c => Done c | None => Dangling end.
Proof. unfold rc_get, lk. destruct (nth_error (w_rcs w) r) as [[c|]|]; reflexivity. Qed.
Lemma delete_lk h p g : lk h p = Some g -> gcontext_delete h p = Done (upd p (fun _ => None) h).
Proof. unfold gcontext_delete, lk. destruct (nth_error h p) as [[c|]|]; congruence. Qed.
Lemma clone_native h p g : lk h p = Some (native g) -> safe_vals g ->
  gcontext_clone h p = Done (length h, h ++ [Some (native g)]).
Proof.
  intros H (S1 & S2 & S3). unfold gcontext_clone. rewrite (read_lk _ _ _ H). cbn [obind native g_color g_fill g_fontfamily].
  rewrite (proj2 (c_safe_strcpy _ S1)), (proj2 (c_safe_strcpy _ S2)), (proj2 (c_safe_strcpy _ S3)). reflexivity.
Qed.
Lemma upd_twice {A} i (x y : A) l : upd i (fun _ => x) (upd i (fun _ => y) l) = upd i (fun _ => x) l.
Proof. revert i; induction l; intros [|i]; cbn; f_equal; auto. Qed.
Lemma put_put vs v x y : put (put vs v x) v y = put vs v y.
Proof. apply upd_twice. Qed.

(** looking a variable up *)
Lemma Inv_lookup w vs v : Inv w vs ->
  (lk vs v = None /\ lk (w_vars w) v = None) \/
  exists r c g, lk vs v = Some g /\ lk (w_vars w) v = Some r /\ lk (w_rcs w) r = Some c /\
    lk (w_heap w) (rc_ptr c) = Some (native g) /\ safe_vals g.
Proof.
  intros I. destruct (lk vs v) as [g|] eqn:E.
  - right. destruct (lk (w_vars w) v) as [r|] eqn:Ev; [|apply (i_none _ _ I) in Ev; congruence].
    destruct (i_cell _ _ I _ _ Ev) as [c Hc]. exists r, c, g. repeat split; auto.
    + eapply (i_val _ _ I); eauto.
    + eapply (i_safe _ _ I); eauto.
    + eapply (i_safe _ _ I); eauto.
    + eapply (i_safe _ _ I); eauto.
  - left. split; [reflexivity|]. apply (i_none _ _ I). exact E.
Qed.

Lemma Inv_view w vs v : Inv w vs ->
  gc_view w v = match value_of vs v with Some g => Done (native g) | None => IllScoped end.
Proof.
  intros I. rewrite value_lk. unfold gc_view. rewrite var_rc_lk.
  destruct (Inv_lookup w vs v I) as [[E1 E2]|(r & c & g & E1 & E2 & E3 & E4 & _)]; rewrite E1, E2; cbn [obind]; [reflexivity|].
  rewrite rc_get_lk, E3; cbn [obind]. apply read_lk. exact E4.
Qed.

Lemma rc_release_last w r c g : lk (w_rcs w) r = Some c -> rc_strong c = 1%nat -> lk (w_heap w) (rc_ptr c) = Some g ->
  rc_release w r = Done (GWorld (upd (rc_ptr c) (fun _ => None) (w_heap w)) (upd r (fun _ => None) (w_rcs w)) (w_vars w)).
Proof. intros H1 H2 H3. unfold rc_release. rewrite rc_get_lk, H1; cbn [obind]. rewrite H2, (delete_lk _ _ _ H3). reflexivity. Qed.
Lemma rc_release_shared w r c n : lk (w_rcs w) r = Some c -> rc_strong c = S (S n) ->
  rc_release w r = Done (GWorld (w_heap w) (upd r (fun _ => Some (RCell (S n) (rc_ptr c))) (w_rcs w)) (w_vars w)).
Proof. intros H1 H2. unfold rc_release. rewrite rc_get_lk, H1; cbn [obind]. rewrite H2. reflexivity. Qed.

Lemma make_mut_ok w vs v g : Inv w vs -> lk vs v = Some g ->
  exists p w1 r c, gc_make_mut w v = Done (p, w1) /\ Inv w1 vs /\ lk (w_vars w1) v = Some r /\ lk (w_rcs w1) r = Some c /\
    rc_strong c = 1%nat /\ rc_ptr c = p.
Proof.
  intros I Hg. destruct (Inv_lookup w vs v I) as [[E1 _]|(r & c & g' & E1 & E2 & E3 & E4 & Sg)]; [congruence|].
  assert (g' = g) by congruence; subst g'.
  unfold gc_make_mut. rewrite var_rc_lk, E2; cbn [obind]. rewrite rc_get_lk, E3; cbn [obind].
  destruct (Nat.eqb_spec (rc_strong c) 1) as [E|N].
  - exists (rc_ptr c), w, r, c. auto 10.
  - destruct (i_cnt _ _ I _ _ E3) as [_ Pos]. destruct (rc_strong c) as [|[|n]] eqn:Es; try lia.
    rewrite (clone_native _ _ _ E4 Sg); cbn [obind].
    rewrite (rc_release_shared (GWorld _ (w_rcs w) _) r c n E3 Es). cbn [obind w_heap w_rcs w_vars].
    pose proof (Inv_drop_shared w vs v r c n I E2 E3 Es) as I1.
    pose proof (Inv_rebind _ vs v g g I1) as I2. cbn [w_heap w_rcs w_vars] in I2.
    rewrite (lk_upd _ _ _ _ _ E2), Nat.eqb_refl in I2. specialize (I2 eq_refl Hg Sg). rewrite upd_twice in I2.
    rewrite upd_len in *. unfold put in I2. rewrite (upd_same vs v g Hg) in I2.
    eexists _, _, (length (w_rcs w)), _. split; [reflexivity|]. split; [exact I2|]. cbn [w_heap w_rcs w_vars].
    split; [rewrite (lk_upd _ _ _ _ _ E2), Nat.eqb_refl; reflexivity|].
    split; [rewrite lk_app, upd_len, Nat.eqb_refl; reflexivity|]. cbn. auto.
Qed.

Lemma gc_step_ok w vs o : Inv w vs ->
  match value_step vs o with
  | Some vs' => exists w', gc_step w o = Done w' /\ Inv w' vs'
  | None => gc_step w o = IllScoped \/ gc_step w o = RustPanic \/ gc_step w o = Overrun
  end.
Proof.
  intros I. destruct o as [|v|v|v s|v]; cbn [value_step gc_step]; rewrite ?value_lk.
  - eexists; split; [reflexivity|]. rewrite <- native_fresh. apply Inv_alloc; [exact I|apply fresh_safe].
  - unfold gc_new_from. rewrite var_rc_lk.
    destruct (Inv_lookup w vs v I) as [[E1 E2]|(r & c & g & E1 & E2 & E3 & E4 & Sg)]; rewrite E1, E2; cbn [obind]; [auto|].
    rewrite rc_get_lk, E3; cbn [obind]. rewrite (clone_native _ _ _ E4 Sg); cbn [obind].
    eexists; split; [reflexivity|]. apply Inv_alloc; assumption.
  - unfold gc_clone. rewrite var_rc_lk.
    destruct (Inv_lookup w vs v I) as [[E1 E2]|(r & c & g & E1 & E2 & E3 & E4 & Sg)]; rewrite E1, E2; cbn [obind]; [auto|].
    rewrite rc_get_lk, E3; cbn [obind].
    eexists; split; [reflexivity|]. eapply Inv_share; eassumption.
  - unfold gc_set.
    destruct (lk vs v) as [g|] eqn:E1.
    + destruct (make_mut_ok w vs v g I E1) as (p & w1 & r & c & M & I1 & H1 & H2 & H3 & H4).
      rewrite M; cbn [obind]. pose proof (i_val _ _ I1 _ _ _ _ H2 H1 E1) as H5. rewrite H4 in H5.
      pose proof (impl_set_spec _ _ _ s H5) as Sp. destruct (set_value g s) as [g'|] eqn:Sv.
      * rewrite Sp; cbn [obind]. eexists; split; [reflexivity|]. rewrite <- H4.
        eapply Inv_write; try eassumption. eapply set_value_safe; [|exact Sv]. eapply (i_safe _ _ I); eauto.
      * destruct Sp as [-> | ->]; auto.
    + left. unfold gc_make_mut. rewrite var_rc_lk, (proj2 (i_none _ _ I v) E1). reflexivity.
  - unfold gc_drop. rewrite var_rc_lk.
    destruct (Inv_lookup w vs v I) as [[E1 E2]|(r & c & g & E1 & E2 & E3 & E4 & Sg)]; rewrite E1, E2; cbn [obind]; [auto|].
    destruct (i_cnt _ _ I _ _ E3) as [_ Pos]. destruct (rc_strong c) as [|[|n]] eqn:Es; [lia| |].
    + rewrite (rc_release_last _ _ _ _ E3 Es E4); cbn [obind w_heap w_rcs w_vars].
      eexists; split; [reflexivity|]. apply Inv_drop_last; assumption.
    + rewrite (rc_release_shared _ _ _ n E3 Es); cbn [obind w_heap w_rcs w_vars].
      eexists; split; [reflexivity|]. apply Inv_drop_shared; assumption.
Qed.

Lemma gc_run_ok os : forall w vs, Inv w vs ->
  match value_run vs os with
  | Some vs' => exists w', gc_run w os = Done w' /\ Inv w' vs'
  | None => gc_run w os = IllScoped \/ gc_run w os = RustPanic \/ gc_run w os = Overrun
  end.
Proof.
  induction os as [|o os IH]; intros w vs I; cbn [value_run gc_run]; [eauto|].
  pose proof (gc_step_ok w vs o I) as H. destruct (value_step vs o) as [vs'|].
  - destruct H as (w' & -> & I'); cbn [obind]. apply IH. exact I'.
  - destruct H as [-> | [-> | ->]]; cbn [obind]; auto.
Qed.

Lemma gc_run_inv os w : gc_run gworld0 os = Done w -> exists vs, value_run [] os = Some vs /\ Inv w vs.
Proof.
  intros H. pose proof (gc_run_ok os gworld0 [] Inv_init) as G. destruct (value_run [] os) as [vs|].
  - destruct G as (w' & E & I). exists vs. split; [reflexivity|]. congruence.
  - destruct G as [E|[E|E]]; congruence.
Qed.

(* ---- statements used by the property file ---- *)
Lemma gc_value_semantics os vs : value_run [] os = Some vs ->
  exists w, gc_run gworld0 os = Done w /\
    forall v, gc_view w v = match value_of vs v with Some g => Done (native g) | None => IllScoped end.
Proof.
  intros H. pose proof (gc_run_ok os gworld0 [] Inv_init) as G. rewrite H in G.
  destruct G as (w & E & I). exists w. split; [exact E|]. intros v. apply Inv_view. exact I.
Qed.
Lemma gc_never_dangling os : gc_run gworld0 os <> Dangling /\ gc_run gworld0 os <> OutOfRange.
Proof.
  pose proof (gc_run_ok os gworld0 [] Inv_init) as G. destruct (value_run [] os) as [vs|].
  - destruct G as (w' & -> & I). split; discriminate.
  - destruct G as [-> | [-> | ->]]; split; discriminate.
Qed.
Lemma live_pos {A} (l : list (option A)) : (0 < live l)%nat <-> exists i x, lk l i = Some x.
Proof.
  unfold live. induction l as [|[a|] l IH]; cbn.
  - split; [lia|]. intros (i & x & H). destruct i; discriminate.
  - split; [|lia]. intros _. exists 0%nat, a. reflexivity.
  - rewrite IH. split; intros (i & x & H).
    + exists (S i), x. exact H.
    + destruct i; [discriminate|]. exists i, x. exact H.
Qed.
Lemma Inv_no_leak w vs : Inv w vs -> forall p g, lk (w_heap w) p = Some g -> exists v r c, lk (w_vars w) v = Some r /\ lk (w_rcs w) r = Some c /\ rc_ptr c = p.
Proof.
  intros I p g H. destruct (i_own _ _ I _ _ H) as (r & c & Hr & E).
  destruct (i_cnt _ _ I _ _ Hr) as [C Pos]. destruct (cnt_zero r (w_vars w)) as [v Hv]; [lia|]. eauto 10.
Qed.

(** injective relation bounds a count: live contexts <= live variables *)
Fixpoint live_list {A} (l : list (option A)) (i : nat) : list nat :=
  match l with [] => [] | Some _ :: l' => i :: live_list l' (S i) | None :: l' => live_list l' (S i) end.
Lemma live_list_len {A} (l : list (option A)) i : length (live_list l i) = live l.
Proof. revert i; induction l as [|[a|] l IH]; intros i; cbn; try rewrite IH; reflexivity. Qed.
Lemma live_list_in {A} (l : list (option A)) : forall i p, In p (live_list l i) <-> (i <= p)%nat /\ exists x, lk l (p - i) = Some x.
Proof.
  induction l as [|[a|] l IH]; intros i p; cbn.
  - split; [tauto|]. intros [_ [x H]]. destruct (p - i)%nat; discriminate.
  - rewrite IH. split.
    + intros [<- | [H [x Hx]]]; [split; [lia|]; rewrite Nat.sub_diag; exists a; reflexivity|].
      split; [lia|]. exists x. replace (p - i)%nat with (S (p - S i)) by lia. exact Hx.
    + intros [H [x Hx]]. destruct (Nat.eq_dec i p); [left; auto|]. right. split; [lia|]. exists x.
      replace (p - i)%nat with (S (p - S i)) in Hx by lia. exact Hx.
  - rewrite IH. split.
    + intros [H [x Hx]]. split; [lia|]. exists x. replace (p - i)%nat with (S (p - S i)) by lia. exact Hx.
    + intros [H [x Hx]]. destruct (Nat.eq_dec i p); [subst; rewrite Nat.sub_diag in Hx; discriminate|]. split; [lia|]. exists x.
      replace (p - i)%nat with (S (p - S i)) in Hx by lia. exact Hx.
Qed.
Lemma live_list_nodup {A} (l : list (option A)) : forall i, NoDup (live_list l i).
Proof.
  induction l as [|[a|] l IH]; intros i; cbn; [constructor| |apply IH].
  constructor; [|apply IH]. rewrite live_list_in. lia.
Qed.
Lemma Inv_live_bound w vs : Inv w vs -> (live (w_heap w) <= live (w_vars w))%nat.
Proof.
  intros I. rewrite <- (live_list_len (w_heap w) 0), <- (live_list_len (w_vars w) 0).
  set (ptr := fun v => match lk (w_vars w) v with Some r => match lk (w_rcs w) r with Some c => rc_ptr c | None => 0%nat end | None => 0%nat end).
  rewrite <- (map_length ptr (live_list (w_vars w) 0)).
  apply NoDup_incl_length; [apply live_list_nodup|]. intros p Hp. apply live_list_in in Hp as [_ [g Hg]]. rewrite Nat.sub_0_r in Hg.
  destruct (Inv_no_leak _ _ I _ _ Hg) as (v & r & c & Hv & Hr & E). apply in_map_iff. exists v. split.
  - unfold ptr. rewrite Hv, Hr. exact E.
  - apply live_list_in. split; [lia|]. exists r. rewrite Nat.sub_0_r. exact Hv.
Qed.
Lemma gc_no_leak os w : gc_run gworld0 os = Done w ->
  (live (w_heap w) <= live (w_vars w))%nat /\ ((0 < live (w_vars w))%nat -> (0 < live (w_heap w))%nat).
Proof.
  intros H. destruct (gc_run_inv _ _ H) as (vs & _ & I). split; [eapply Inv_live_bound; eauto|].
  rewrite !live_pos. intros (v & r & Hv). destruct (i_cell _ _ I _ _ Hv) as [c Hc].
  destruct (i_live _ _ I _ _ Hc) as [g Hg]. eauto.
Qed.

Lemma set_family_outcome w vs v s : Inv w vs -> value_of vs v <> None ->
  gc_set w v (SetFontFamily s) =
    (if has_nul s then RustPanic else if (String.length s <=? 200)%nat then gc_set w v (SetFontFamily s) else Overrun)
  /\ (c_safe s = true -> exists w', gc_set w v (SetFontFamily s) = Done w').
Proof.
  intros I Hv. rewrite value_lk in Hv. destruct (lk vs v) as [g|] eqn:E1; [|congruence].
  destruct (make_mut_ok w vs v g I E1) as (p & w1 & r & c & M & I1 & H1 & H2 & H3 & H4).
  pose proof (i_val _ _ I1 _ _ _ _ H2 H1 E1) as H5. rewrite H4 in H5.
  unfold gc_set. rewrite M; cbn [obind]. cbn [impl_set]. unfold cstring_unwrap. split.
  - destruct (has_nul s) eqn:N; [reflexivity|]. cbn [obind]. unfold gcontext_set_fontfamily.
    rewrite (read_lk _ _ _ H5); cbn [obind]. rewrite strcpy_total.
    destruct (String.length s <=? 200)%nat; reflexivity.
  - intros S. pose proof (impl_set_spec _ _ _ (SetFontFamily s) H5) as Sp.
    destruct g; cbn [set_value] in Sp. rewrite S in Sp. cbn [impl_set] in Sp. unfold cstring_unwrap in Sp. rewrite Sp. cbn [obind]. eauto.
Qed.
