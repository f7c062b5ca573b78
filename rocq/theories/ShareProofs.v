(** Proofs about shared styles. *)
From Verif Require Import Base Len StyleModel ShareModel ShareSpec.
From Coq Require Import Permutation.
Local Open Scope list_scope.
Local Open Scope result_scope.

Lemma same_refl : forall s, same s s.
Proof. now split. Qed.
Lemma same_set : forall a b l v, same a b -> same (set_sv a l v) (set_sv b l v).
Proof.
  intros a b l v [H D]. split; [|exact D]. intros l'. cbn. now destruct (longhand_eq_dec l l').
Qed.

(* ---------------- memory *)
Notation count := (count_occ Nat.eq_dec).
(** [Inv h ps]: the counts in [h] are those of the pointers [ps], and no pointer is wild *)
Definition Inv (h : heap) (ps : list nat) : Prop :=
  (forall a x, nth_error h a = Some x -> rc x = count ps a) /\ (forall a, In a ps -> (a < length h)%nat).

Lemma inv_perm : forall h ps qs, Permutation ps qs -> Inv h ps -> Inv h qs.
Proof.
  intros h ps qs P [H B]. split.
  - intros a x E. rewrite (H a x E). now apply Permutation_count_occ.
  - intros a Ha. apply B. eapply Permutation_in; [symmetry; exact P | exact Ha].
Qed.
Lemma inv_deref : forall h ps a, Inv h ps -> In a ps -> exists x, nth_error h a = Some x /\ deref h a = Ok x /\ rc x = count ps a.
Proof.
  intros h ps a [H B] Ha. destruct (nth_error h a) as [x|] eqn:E.
  - exists x. split; [reflexivity |]. pose proof (H a x E) as Hc. unfold deref. rewrite E.
    apply (count_occ_In Nat.eq_dec) in Ha. destruct x as [[|n] f]; cbn in *; [lia | auto].
  - apply nth_error_None in E. specialize (B a Ha). lia.
Qed.
Lemma nth_set : forall h a b c, nth_error (set_cell h a c) b =
  if Nat.eqb a b then match nth_error h b with Some _ => Some c | None => None end else nth_error h b.
Proof.
  induction h as [|x h IH]; intros [|a] [|b] c; cbn; try reflexivity.
  - now destruct (Nat.eqb a b).
  - apply IH.
Qed.
Lemma set_length : forall h a c, length (set_cell h a c) = length h.
Proof. induction h as [|x h IH]; intros [|a] c; cbn; auto. Qed.
Lemma deref_nth : forall h a x, deref h a = Ok x -> nth_error h a = Some x.
Proof. intros h a x E. unfold deref in E. destruct (nth_error h a) as [[[|n] f]|]; inversion E; reflexivity. Qed.
Lemma deref_of : forall h a x, nth_error h a = Some x -> rc x <> O -> deref h a = Ok x.
Proof. intros h a [[|n] f] E R; unfold deref; rewrite E; [now cbn in R | reflexivity]. Qed.

(** contents seen through an address *)
Definition at_ (h : heap) (a : nat) : option fields := option_map contents (nth_error h a).

Lemma clone_ok : forall h ps a, Inv h ps -> In a ps -> exists h', arc_clone h a = Ok h' /\ Inv h' (a :: ps) /\
  (forall b, at_ h' b = at_ h b).
Proof.
  intros h ps a HI Ha. destruct (inv_deref h ps a HI Ha) as (x & En & Ed & Er). unfold arc_clone. rewrite Ed. cbn [bind].
  eexists. split; [reflexivity |]. destruct HI as [H B]. split; [split|].
  - intros b y. rewrite nth_set. destruct (Nat.eqb_spec a b) as [<- | Hab].
    + rewrite En. intros [= <-]. cbn [rc]. rewrite count_occ_cons_eq by reflexivity. now rewrite Er.
    + intros E. rewrite count_occ_cons_neq by assumption. now apply H.
  - rewrite set_length. intros b [<- | Hb]; [|now apply B]. now apply B.
  - intros b. unfold at_. rewrite nth_set. destruct (Nat.eqb_spec a b) as [<- | Hab]; [|reflexivity]. now rewrite En.
Qed.
Lemma drop_ok : forall h ps a, Inv h (a :: ps) -> exists h', arc_drop h a = Ok h' /\ Inv h' ps /\
  (forall b, at_ h' b = at_ h b) /\ length h' = length h.
Proof.
  intros h ps a HI. destruct (inv_deref h (a :: ps) a HI (or_introl eq_refl)) as (x & En & Ed & Er).
  unfold arc_drop. rewrite Ed. cbn [bind].
  eexists. split; [reflexivity |]. destruct HI as [H B]. split; [split|split].
  - intros b y. rewrite nth_set. destruct (Nat.eqb_spec a b) as [<- | Hab].
    + rewrite En. intros [= <-]. cbn [rc]. rewrite Er. rewrite count_occ_cons_eq by reflexivity. lia.
    + intros E. rewrite (H b y E). now rewrite count_occ_cons_neq by assumption.
  - rewrite set_length. intros b Hb. apply B. now right.
  - intros b. unfold at_. rewrite nth_set. destruct (Nat.eqb_spec a b) as [<- | Hab]; [|reflexivity]. now rewrite En.
  - apply set_length.
Qed.
Lemma look_at : forall h ps c, Inv h ps -> incl (pointers_of c) ps -> forall l,
  at_ h (ptr c (group_of l)) = Some (match nth_error h (ptr c (group_of l)) with Some x => contents x | None => initial_value end) /\
  look h c l = match at_ h (ptr c (group_of l)) with Some f => f l | None => initial_value l end.
Proof.
  intros h ps c HI Hc l. assert (Hin : In (ptr c (group_of l)) ps)
    by (apply Hc; unfold pointers_of; apply in_map; destruct l; cbn; tauto).
  destruct (inv_deref h ps _ HI Hin) as (x & En & Ed & _). unfold look, at_. rewrite En, Ed. now cbn.
Qed.
(** reading depends only on the contents seen through the pointers *)
Lemma look_same : forall h ps c h' ps' c', Inv h ps -> incl (pointers_of c) ps -> Inv h' ps' -> incl (pointers_of c') ps' ->
  (forall l, at_ h (ptr c (group_of l)) = at_ h' (ptr c' (group_of l))) -> forall l, look h c l = look h' c' l.
Proof.
  intros h ps c h' ps' c' HI Hc HI' Hc' H l.
  rewrite (proj2 (look_at h ps c HI Hc l)), (proj2 (look_at h' ps' c' HI' Hc' l)). now rewrite H.
Qed.

Lemma group_of_all : forall g, In g all_groups.
Proof. destruct g; cbn; tauto. Qed.

(** pointers of a style with one of them replaced *)
Lemma replace_out : forall p n g gs, ~ In g gs -> map (fun g' => if group_eq_dec g g' then n else p g') gs = (map p gs : list nat).
Proof.
  intros p n g gs. induction gs as [|x gs IH]; intros Hn; [reflexivity |]. cbn [map]. destruct (group_eq_dec g x) as [<-|Hx].
  - exfalso. apply Hn. now left.
  - f_equal. apply IH. intros H. apply Hn. now right.
Qed.
Lemma replace_in : forall p n g gs, NoDup gs -> In g gs ->
  Permutation (p g :: map (fun g' => if group_eq_dec g g' then n else p g') gs) ((n :: map p gs) : list nat).
Proof.
  intros p n g gs. induction gs as [|x gs IH]; intros Hd Hi; [easy |]. inversion Hd as [|? ? Hx Hd']; subst. cbn [map].
  destruct (group_eq_dec g x) as [->|Hne].
  - rewrite replace_out by assumption. apply perm_swap.
  - destruct Hi as [->|Hi]; [congruence |]. etransitivity; [apply perm_swap |]. etransitivity; [|apply perm_swap].
    constructor. now apply IH.
Qed.
Lemma all_groups_nodup : NoDup all_groups.
Proof. repeat constructor; cbn; intuition discriminate. Qed.
Lemma pointers_replace : forall c g n d,
  Permutation (ptr c g :: pointers_of (CV (fun g' => if group_eq_dec g g' then n else ptr c g') d)) (n :: pointers_of c).
Proof. intros. apply replace_in; [apply all_groups_nodup | apply group_of_all]. Qed.

Lemma at_app : forall h x a, (a < length h)%nat -> at_ (h ++ [x]) a = at_ h a.
Proof. intros h x a Ha. unfold at_. now rewrite nth_error_app1. Qed.

(** after make_mut the style is the only one with a pointer to its struct; nothing else can tell *)
Lemma make_mut_ok : forall h ps c g, Inv h (pointers_of c ++ ps) -> exists h' c', make_mut h c g = Ok (h', c') /\
  Inv h' (pointers_of c' ++ ps) /\ count (pointers_of c' ++ ps) (ptr c' g) = 1%nat /\ cv_display c' = cv_display c /\
  (forall a, In a ps -> at_ h' a = at_ h a) /\ (forall g', at_ h' (ptr c' g') = at_ h (ptr c g')).
Proof.
  intros h ps c g HI. assert (Hin : In (ptr c g) (pointers_of c ++ ps))
    by (apply in_or_app; left; apply in_map, group_of_all).
  destruct (inv_deref _ _ _ HI Hin) as (x & En & Ed & Er). unfold make_mut. rewrite Ed. cbn [bind].
  destruct (Nat.eqb_spec (rc x) 1) as [E1|E1].
  - exists h, c. rewrite <- Er. auto 10.
  - set (c' := CV (fun g' => if group_eq_dec g g' then length h else ptr c g') (cv_display c)).
    pose proof (pointers_replace c g (length h) (cv_display c)) as P. fold c' in P.
    destruct (in_split _ _ (in_map (ptr c) _ _ (group_of_all g))) as (l1 & l2 & El). fold (pointers_of c) in El.
    assert (P0 : Permutation (pointers_of c ++ ps) (ptr c g :: l1 ++ l2 ++ ps)).
    { rewrite El, <- app_assoc. symmetry. apply Permutation_middle. }
    destruct (drop_ok _ _ _ (inv_perm _ _ _ P0 HI)) as (h' & Eh & [H' B'] & Hat & Hlen). rewrite Eh. cbn [bind].
    exists (h' ++ [Cell 1 (contents x)]), c'. split; [reflexivity |].
    assert (P1 : Permutation (pointers_of c' ++ ps) (length h :: l1 ++ l2 ++ ps)).
    { apply (Permutation_cons_inv (a := ptr c g)). rewrite app_comm_cons, P. cbn [app]. rewrite perm_swap. constructor. exact P0. }
    assert (Hlt : forall a, In a (pointers_of c ++ ps) -> (a < length h)%nat) by apply HI.
    assert (Hfresh : ~ In (length h) (l1 ++ l2 ++ ps)).
    { intros Hf. assert (In (length h) (pointers_of c ++ ps)) as Hf' by (rewrite P0; now right). specialize (Hlt _ Hf'). lia. }
    split; [|split; [|split; [|split]]].
    + apply (inv_perm _ (length h :: l1 ++ l2 ++ ps)); [now symmetry |]. split.
      * intros a y E. destruct (Nat.lt_ge_cases a (length h')) as [Ha|Ha].
        -- rewrite nth_error_app1 in E by assumption. rewrite (H' a y E). rewrite count_occ_cons_neq by lia. reflexivity.
        -- rewrite nth_error_app2 in E by assumption. destruct (a - length h')%nat as [|k] eqn:Ek; [|now destruct k].
           cbn in E. injection E as <-. cbn [rc]. assert (a = length h) as -> by lia.
           rewrite count_occ_cons_eq by reflexivity. apply (count_occ_not_In Nat.eq_dec) in Hfresh. now rewrite Hfresh.
      * rewrite app_length, Hlen. cbn [length]. intros a [<- | Ha]; [lia |].
        specialize (Hlt a ltac:(rewrite P0; now right)). lia.
    + rewrite (proj1 (Permutation_count_occ Nat.eq_dec _ _) P1). unfold c' at 1. cbn [ptr].
      destruct (group_eq_dec g g) as [_|]; [|congruence]. rewrite count_occ_cons_eq by reflexivity.
      apply (count_occ_not_In Nat.eq_dec) in Hfresh. now rewrite Hfresh.
    + reflexivity.
    + intros a Ha. rewrite at_app; [apply Hat |]. rewrite Hlen. apply Hlt. apply in_or_app. now right.
    + intros g'. unfold c'. cbn [ptr]. destruct (group_eq_dec g g') as [<-|Hg].
      * unfold at_ at 1. rewrite nth_error_app2 by lia. rewrite Hlen, Nat.sub_diag. cbn. unfold at_. now rewrite En.
      * rewrite at_app; [apply Hat |]. rewrite Hlen. apply Hlt. apply in_or_app. left. apply in_map, group_of_all.
Qed.

Lemma incl_l : forall (a b : list nat), incl a (a ++ b).
Proof. intros a b x Hx. apply in_or_app. now left. Qed.

(** writing a property of a style under construction *)
Lemma write_ok : forall h ps c l v, Inv h (pointers_of c ++ ps) -> exists h' c', write (h, c) l v = Ok (h', c') /\
  Inv h' (pointers_of c' ++ ps) /\ (forall a, In a ps -> at_ h' a = at_ h a) /\
  same (view h' c') (set_sv (view h c) l v).
Proof.
  intros h ps c l v HI. unfold write.
  destruct (make_mut_ok h ps c (group_of l) HI) as (h1 & c1 & Em & HI1 & Hone & Hd & Hps & Hown). rewrite Em. cbn [bind].
  set (a := ptr c1 (group_of l)) in *.
  assert (Hin : In a (pointers_of c1 ++ ps)) by (apply in_or_app; left; apply in_map, group_of_all).
  destruct (inv_deref _ _ _ HI1 Hin) as (x & En & Ed & Er). rewrite Ed. cbn [bind].
  eexists _, c1. split; [reflexivity |].
  set (h2 := set_cell h1 a (Cell (rc x) (set_field (contents x) l v))).
  assert (HI2 : Inv h2 (pointers_of c1 ++ ps)).
  { destruct HI1 as [H B]. split.
    - intros b y. unfold h2. rewrite nth_set. destruct (Nat.eqb_spec a b) as [<-|Hab]; [|apply H].
      rewrite En. intros [= <-]. cbn [rc]. now apply H.
    - unfold h2. rewrite set_length. exact B. }
  assert (Hother : forall b, b <> a -> at_ h2 b = at_ h1 b).
  { intros b Hb. unfold at_, h2. rewrite nth_set. destruct (Nat.eqb_spec a b); [congruence | reflexivity]. }
  assert (Hsole_ps : ~ In a ps).
  { intros Ha. rewrite count_occ_app in Hone. apply (count_occ_In Nat.eq_dec) in Ha.
    assert (In a (pointers_of c1)) as Hc by (apply in_map, group_of_all). apply (count_occ_In Nat.eq_dec) in Hc. lia. }
  assert (Hsole_g : forall g, g <> group_of l -> ptr c1 g <> a).
  { intros g Hg Ha. rewrite count_occ_app in Hone. assert (2 <= count (pointers_of c1) a)%nat; [|lia].
    clear - Hg Ha. unfold pointers_of. generalize (group_of_all g), (group_of_all (group_of l)), all_groups_nodup.
    generalize all_groups. intros gs H1 H2 Hn.
    destruct (in_split _ _ H1) as (l1 & l2 & ->). rewrite map_app, count_occ_app. cbn [map]. rewrite (count_occ_cons_eq _ _ Ha).
    assert (In (group_of l) (l1 ++ l2)) as H3 by (apply in_app_or in H2; apply in_or_app; destruct H2 as [|[|]]; auto; congruence).
    assert (1 <= count (map (ptr c1) (l1 ++ l2)) a)%nat as H4.
    { apply (count_occ_In Nat.eq_dec). unfold a. apply (in_map (ptr c1)). exact H3. }
    rewrite map_app, count_occ_app in H4. lia. }
  split; [exact HI2 |]. split.
  - intros b Hb. rewrite Hother by congruence. now apply Hps.
  - split; [|exact Hd]. intros l'. cbn [view sv set_sv].
    rewrite (proj2 (look_at h2 _ c1 HI2 (incl_l _ _) l')). rewrite (proj2 (look_at h _ c HI (incl_l _ _) l')).
    rewrite <- Hown. destruct (group_eq_dec (group_of l') (group_of l)) as [Eg|Eg].
    + rewrite Eg. fold a. unfold at_, h2. rewrite nth_set, Nat.eqb_refl, En. reflexivity.
    + destruct (longhand_eq_dec l l') as [e|Hl]; [congruence |]. now rewrite Hother by (now apply Hsole_g).
Qed.

(* ---------------- the cascade *)
Lemma same_trans : forall a b c, same a b -> same b c -> same a c.
Proof. intros a b c [H D] [H' D']. split; [intros l; now rewrite H | now rewrite D]. Qed.
Lemma early_proper : forall a b l v, same a b -> early_value a l v = early_value b l v.
Proof. intros a b l v [H _]. destruct l; try reflexivity. cbn. unfold font_size_early. destruct v; [reflexivity |]. now rewrite H. Qed.
Lemma late_proper : forall a b fs l v, same a b -> late_value a fs l v = late_value b fs l v.
Proof. intros a b fs l v [H _]. destruct l; try reflexivity. cbn. unfold rgba_from. destruct v; [reflexivity |]. now rewrite H. Qed.
Lemma group_inherited_of : forall l, group_inherited (group_of l) = is_inherited l.
Proof. now destruct l. Qed.

Section Step.
(** pointers held by the live styles, among them those of the style inherited from *)
Variable ps : list nat.
Variable inherited : cv.
Hypothesis Hinh : incl (pointers_of inherited) ps.
Variable parent : style.
(** the state of a style under construction, and the private style it stands for *)
Definition sim (h0 : heap) (hc : heap * cv) (s : style) : Prop :=
  Inv (fst hc) (pointers_of (snd hc) ++ ps) /\ (forall a, In a ps -> at_ (fst hc) a = at_ h0 a) /\ same (view (fst hc) (snd hc)) s.
Variable h0 : heap.
Hypothesis H0 : Inv h0 ps.
Hypothesis Hparent : same (view h0 inherited) parent.

Lemma sim_parent : forall hc s, sim h0 hc s -> same (view (fst hc) inherited) parent.
Proof.
  intros [h c] s (HI & Hat & _). cbn [fst snd] in *. eapply same_trans; [|exact Hparent]. split; [|reflexivity]. intros l. cbn [view sv].
  apply (look_same h (pointers_of c ++ ps) inherited h0 ps inherited); try assumption.
  - intros a Ha. apply in_or_app. right. now apply Hinh.
  - intros l'. apply Hat. apply Hinh. apply in_map, group_of_all.
Qed.
Lemma write_sim : forall hc s l v, sim h0 hc s -> exists hc', write hc l v = Ok hc' /\ sim h0 hc' (set_sv s l v).
Proof.
  intros [h c] s l v (HI & Hat & Hs). cbn [fst snd] in *.
  destruct (write_ok h ps c l v HI) as (h' & c' & E & HI' & Hat' & Hs'). exists (h', c'). split; [exact E |].
  split; [exact HI' |]. split; cbn [fst snd].
  - intros a Ha. rewrite Hat' by assumption. now apply Hat.
  - eapply same_trans; [exact Hs' |]. now apply same_set.
Qed.
Lemma wide_sim : forall hc s l k, sim h0 hc s -> exists hc', share_wide inherited l k hc = Ok hc' /\ sim h0 hc' (cascade_wide l k s parent).
Proof.
  intros hc s l k Hs. unfold share_wide, cascade_wide. rewrite group_inherited_of.
  replace (look (fst hc) inherited l) with (sv parent l) by (symmetry; apply (proj1 (sim_parent hc s Hs) l)).
  now apply write_sim.
Qed.
Lemma decl_sim : forall p hc s d, sim h0 hc s -> exists hc', share_decl inherited p hc d = Ok hc' /\ sim h0 hc' (ph_cascade p parent s d).
Proof.
  intros p hc s d Hs. pose proof (sim_parent hc s Hs) as Hp.
  destruct p, d as [l v | l k]; cbn [share_decl ph_cascade early_cascade_into late_cascade_into].
  - rewrite (early_proper _ parent l v Hp). destruct (early_value parent l v); [now apply write_sim | eauto].
  - destruct (is_early l); [now apply wide_sim | eauto].
  - replace (look (fst hc) (snd hc) Lfont_size) with (sv s Lfont_size)
      by (symmetry; apply (proj1 (proj2 (proj2 Hs)) Lfont_size)).
    rewrite (late_proper _ parent _ l v Hp). destruct (late_value parent _ l v); [now apply write_sim | eauto].
  - destruct (negb (is_early l)); [now apply wide_sim | eauto].
Qed.
Lemma fold_sim : forall {B} (f : heap * cv -> B -> result (heap * cv)) (f' : style -> B -> style),
  (forall hc s x, sim h0 hc s -> exists hc', f hc x = Ok hc' /\ sim h0 hc' (f' s x)) ->
  forall l hc s, sim h0 hc s -> exists hc', fold_res f l hc = Ok hc' /\ sim h0 hc' (fold_left f' l s).
Proof.
  intros B f f' Hf l. induction l as [|x l IH]; intros hc s Hs; cbn [fold_res fold_left]; [eauto |].
  destruct (Hf hc s x Hs) as (hc' & E & Hs'). rewrite E. cbn [bind]. now apply IH.
Qed.
Lemma block_sim : forall p i hc s b, sim h0 hc s -> exists hc', share_block inherited p i hc b = Ok hc' /\
  sim h0 hc' ((if i then cascade_important else cascade_normal) p parent s b).
Proof.
  intros p i hc s b Hs. unfold share_block.
  replace ((if i then cascade_important else cascade_normal) p parent s b)
    with (block_cascade p parent i (if i then b_any_important b else b_any_normal b) b s) by now destruct i.
  unfold block_cascade. destruct (ph_select p _); [|eauto].
  apply fold_sim; [|exact Hs]. intros hc1 s1 x Hs1. destruct (Bool.eqb (snd x) i); [now apply decl_sim | eauto].
Qed.
Lemma matching_sim : forall p m hc s, sim h0 hc s -> exists hc', share_matching inherited p m hc = Ok hc' /\
  sim h0 hc' (matching_cascade p parent m s).
Proof.
  intros p m hc s Hs. unfold share_matching, matching_cascade.
  destruct (fold_sim _ _ (fun hc s b => block_sim p false hc s b) (m_ua m) hc s Hs) as (hc1 & E1 & Hs1). rewrite E1. cbn [bind].
  destruct (fold_sim _ _ (fun hc s b => block_sim p false hc s b) (m_author m) _ _ Hs1) as (hc2 & E2 & Hs2). rewrite E2. cbn [bind].
  destruct (fold_sim _ _ (fun hc s b => block_sim p true hc s b) (m_author m) _ _ Hs2) as (hc3 & E3 & Hs3). rewrite E3. cbn [bind].
  exact (fold_sim _ _ (fun hc s b => block_sim p true hc s b) (m_ua m) _ _ Hs3).
Qed.
Lemma sim_look : forall hc s l, sim h0 hc s -> look (fst hc) (snd hc) l = sv s l.
Proof. intros hc s l (_ & _ & H & _). apply H. Qed.
Lemma sim_same : forall hc s s', sim h0 hc s -> same s s' -> sim h0 hc s'.
Proof. intros hc s s' (A & B & C) H. split; [exact A |]. split; [exact B |]. eapply same_trans; eauto. Qed.
Lemma fixups_sim : forall hc s, sim h0 hc s -> exists hc', share_fixups hc = Ok hc' /\ sim h0 hc' (post_cascade_fixups s).
Proof.
  intros hc s Hs. unfold share_fixups, post_cascade_fixups. cbv zeta.
  rewrite !(sim_look hc s _ Hs). edestruct (write_sim hc s) as (h1 & E1 & S1); [exact Hs | rewrite E1; cbn [bind]]. clear E1.
  set (s1 := set_sv s _ _) in *. clearbody s1. clear s hc Hs.
  rewrite !(sim_look h1 s1 _ S1). edestruct (write_sim h1 s1) as (h2 & E1 & S2); [exact S1 | rewrite E1; cbn [bind]]. clear E1.
  set (s2 := set_sv s1 _ _) in *. clearbody s2. clear s1 h1 S1.
  rewrite !(sim_look h2 s2 _ S2). edestruct (write_sim h2 s2) as (h3 & E1 & S3); [exact S2 | rewrite E1; cbn [bind]]. clear E1.
  set (s3 := set_sv s2 _ _) in *. clearbody s3. clear s2 h2 S2.
  rewrite !(sim_look h3 s3 _ S3). edestruct (write_sim h3 s3) as (h4 & E1 & S4); [exact S3 | rewrite E1; cbn [bind]]. clear E1.
  set (s4 := set_sv s3 _ _) in *. clearbody s4. clear s3 h3 S3.
  destruct h4 as [h c]. pose proof (fun l => sim_look _ _ l S4) as L. cbn [fst snd] in L.
  assert (L' : forall l, look h (CV (ptr c) (look h c Ldisplay)) l = sv s4 l) by exact L.
  assert (S5 : sim h0 (h, CV (ptr c) (look h c Ldisplay)) (Style (sv s4) (sv s4 Ldisplay))).
  { destruct S4 as (A & B & C & _). split; [exact A |]. split; [exact B |]. split; [exact C |]. cbn. exact (L Ldisplay). }
  unfold display_fixup. rewrite !L', !L in *.
  destruct (is_absolutely_positioned (sv s4 Lposition) || is_floating (sv s4 Lfloat)); [|eauto].
  destruct (display_eq_dec (blockify (sv s4 Ldisplay)) (sv s4 Ldisplay)) as [E|E].
  - eexists. split; [reflexivity |]. eapply sim_same; [exact S5 |]. split; [|reflexivity]. intros l. cbn [sv set_sv].
    destruct (longhand_eq_dec Ldisplay l) as [<-|]; [|reflexivity]. cbn. now symmetry.
  - now apply write_sim.
Qed.
End Step.

(* ---------------- making and dropping a style *)
Lemma clones_ok : forall (sel : group -> nat) gs h ps, Inv h ps -> (forall g, In (sel g) ps) ->
  exists h', fold_res (fun h g => arc_clone h (sel g)) gs h = Ok h' /\ Inv h' (map sel gs ++ ps) /\ (forall b, at_ h' b = at_ h b).
Proof.
  intros sel gs. induction gs as [|g gs IH]; intros h ps HI Hin; cbn [fold_res map app]; [eauto |].
  destruct (clone_ok h ps (sel g) HI (Hin g)) as (h1 & E1 & HI1 & A1). rewrite E1. cbn [bind].
  destruct (IH h1 (sel g :: ps) HI1 (fun g => or_intror (Hin g))) as (h2 & E2 & HI2 & A2). exists h2. split; [exact E2 |].
  split; [|intros b; now rewrite A2].
  eapply inv_perm; [|exact HI2]. symmetry. apply Permutation_middle.
Qed.
Lemma new_ok : forall h ps initial inherited m parent, Inv h ps -> incl (pointers_of initial) ps ->
  (forall i, inherited = Some i -> incl (pointers_of i) ps) ->
  same (view h initial) initial_style ->
  match inherited, parent with Some i, Some p => same (view h i) p | None, None => True | _, _ => False end ->
  exists h' c', share_new h initial inherited m = Ok (h', c') /\ Inv h' (pointers_of c' ++ ps) /\
    (forall a, In a ps -> at_ h' a = at_ h a) /\ same (view h' c') (style_new parent m).
Proof.
  intros h ps initial inherited m parent HI Hini Hinh Sini Spar. unfold share_new, style_new.
  set (i := match inherited with Some c => c | None => initial end).
  set (p := match parent with Some s => s | None => initial_style end).
  assert (Hi : incl (pointers_of i) ps) by (unfold i; destruct inherited; auto).
  assert (Si : same (view h i) p) by (unfold i, p; destruct inherited, parent; try easy).
  set (select := fun g => if group_inherited g then ptr i g else ptr initial g).
  assert (Hsel : forall g, In (select g) ps).
  { intros g. unfold select. destruct (group_inherited g); [apply Hi | apply Hini]; apply in_map, group_of_all. }
  destruct (clones_ok select all_groups h ps HI Hsel) as (h1 & E1 & HI1 & A1). cbv zeta.
  assert (E1' : fold_res (fun h g => arc_clone h (if group_inherited g then ptr i g else ptr initial g)) all_groups h = Ok h1)
    by exact E1.
  rewrite E1'. cbn [bind]. change (fun g => if group_inherited g then ptr i g else ptr initial g) with select.
  set (s0 := Style (fun l => if is_inherited l then sv p l else initial_value l) display_initial).
  assert (S0 : sim ps h (h1, CV select display_initial) s0).
  { split; [exact HI1 |]. split; [intros a _; apply A1 |]. split; [|reflexivity]. intros l. cbn [view sv fst snd s0].
    rewrite (proj2 (look_at h1 _ (CV select display_initial) HI1 (incl_l _ _) l)). rewrite A1. cbn [ptr]. unfold select.
    rewrite group_inherited_of. destruct (is_inherited l).
    - rewrite <- (proj2 (look_at h ps i HI Hi l)). apply (proj1 Si l).
    - rewrite <- (proj2 (look_at h ps initial HI Hini l)). apply (proj1 Sini l). }
  assert (exists hc, match m with
      | Some m => do hc <- share_matching i Early m (h1, CV select display_initial); share_matching i Late m hc
      | None => Ok (h1, CV select display_initial) end = Ok hc /\
      sim ps h hc match m with Some m => matching_cascade Late p m (matching_cascade Early p m s0) | None => s0 end)
    as (hc & Ec & Sc).
  { destruct m as [m|]; [|eauto]. destruct (matching_sim ps i Hi p h HI Si Early m _ _ S0) as (hc1 & Ec1 & Sc1).
    rewrite Ec1. cbn [bind]. exact (matching_sim ps i Hi p h HI Si Late m _ _ Sc1). }
  rewrite Ec. cbn [bind]. destruct (fixups_sim ps h hc _ Sc) as ([h' c'] & Ef & HI' & A' & S'). exists h', c'. auto.
Qed.
Lemma drops_ok : forall (sel : group -> nat) gs h ps, Inv h (map sel gs ++ ps) ->
  exists h', fold_res (fun h g => arc_drop h (sel g)) gs h = Ok h' /\ Inv h' ps /\ (forall b, at_ h' b = at_ h b).
Proof.
  intros sel gs. induction gs as [|g gs IH]; intros h ps HI; cbn [fold_res map app] in *; [eauto |].
  destruct (drop_ok h _ (sel g) HI) as (h1 & E1 & HI1 & A1 & _). rewrite E1. cbn [bind].
  destruct (IH h1 ps HI1) as (h2 & E2 & HI2 & A2). exists h2. split; [exact E2 |]. split; [exact HI2 | intros b; now rewrite A2].
Qed.

(* ---------------- whole histories *)
Definition Rel (w : world) (v : list (option style)) : Prop :=
  Inv (w_heap w) (pointers (w_styles w)) /\
  (exists i0, nth_error (w_styles w) 0 = Some (Some i0) /\ same (view (w_heap w) i0) initial_style) /\
  length v = length (w_styles w) /\
  forall i, match nth_error (w_styles w) i, nth_error v i with
            | Some (Some c), Some (Some s) => same (view (w_heap w) c) s
            | Some None, Some None | None, None => True
            | _, _ => False
            end.
Lemma pointers_incl : forall ss i c, nth_error ss i = Some (Some c) -> incl (pointers_of c) (pointers ss).
Proof.
  intros ss i c E a Ha. apply in_flat_map. exists (Some c). split; [|exact Ha]. eapply nth_error_In. exact E.
Qed.
Lemma pointers_app : forall ss c, Permutation (pointers (ss ++ [Some c])) (pointers_of c ++ pointers ss).
Proof.
  intros ss c. unfold pointers. rewrite flat_map_app. cbn [flat_map]. rewrite app_nil_r. apply Permutation_app_comm.
Qed.
Lemma pointers_forget : forall ss i c, nth_error ss i = Some (Some c) ->
  Permutation (pointers ss) (pointers_of c ++ pointers (forget ss i)).
Proof.
  induction ss as [|x ss IH]; intros [|i] c E; cbn [nth_error] in E; try discriminate.
  - injection E as ->. reflexivity.
  - cbn [forget]. unfold pointers in *. cbn [flat_map]. rewrite (IH i c E), !app_assoc. apply Permutation_app_tail, Permutation_app_comm.
Qed.
Lemma nth_forget : forall {A} (l : list (option A)) i j, nth_error (forget l i) j =
  if Nat.eqb i j then match nth_error l j with Some _ => Some None | None => None end else nth_error l j.
Proof. intros A l. induction l as [|x l IH]; intros [|i] [|j]; cbn; try reflexivity; [now destruct (Nat.eqb i j) | apply IH]. Qed.
Lemma forget_length : forall {A} (l : list (option A)) i, length (forget l i) = length l.
Proof. intros A l. induction l as [|x l IH]; intros [|i]; cbn; auto. Qed.
Lemma view_kept : forall h ps h' ps' c, Inv h ps -> Inv h' ps' -> incl (pointers_of c) ps -> incl (pointers_of c) ps' ->
  (forall a, In a ps -> In a ps' -> at_ h' a = at_ h a) -> forall s, same (view h c) s -> same (view h' c) s.
Proof.
  intros h ps h' ps' c HI HI' Hc Hc' A s S. eapply same_trans; [|exact S]. split; [|reflexivity]. intros l. cbn [view sv].
  apply (look_same h' ps' c h ps c); try assumption. intros l'. apply A; [apply Hc | apply Hc']; apply in_map, group_of_all.
Qed.

Lemma op_ok : forall w v o, Rel w v -> exists w', world_op w o = Ok w' /\ Rel w' (private_op v o).
Proof.
  intros w v o HR. pose proof HR as (HI & (i0 & E0 & S0) & Hlen & Hall).
  assert (Hnew : forall inherited m parent,
    (forall i, inherited = Some i -> incl (pointers_of i) (pointers (w_styles w))) ->
    match inherited, parent with Some i, Some p => same (view (w_heap w) i) p | None, None => True | _, _ => False end ->
    exists w', (do (h, c) <- share_new (w_heap w) i0 inherited m; Ok (World h (w_styles w ++ [Some c]))) = Ok w' /\
      Rel w' (v ++ [Some (style_new parent m)])).
  { intros inherited m parent Hi Hp.
    destruct (new_ok (w_heap w) (pointers (w_styles w)) i0 inherited m parent HI (pointers_incl _ _ _ E0) Hi S0 Hp)
      as (h' & c' & E & HI' & A & S'). rewrite E. cbn [bind]. eexists. split; [reflexivity |].
    assert (HI2 : Inv h' (pointers (w_styles w ++ [Some c']))).
    { eapply inv_perm; [symmetry; apply pointers_app | exact HI']. }
    assert (K : forall i c s, nth_error (w_styles w) i = Some (Some c) -> same (view (w_heap w) c) s -> same (view h' c) s).
    { intros i c s En. apply (view_kept _ (pointers (w_styles w)) _ (pointers_of c' ++ pointers (w_styles w))); try assumption.
      - now apply (pointers_incl _ i).
      - intros a Ha. apply in_or_app. right. now apply (pointers_incl _ i _ En).
      - intros a Ha _. now apply A. }
    split; [exact HI2 |]. cbn [w_heap w_styles]. split; [|split].
    - exists i0. split; [|now apply (K O)]. rewrite nth_error_app1; [exact E0 |]. apply nth_error_Some. congruence.
    - rewrite !app_length. cbn. now rewrite Hlen.
    - intros i. destruct (Nat.lt_trichotomy i (length v)) as [Hlt|[->|Hgt]].
      + rewrite !nth_error_app1 by lia. specialize (Hall i). specialize (K i).
        destruct (nth_error (w_styles w) i) as [[c|]|], (nth_error v i) as [[s|]|]; auto.
      + rewrite nth_error_app2, nth_error_app2 by lia. rewrite Hlen, Nat.sub_diag. cbn. exact S'.
      + rewrite !(proj2 (nth_error_None _ _)) by (rewrite app_length; cbn; lia). exact I. }
  destruct o as [[i|] m | i]; cbn [world_op private_op].
  - rewrite E0. specialize (Hall i). destruct (nth_error (w_styles w) i) as [[c|]|] eqn:Ei, (nth_error v i) as [[s|]|] eqn:Ev; try easy;
      cbn [option_map].
    + apply (Hnew (Some c) m (Some s)); [|exact Hall]. intros j [= <-]. now apply (pointers_incl _ i).
    + now exists w.
    + now exists w.
  - rewrite E0. apply (Hnew None m None); easy.
  - destruct i as [|i]; [now exists w |].
    pose proof (Hall (S i)) as Hi. destruct (nth_error (w_styles w) (S i)) as [[c|]|] eqn:Ei, (nth_error v (S i)) as [[s|]|] eqn:Ev; try easy.
    + assert (P := pointers_forget _ _ _ Ei). pose proof (inv_perm _ _ _ P HI) as HI1.
      destruct (drops_ok (ptr c) all_groups _ _ HI1) as (h' & E & HI2 & A). unfold share_drop. rewrite E. cbn [bind].
      eexists. split; [reflexivity |].
      assert (K : forall j c' s', nth_error (w_styles w) j = Some (Some c') -> nth_error (forget (w_styles w) (S i)) j = Some (Some c') ->
        same (view (w_heap w) c') s' -> same (view h' c') s').
      { intros j c' s' En En'. apply (view_kept _ (pointers (w_styles w)) _ (pointers (forget (w_styles w) (S i)))); try assumption.
        - now apply (pointers_incl _ j).
        - now apply (pointers_incl _ j).
        - intros a _ _. apply A. }
      split; [exact HI2 |]. cbn [w_heap w_styles]. split; [|split].
      * exists i0. assert (En : nth_error (forget (w_styles w) (S i)) 0 = Some (Some i0)) by (rewrite nth_forget; exact E0).
        split; [exact En |]. now apply (K O).
      * now rewrite !forget_length.
      * intros j. specialize (Hall j). specialize (K j). rewrite !nth_forget in *. destruct (Nat.eqb_spec (S i) j) as [<-|Hj].
        -- now rewrite Ei, Ev.
        -- destruct (nth_error (w_styles w) j) as [[c'|]|], (nth_error v j) as [[s'|]|]; auto.
    + exists w. split; [reflexivity |]. replace (forget v (S i)) with v; [exact HR |].
      clear - Ev. revert v Ev. generalize (S i) as n. intros n v. revert n.
      induction v as [|x v IH]; intros [|n] E; cbn in *; try congruence. now rewrite <- (IH n E).
    + exists w. split; [reflexivity |]. replace (forget v (S i)) with v; [exact HR |].
      clear - Ev. revert v Ev. generalize (S i) as n. intros n v. revert n.
      induction v as [|x v IH]; intros [|n] E; cbn in *; try congruence. now rewrite <- (IH n E).
Qed.
Lemma rel0 : Rel world0 [Some initial_style].
Proof.
  split; [|split; [|split]].
  - split; [|cbn; intros a Ha; repeat (destruct Ha as [<-|Ha]; [lia|]); easy].
    intros a x. do 10 (destruct a as [|a]; [cbn; now intros [= <-] |]). cbn. now destruct a.
  - eexists. split; [reflexivity |]. split; [|reflexivity]. now intros [].
  - reflexivity.
  - intros [|i]; cbn; [|now destruct i]. split; [|reflexivity]. now intros [].
Qed.
Lemma run_ok : forall os w v, Rel w v -> exists w', world_run w os = Ok w' /\ Rel w' (private_run v os).
Proof.
  induction os as [|o os IH]; intros w v HR; [now exists w |]. cbn [world_run fold_res private_run fold_left].
  destruct (op_ok w v o HR) as (w' & E & HR'). rewrite E. cbn [bind]. now apply IH.
Qed.
