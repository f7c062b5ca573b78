(** Proofs about unset_boxes_in_subtree. *)
From Verif Require Import Base Len DomModel DomSpec DomProofs UnsetModel.

Section Any.
Context {ar : Arith}.

Lemma find_sibling_next fuel d n cur s c : find_sibling fuel d n cur = Ok (s, c) ->
  exists m, nth_error (nodes d) c = Some m /\ n_next m = Some s.
Proof.
  revert cur. induction fuel as [|fuel IH]; cbn; intros cur H; [discriminate|].
  unfold getn in H. destruct (nth_error (nodes d) cur) as [m|] eqn:E; [|discriminate]. cbn in H.
  destruct (n_next m) eqn:En.
  - injection H as -> ->. exists m. auto.
  - destruct (n_parent n); [|discriminate]. exact (IH _ H).
Qed.
Lemma unset_returns fuel d base : forall c id c', unset_from fuel d base c id = Ok c' ->
  exists m s, nth_error (nodes d) base = Some m /\ n_next m = Some s.
Proof.
  induction fuel as [|fuel IH]; cbn; intros c id c' H; [discriminate|].
  unfold getn in H. destruct (nth_error (nodes d) id) as [n|]; [|discriminate]. cbn in H.
  assert (K : forall c0, bind (find_sibling fuel d n id) (fun '(next, cur) =>
              if Nat.eqb cur base then Ok c0 else unset_from fuel d base c0 next) = Ok c' ->
            exists m s, nth_error (nodes d) base = Some m /\ n_next m = Some s).
  { intros c0 H0. destruct (find_sibling fuel d n id) as [[s cur]| |] eqn:E; [|discriminate..]. cbn in H0.
    destruct (Nat.eqb cur base) eqn:Eb; [|exact (IH _ _ _ H0)].
    apply Nat.eqb_eq in Eb. subst cur. destruct (find_sibling_next _ _ _ _ _ _ E) as (m & A & B). eauto. }
  destruct (n_data n); try exact (K _ H).
  destruct (c id); [discriminate| |exact (K _ H)]. destruct (n_first n); [exact (IH _ _ _ H)|exact (K _ H)].
Qed.

(** A document in which no box has been made: every search goes on. *)
Lemma find_sibling_parent d n fuel cur : links_consistent d -> n_parent n <> None ->
  (forall m, nth_error (nodes d) cur = Some m -> n_parent m = n_parent n \/ n_parent n = Some cur) ->
  (exists m, nth_error (nodes d) cur = Some m) ->
  (forall p, n_parent n = Some p -> exists m, nth_error (nodes d) p = Some m) ->
  match find_sibling fuel d n cur with
  | Ok (s, _) => exists m, nth_error (nodes d) s = Some m /\ n_parent m <> None
  | Panic => False
  | OutOfFuel => True
  end.
Proof.
  intros L Hp Hc (m & Hm) Hpar. revert cur m Hm Hc. induction fuel as [|fuel IH]; cbn; intros cur m Hm Hc; [exact I|].
  unfold getn. rewrite Hm. cbn. destruct (n_next m) as [s|] eqn:En.
  - destruct (lc_next d L _ _ _ Hm En) as (ms & A & _ & B & C). exists ms. split; [exact A|]. congruence.
  - destruct (n_parent n) as [p|] eqn:Ep; [|contradiction]. destruct (Hpar p eq_refl) as (mp & Hmp).
    apply (IH p mp Hmp). intros m0 _. right. reflexivity.
Qed.
Lemma unset_hangs d base mb : links_consistent d -> nth_error (nodes d) base = Some mb -> n_next mb = None ->
  forall fuel c id m, (forall i, c i = Empty) -> nth_error (nodes d) id = Some m -> n_parent m <> None ->
  unset_from fuel d base c id = OutOfFuel.
Proof.
  intros L Hb Hn. induction fuel as [|fuel IH]; intros c id m Hc Hm Hp; [reflexivity|].
  cbn. unfold getn. rewrite Hm. cbn.
  assert (Hpar : forall p, n_parent m = Some p -> exists q, nth_error (nodes d) p = Some q).
  { intros p Ep. destruct (lc_parent d L _ _ _ Hm Ep) as (q & Hq & _). eauto. }
  assert (K : forall c0, (forall i, c0 i = Empty) ->
            bind (find_sibling fuel d m id) (fun '(next, cur) =>
              if Nat.eqb cur base then Ok c0 else unset_from fuel d base c0 next) = OutOfFuel).
  { intros c0 Hc0.
    pose proof (find_sibling_parent d m fuel id L Hp (fun m0 H0 => or_introl (f_equal n_parent (f_equal (fun o => match o with Some x => x | None => m0 end) (eq_trans (eq_sym H0) Hm)))) (ex_intro _ m Hm) Hpar) as F.
    destruct (find_sibling fuel d m id) as [[s cur]| |] eqn:E; [|contradiction|reflexivity]. cbn.
    destruct F as (ms & Hs & Hps).
    destruct (Nat.eqb cur base) eqn:Eb; [|exact (IH _ _ _ Hc0 Hs Hps)].
    apply Nat.eqb_eq in Eb. subst cur. destruct (find_sibling_next _ _ _ _ _ _ E) as (m1 & A & B). congruence. }
  assert (Hset : forall i, set_cell c id Empty i = Empty).
  { intros i. unfold set_cell. destruct (Nat.eqb i id); [reflexivity|apply Hc]. }
  destruct (n_data m); try (apply K; assumption). rewrite Hc. apply K. exact Hset.
Qed.
Lemma unset_returns_at_once fuel d base c n s : nth_error (nodes d) base = Some n -> n_next n = Some s ->
  c base = Empty -> exists c', unset_boxes_in_subtree (S (S fuel)) d base c = Ok c' /\ forall i, c' i = c i.
Proof.
  intros Hn Hs Hc. unfold unset_boxes_in_subtree. cbn. unfold getn. rewrite Hn. cbn. rewrite Hs. cbn.
  rewrite Nat.eqb_refl.
  assert (E : forall i, set_cell c base Empty i = c i).
  { intros i. unfold set_cell. destruct (Nat.eqb i base) eqn:E; [|reflexivity]. apply Nat.eqb_eq in E. subst. symmetry; exact Hc. }
  destruct (n_data n); try (exists c; split; reflexivity). rewrite Hc. exists (set_cell c base Empty). split; [reflexivity|exact E].
Qed.

(** Position in the child list and next_sibling. *)
Lemma chain_next d o a i rest : chain d o (a ++ i :: rest) ->
  exists n, nth_error (nodes d) i = Some n /\ n_next n = hd_error rest.
Proof.
  revert o. induction a as [|x a IH]; cbn; intros o H; inversion H; subst.
  - exists n. split; [assumption|]. match goal with H : chain _ _ rest |- _ => inversion H; subst end; reflexivity.
  - eapply IH; eassumption.
Qed.
Lemma kids_next d p a i rest : kids d p (a ++ i :: rest) -> exists n, nth_error (nodes d) i = Some n /\ n_next n = hd_error rest.
Proof. intros (n & _ & H). exact (chain_next _ _ _ _ _ H). Qed.
End Any.
