(** Proofs about the arena DOM. *)
From Coq Require Import Relations.
From Verif Require Import Base DomModel DomSpec DomForest DomLists.

(* ------------------------------------------------------------------ *)
(** * Updates of the node list *)
Lemma length_upd {A} i (f : A -> A) l : length (upd i f l) = length l.
Proof. revert i; induction l as [|x l IH]; intros [|i]; cbn; congruence. Qed.
Lemma nth_error_upd {A} i (f : A -> A) l j :
  nth_error (upd i f l) j = if Nat.eqb j i then option_map f (nth_error l j) else nth_error l j.
Proof.
  revert i j; induction l as [|x l IH]; intros [|i] [|j]; cbn; try reflexivity.
  - destruct (Nat.eqb j i); reflexivity.
  - apply IH.
Qed.
Lemma getn_ok d i n : nth_error (nodes d) i = Some n -> getn d i = Ok n.
Proof. unfold getn. intros ->. reflexivity. Qed.
Lemma lt_nth {A} (l : list A) i : i < length l -> exists n, nth_error l i = Some n.
Proof.
  intros H. destruct (nth_error l i) as [n|] eqn:E; [eauto|]. apply nth_error_None in E. lia.
Qed.
Lemma setn_ok d i f : i < length (nodes d) -> setn d i f = Ok (Doc (upd i f (nodes d)) (style_elements d)).
Proof. intros H. unfold setn. destruct (lt_nth _ _ H) as (n & ->). reflexivity. Qed.

(* ------------------------------------------------------------------ *)
(** * The forest *)
Lemma a_parent_Some s k p : a_parent s k = Some p -> child_of s p k.
Proof.
  intros H. apply find_some in H. destruct H as [_ H]. apply existsb_exists in H.
  destruct H as (x & Hx & E). apply Nat.eqb_eq in E. subst x. exact Hx.
Qed.
Lemma a_parent_None s k : AWf s -> a_parent s k = None -> forall p, ~ child_of s p k.
Proof.
  intros Hwf H p Hc. destruct (wf_range _ Hwf _ _ Hc) as [Hl _].
  pose proof (find_none _ _ H p) as Hn. cbn in Hn.
  assert (In p (seq 0 (a_count s))) as Hin by (apply in_seq; destruct Hl; lia).
  specialize (Hn Hin). assert (existsb (Nat.eqb k) (a_children s p) = true) as Ht.
  { apply existsb_exists. exists k. split; [exact Hc|apply Nat.eqb_refl]. }
  congruence.
Qed.
Lemma a_parent_child s p k : AWf s -> child_of s p k -> a_parent s k = Some p.
Proof.
  intros Hwf Hc. destruct (a_parent s k) as [q|] eqn:E.
  - apply a_parent_Some in E. f_equal. eapply wf_parent; eassumption.
  - exfalso. eapply a_parent_None; eassumption.
Qed.

Lemma anc_incl s s' : (forall p k, child_of s' p k -> child_of s p k) -> forall x y, anc s' x y -> anc s x y.
Proof.
  intros H x y Ha. induction Ha as [x y Hxy|x y z _ IH1 _ IH2].
  - apply t_step. apply H. exact Hxy.
  - eapply t_trans; eassumption.
Qed.

Lemma anc_add_edge s s' p c :
  (forall q k, child_of s' q k -> child_of s q k \/ (q = p /\ k = c)) ->
  forall x y, anc s' x y -> anc s x y \/ ((x = p \/ anc s x p) /\ (y = c \/ anc s c y)).
Proof.
  intros H x y Ha. induction Ha as [x y Hxy|x y z _ IH1 _ IH2].
  - destruct (H _ _ Hxy) as [Ho|[-> ->]]; [left; apply t_step; exact Ho|right; auto].
  - destruct IH1 as [O1|[P1 Q1]].
    + destruct IH2 as [O2|[P2 Q2]].
      * left. eapply t_trans; eassumption.
      * right. split; [|exact Q2]. right. destruct P2 as [->|P2]; [exact O1|eapply t_trans; eassumption].
    + destruct IH2 as [O2|[P2 Q2]].
      * right. split; [exact P1|]. right. destruct Q1 as [->|Q1]; [exact O2|eapply t_trans; eassumption].
      * right. auto.
Qed.

Lemma acyclic_add_edge s s' p c :
  (forall q k, child_of s' q k -> child_of s q k \/ (q = p /\ k = c)) ->
  (forall k, ~ anc s k k) -> c <> p -> ~ anc s c p -> forall k, ~ anc s' k k.
Proof.
  intros H Hac Hne Hn k Ha. destruct (anc_add_edge _ _ _ _ H _ _ Ha) as [O|[P Q]].
  - exact (Hac _ O).
  - destruct P as [->|P], Q as [Q|Q].
    + congruence.
    + tauto.
    + subst k. tauto.
    + apply Hn. eapply t_trans; eassumption.
Qed.

Lemma child_of_remove s c p k : child_of (a_remove s c) p k <-> child_of s p k /\ k <> c.
Proof. unfold child_of, a_remove; cbn. apply in_without. Qed.
Lemma child_of_append s p c q k :
  child_of (a_append s p c) q k <-> (child_of s q k /\ k <> c) \/ (q = p /\ k = c).
Proof.
  unfold child_of, a_append; cbn. destruct (Nat.eqb_spec q p) as [->|Hne].
  - rewrite in_app_iff, in_without. cbn. intuition congruence.
  - rewrite in_without. intuition congruence.
Qed.
Lemma child_of_insert s sib c q k : c <> sib ->
  (child_of (a_insert_before s sib c) q k <-> (child_of s q k /\ k <> c) \/ (child_of s q sib /\ k = c)).
Proof.
  intros Hcs. unfold child_of, a_insert_before; cbn.
  destruct (in_dec Nat.eq_dec sib (without c (a_children s q))) as [Hs|Hs].
  - rewrite in_insert_in by exact Hs. rewrite in_without in Hs. rewrite in_without. tauto.
  - rewrite insert_in_notin by exact Hs. rewrite in_without.
    rewrite in_without in Hs. intuition.
Qed.

Lemma wf_remove s c : AWf s -> AWf (a_remove s c).
Proof.
  intros H. constructor; cbn [a_remove with_children a_count a_children a_data a_styles].
  - apply H.
  - intros p k Hc. apply child_of_remove in Hc. exact (wf_range _ H _ _ (proj1 Hc)).
  - intros p. apply NoDup_without. apply H.
  - intros p q k Hp Hq. apply child_of_remove in Hp, Hq. eapply wf_parent; [exact H|apply Hp|apply Hq].
  - intros k Ha. apply (wf_acyclic _ H k). eapply anc_incl; [|exact Ha].
    intros p x Hx. apply child_of_remove in Hx. tauto.
  - apply H.
  - apply H.
Qed.

Lemma wf_append s p c : AWf s -> live s p -> live s c -> c <> document_node_id -> c <> p -> ~ anc s c p ->
  AWf (a_append s p c).
Proof.
  intros H Hp Hc Hc1 Hcp Hanc. unfold document_node_id in Hc1.
  constructor; cbn [a_append with_children a_count a_children a_data a_styles].
  - apply H.
  - intros q k Hk. apply child_of_append in Hk. destruct Hk as [[Hk _]|[-> ->]].
    + exact (wf_range _ H _ _ Hk).
    + split; [exact Hp|]. unfold live in Hc. cbn. lia.
  - intros q. destruct (Nat.eqb_spec q p) as [->|Hne].
    + rewrite <- (app_nil_r (without c (a_children s p) ++ [c])), <- app_assoc.
      cbn. apply (Permutation_NoDup (l := c :: without c (a_children s p))).
      * apply Permutation_cons_append.
      * constructor; [rewrite in_without; tauto|apply NoDup_without; apply H].
    + apply NoDup_without. apply H.
  - intros q1 q2 k H1 H2. apply child_of_append in H1, H2.
    destruct H1 as [[H1 N1]|[-> E1]], H2 as [[H2 N2]|[-> E2]]; try congruence.
    eapply wf_parent; [exact H|exact H1|exact H2].
  - eapply acyclic_add_edge with (p := p) (c := c) (s := s).
    + intros q k Hk. apply child_of_append in Hk. tauto.
    + apply H.
    + exact Hcp.
    + exact Hanc.
  - apply H.
  - apply H.
Qed.

Lemma wf_insert s sib c q : AWf s -> child_of s q sib -> live s c -> c <> document_node_id -> c <> sib ->
  ~ anc s c sib -> AWf (a_insert_before s sib c).
Proof.
  intros H Hq Hc Hc1 Hcs Hanc. unfold document_node_id in Hc1.
  constructor; cbn [a_insert_before with_children a_count a_children a_data a_styles].
  - apply H.
  - intros p k Hk. apply child_of_insert in Hk; [|exact Hcs]. destruct Hk as [[Hk _]|[Hk ->]].
    + exact (wf_range _ H _ _ Hk).
    + split; [exact (proj1 (wf_range _ H _ _ Hk))|]. unfold live in Hc. cbn. lia.
  - intros p. apply NoDup_insert_in; [apply NoDup_without; apply H|]. rewrite in_without. tauto.
  - intros p1 p2 k H1 H2. apply child_of_insert in H1, H2; try exact Hcs.
    destruct H1 as [[H1 N1]|[H1 E1]], H2 as [[H2 N2]|[H2 E2]]; try congruence.
    + eapply wf_parent; [exact H|exact H1|exact H2].
    + eapply wf_parent; [exact H|exact H1|exact H2].
  - eapply acyclic_add_edge with (p := q) (c := c) (s := s).
    + intros p k Hk. apply child_of_insert in Hk; [|exact Hcs].
      destruct Hk as [[Hk _]|[Hk ->]]; [left; exact Hk|right]. split; [|reflexivity].
      eapply wf_parent; [exact H|exact Hk|exact Hq].
    + apply H.
    + intros ->. apply Hanc. apply t_step. exact Hq.
    + intros Ha. apply Hanc. eapply t_trans; [exact Ha|]. apply t_step. exact Hq.
  - apply H.
  - apply H.
Qed.

Lemma child_of_new s dt p k : child_of (a_new s dt) p k <-> child_of s p k.
Proof. reflexivity. Qed.
Lemma anc_new s dt x y : anc (a_new s dt) x y -> anc s x y.
Proof. intros H. exact H. Qed.
Lemma wf_new s dt : AWf s -> AWf (a_new s dt).
Proof.
  intros H. pose proof (wf_count _ H) as Hcount.
  constructor; cbn [a_new a_count a_children a_data a_styles].
  - lia.
  - intros p k Hk. destruct (wf_range _ H _ _ Hk) as [Hl Hr]. unfold live in *. cbn. lia.
  - apply H.
  - apply H.
  - intros k Ha. apply (wf_acyclic _ H k). eapply anc_new. exact Ha.
  - destruct (Nat.eqb_spec document_node_id (a_count s)) as [E|_]; [unfold document_node_id in E; lia|apply H].
  - intros i Hi. destruct (wf_styles _ H _ Hi) as [Hl He]. unfold live in *; cbn. split; [lia|].
    destruct (Nat.eqb_spec i (a_count s)) as [E|_]; [lia|exact He].
Qed.
Lemma wf_set_data s i dt : AWf s -> (i = document_node_id -> dt = DDocument) ->
  ((exists e, a_data s i = DElement e) -> exists e, dt = DElement e) -> AWf (a_set_data s i dt).
Proof.
  intros H H1 H2. constructor; cbn [a_set_data a_count a_children a_data a_styles]; try apply H.
  - destruct (Nat.eqb_spec document_node_id i) as [E|_]; [apply H1; congruence|apply H].
  - intros j Hj. destruct (wf_styles _ H _ Hj) as [Hl He]. split; [exact Hl|].
    destruct (Nat.eqb_spec j i) as [->|_]; [apply H2; exact He|exact He].
Qed.
Lemma wf_add_style s i e : AWf s -> live s i -> a_data s i = DElement e -> AWf (a_add_style s i).
Proof.
  intros H Hl He. constructor; cbn [a_add_style a_count a_children a_data a_styles]; try apply H.
  intros j Hj. apply in_app_iff in Hj. destruct Hj as [Hj|[<-|[]]].
  - apply H. exact Hj.
  - split; [exact Hl|eauto].
Qed.
Lemma wf_init : AWf a_init.
Proof.
  constructor; cbn.
  - lia.
  - intros p k [].
  - constructor.
  - intros p q k [].
  - intros k Ha. induction Ha as [x y []|]; assumption.
  - reflexivity.
  - intros i [].
Qed.

(* ------------------------------------------------------------------ *)
(** * Each primitive refines its forest operation *)
Section Refine.
Context (d : doc) (s : astate) (HR : Rep d s) (HW : AWf s).

Lemma rep_node i : i < a_count s -> exists n, nth_error (nodes d) i = Some n /\ LinksOf s i n.
Proof.
  intros H. rewrite <- (rep_count _ _ HR) in H. destruct (lt_nth _ _ H) as (n & Hn).
  exists n. split; [exact Hn|]. exact (rep_links _ _ HR _ _ Hn).
Qed.
Lemma live_lt i : live s i -> i < length (nodes d).
Proof. rewrite (rep_count _ _ HR). intros [_ H]; exact H. Qed.
Lemma child_lt p k : child_of s p k -> k < length (nodes d) /\ p < length (nodes d).
Proof.
  intros H. destruct (wf_range _ HW _ _ H) as [Hp Hk]. apply live_lt in Hp.
  rewrite (rep_count _ _ HR) in *. lia.
Qed.

(** detach *)
Definition detached (p k : node_id) (L : list nat) (i : nat) (n : node) : node :=
  Node (if Nat.eqb i k then None else n_parent n)
       (if Nat.eqb i k then None else if opt_nat_eqb (prev_of k L) (Some i) then next_of k L else n_next n)
       (if Nat.eqb i k then None else if opt_nat_eqb (next_of k L) (Some i) then prev_of k L else n_prev n)
       (if Nat.eqb i p && is_none (prev_of k L) then next_of k L else n_first n)
       (if Nat.eqb i p && is_none (next_of k L) then prev_of k L else n_last n)
       (n_data n).

Lemma detached_links p k i n : child_of s p k -> LinksOf s i n ->
  LinksOf (a_remove s k) i (detached p k (a_children s p) i n).
Proof.
  intros Hk Hl. pose proof (wf_nodup _ HW p) as Hnd.
  constructor; cbn [detached n_parent n_next n_prev n_first n_last n_data a_remove with_children a_data a_children].
  - apply Hl.
  - destruct (Nat.eqb_spec i p) as [->|Hip]; cbn [andb].
    + rewrite hd_without by exact Hnd. rewrite (lk_first _ _ _ Hl).
      destruct (prev_of k (a_children s p)) as [q|] eqn:Ep; cbn [is_none].
      * destruct (opt_nat_eqb_spec (hd_error (a_children s p)) (Some k)) as [E|_]; [|reflexivity].
        apply prev_None_hd in E; [congruence|exact Hnd|exact Hk].
      * apply prev_None_hd in Ep; [|exact Hnd|exact Hk]. rewrite Ep. cbn. rewrite Nat.eqb_refl. reflexivity.
    + rewrite without_notin; [apply Hl|]. intros Hc. apply Hip. eapply wf_parent; [exact HW|exact Hc|exact Hk].
  - destruct (Nat.eqb_spec i p) as [->|Hip]; cbn [andb].
    + rewrite last_without by exact Hnd. rewrite (lk_last _ _ _ Hl).
      destruct (next_of k (a_children s p)) as [q|] eqn:Ep; cbn [is_none].
      * destruct (opt_nat_eqb_spec (last_error (a_children s p)) (Some k)) as [E|_]; [|reflexivity].
        apply next_None_last in E; [congruence|exact Hnd|exact Hk].
      * apply next_None_last in Ep; [|exact Hnd|exact Hk]. rewrite Ep. cbn. rewrite Nat.eqb_refl. reflexivity.
    + rewrite without_notin; [apply Hl|]. intros Hc. apply Hip. eapply wf_parent; [exact HW|exact Hc|exact Hk].
  - intros q Hq. apply child_of_remove in Hq. destruct Hq as [Hq Hik].
    destruct (Nat.eqb_spec i k) as [E|_]; [congruence|].
    destruct (lk_child _ _ _ Hl _ Hq) as (E1 & E2 & E3). rewrite E1, E2, E3.
    split; [reflexivity|].
    destruct (Nat.eq_dec q p) as [->|Hqp].
    + rewrite next_without, prev_without by assumption. split.
      * destruct (opt_nat_eqb_spec (prev_of k (a_children s p)) (Some i)) as [E|Hn].
        -- apply next_prev in E; [|exact Hnd]. rewrite E. cbn. rewrite Nat.eqb_refl. reflexivity.
        -- destruct (opt_nat_eqb_spec (next_of i (a_children s p)) (Some k)) as [E|_]; [|reflexivity].
           apply next_prev in E; [congruence|exact Hnd].
      * destruct (opt_nat_eqb_spec (next_of k (a_children s p)) (Some i)) as [E|Hn].
        -- apply next_prev in E; [|exact Hnd]. rewrite E. cbn. rewrite Nat.eqb_refl. reflexivity.
        -- destruct (opt_nat_eqb_spec (prev_of i (a_children s p)) (Some k)) as [E|_]; [|reflexivity].
           apply next_prev in E; [congruence|exact Hnd].
    + rewrite without_notin by (intros Hc; apply Hqp; eapply wf_parent; [exact HW|exact Hc|exact Hk]).
      split.
      * destruct (opt_nat_eqb_spec (prev_of k (a_children s p)) (Some i)) as [E|_]; [|reflexivity].
        exfalso. apply Hqp. eapply wf_parent; [exact HW|exact Hq|]. eapply prev_of_In. exact E.
      * destruct (opt_nat_eqb_spec (next_of k (a_children s p)) (Some i)) as [E|_]; [|reflexivity].
        exfalso. apply Hqp. eapply wf_parent; [exact HW|exact Hq|]. eapply next_of_In. exact E.
  - intros Hno. destruct (Nat.eqb_spec i k) as [->|Hik]; [auto|].
    assert (forall q, ~ child_of s q i) as Hno'.
    { intros q Hq. apply (Hno q). apply child_of_remove. auto. }
    destruct (lk_orphan _ _ _ Hl Hno') as (E1 & E2 & E3). rewrite E1, E2, E3.
    split; [reflexivity|]. split.
    + destruct (opt_nat_eqb_spec (prev_of k (a_children s p)) (Some i)) as [E|_]; [|reflexivity].
      exfalso. apply (Hno' p). eapply prev_of_In. exact E.
    + destruct (opt_nat_eqb_spec (next_of k (a_children s p)) (Some i)) as [E|_]; [|reflexivity].
      exfalso. apply (Hno' p). eapply next_of_In. exact E.
Qed.

Lemma remove_orphan_links k i n : (forall p, ~ child_of s p k) -> LinksOf s i n -> LinksOf (a_remove s k) i n.
Proof.
  intros Hno Hl. assert (forall p, without k (a_children s p) = a_children s p) as E.
  { intros p. apply without_notin. apply Hno. }
  constructor; cbn [a_remove with_children a_children a_data]; rewrite ?E; try apply Hl.
  - intros p Hp. apply child_of_remove in Hp. rewrite E. apply Hl. apply Hp.
  - intros Hn. apply Hl. intros p Hp. apply (Hn p). apply child_of_remove. split; [exact Hp|].
    intros ->. exact (Hno _ Hp).
Qed.

Lemma detach_refines k : live s k -> exists d', detach d k = Ok d' /\ Rep d' (a_remove s k).
Proof.
  intros Hk. destruct (rep_node k (proj2 Hk)) as (n & Hn & Hl).
  unfold detach. rewrite (getn_ok _ _ _ Hn). cbn [bind].
  rewrite setn_ok by (apply live_lt; exact Hk). cbn [bind].
  destruct (a_parent s k) as [p|] eqn:Ep.
  - apply a_parent_Some in Ep. destruct (lk_child _ _ _ Hl _ Ep) as (E1 & E2 & E3).
    rewrite E1, E2, E3. destruct (child_lt _ _ Ep) as [Hklt Hplt].
    set (L := a_children s p) in *.
    assert (forall x, next_of k L = Some x -> x < length (nodes d)) as Hnx.
    { intros x Hx. apply next_of_In in Hx. apply (proj1 (child_lt p x Hx)). }
    assert (forall x, prev_of k L = Some x -> x < length (nodes d)) as Hpx.
    { intros x Hx. apply prev_of_In in Hx. apply (proj1 (child_lt p x Hx)). }
    match goal with |- exists d', ?X = Ok d' /\ _ => assert (exists d', X = Ok d'
        /\ style_elements d' = style_elements d /\ length (nodes d') = length (nodes d)
        /\ forall i, nth_error (nodes d') i = option_map (detached p k L i) (nth_error (nodes d) i)) as Hex end.
    { destruct (next_of k L) as [x|] eqn:En, (prev_of k L) as [q|] eqn:Eq;
        (rewrite setn_ok; [cbn [bind]|cbn [nodes]; rewrite ?length_upd; auto]);
        (rewrite setn_ok; [|cbn [nodes]; rewrite ?length_upd; auto]);
        eexists; (split; [reflexivity|]); cbn [nodes style_elements];
        rewrite ?length_upd; (split; [reflexivity|split; [reflexivity|]]);
        intros i; rewrite !nth_error_upd; unfold detached; rewrite En, Eq; cbn [opt_nat_eqb is_none andb];
        destruct (nth_error (nodes d) i) as [ni|] eqn:Ei; cbn [option_map].
      all: repeat match goal with |- context [Nat.eqb ?a ?b] => destruct (Nat.eqb_spec a b) end;
        cbn [option_map andb]; subst; try reflexivity; try congruence;
        try (destruct ni; reflexivity).
      all: exfalso.
      all: try (eapply prev_of_neq; [|exact Eq|reflexivity]; apply HW).
      all: try (eapply next_of_neq; [|exact En|reflexivity]; apply HW).
      all: try congruence. }
    destruct Hex as (d' & Hd' & Hs & Hlen & Hnodes).
    exists d'. split; [exact Hd'|]. constructor.
    + rewrite Hlen. apply HR.
    + rewrite Hs. apply HR.
    + intros i m Hm. rewrite Hnodes in Hm. destruct (nth_error (nodes d) i) as [ni|] eqn:Ei; [|discriminate].
      injection Hm as <-. apply detached_links; [exact Ep|]. exact (rep_links _ _ HR _ _ Ei).
  - pose proof (a_parent_None _ _ HW Ep) as Hno. destruct (lk_orphan _ _ _ Hl Hno) as (E1 & E2 & E3).
    rewrite E1, E2, E3. eexists. split; [reflexivity|]. constructor; cbn [nodes style_elements].
    + rewrite length_upd. apply HR.
    + apply HR.
    + intros i m Hm. rewrite nth_error_upd in Hm. apply remove_orphan_links; [exact Hno|].
      destruct (Nat.eqb_spec i k) as [->|_].
      * rewrite Hn in Hm. cbn in Hm. injection Hm as <-.
        destruct n; cbn in *. subst. exact Hl.
      * exact (rep_links _ _ HR _ _ Hm).
Qed.
End Refine.

Lemma remove_orphan s c : forall p, ~ child_of (a_remove s c) p c.
Proof. intros p H. apply child_of_remove in H. tauto. Qed.

(** append, after the detach *)
Definition appended (p c : node_id) (L : list nat) (i : nat) (n : node) : node :=
  Node (if Nat.eqb i c then Some p else n_parent n)
       (if opt_nat_eqb (last_error L) (Some i) then Some c else n_next n)
       (if Nat.eqb i c then last_error L else n_prev n)
       (if Nat.eqb i p && is_none (last_error L) then Some c else n_first n)
       (if Nat.eqb i p then Some c else n_last n)
       (n_data n).

Lemma appended_links s p c i n : AWf s -> c <> p -> LinksOf (a_remove s c) i n ->
  LinksOf (a_append s p c) i (appended p c (without c (a_children s p)) i n).
Proof.
  intros HW Hcp Hl. set (L := without c (a_children s p)).
  assert (NoDup L) as Hnd by (apply NoDup_without; apply HW).
  assert (~ In c L) as HcL by (unfold L; rewrite in_without; tauto).
  pose proof (wf_remove _ c HW) as HW1.
  constructor; cbn [appended n_parent n_next n_prev n_first n_last n_data a_append with_children a_data a_children].
  - apply Hl.
  - rewrite (lk_first _ _ _ Hl). cbn [a_remove with_children a_children].
    destruct (Nat.eqb_spec i p) as [->|Hip]; cbn [andb]; [|reflexivity].
    fold L. rewrite hd_snoc. destruct (last_error L) as [x|] eqn:El; cbn [is_none].
    + destruct (hd_error L) as [y|] eqn:Eh; [reflexivity|]. apply hd_error_None in Eh. rewrite Eh in El. discriminate.
    + apply last_error_None in El. rewrite El. reflexivity.
  - rewrite (lk_last _ _ _ Hl). cbn [a_remove with_children a_children].
    destruct (Nat.eqb_spec i p) as [->|Hip]; [|reflexivity]. rewrite last_error_snoc. reflexivity.
  - intros q Hq. apply child_of_append in Hq. destruct Hq as [[Hq Hic]|[-> ->]].
    + assert (child_of (a_remove s c) q i) as Hq1 by (apply child_of_remove; auto).
      destruct (Nat.eqb_spec i c) as [E|_]; [congruence|].
      destruct (lk_child _ _ _ Hl _ Hq1) as (E1 & E2 & E3). rewrite E1, E2, E3.
      cbn [a_remove with_children a_children]. split; [reflexivity|].
      destruct (Nat.eqb_spec q p) as [->|Hqp].
      * fold L. rewrite next_snoc_other, prev_snoc_other; auto.
      * split; [|reflexivity].
        destruct (opt_nat_eqb_spec (last_error L) (Some i)) as [E|_]; [|reflexivity].
        exfalso. apply Hqp. eapply wf_parent; [exact HW1|exact Hq1|]. unfold child_of. cbn.
        apply last_error_In. exact E.
    + rewrite !Nat.eqb_refl. fold L. split; [reflexivity|].
      rewrite next_snoc_self, prev_snoc_self by exact HcL. split; [|reflexivity].
      destruct (opt_nat_eqb_spec (last_error L) (Some c)) as [E|_].
      * exfalso. apply HcL. apply last_error_In. exact E.
      * apply Hl. apply remove_orphan.
  - intros Hno. assert (i <> c) as Hic.
    { intros ->. apply (Hno p). apply child_of_append. right; auto. }
    assert (forall q, ~ child_of (a_remove s c) q i) as Hno1.
    { intros q Hq. apply child_of_remove in Hq. apply (Hno q). apply child_of_append. left. exact Hq. }
    destruct (lk_orphan _ _ _ Hl Hno1) as (E1 & E2 & E3).
    destruct (Nat.eqb_spec i c) as [E|_]; [congruence|]. rewrite E1, E2, E3.
    split; [reflexivity|]. split; [|reflexivity].
    destruct (opt_nat_eqb_spec (last_error L) (Some i)) as [E|_]; [|reflexivity].
    exfalso. apply (Hno1 p). apply last_error_In in E. exact E.
Qed.

Lemma append_refines d s p c : Rep d s -> AWf s -> live s p -> live s c -> c <> p ->
  exists d', append d p c = Ok d' /\ Rep d' (a_append s p c).
Proof.
  intros HR HW Hp Hc Hcp. unfold append.
  destruct (detach_refines _ _ HR HW c Hc) as (d1 & -> & HR1). cbn [bind].
  pose proof (wf_remove _ c HW) as HW1.
  assert (c < length (nodes d1)) as Hclt by (rewrite (rep_count _ _ HR1); apply Hc).
  assert (p < length (nodes d1)) as Hplt by (rewrite (rep_count _ _ HR1); apply Hp).
  rewrite setn_ok by exact Hclt. cbn [bind].
  destruct (lt_nth _ _ Hplt) as (np & Hnp). pose proof (rep_links _ _ HR1 _ _ Hnp) as Hlp.
  pose proof (lk_last _ _ _ Hlp) as Elast. cbn [a_remove with_children a_children] in Elast.
  pose proof (lk_first _ _ _ Hlp) as Efirst. cbn [a_remove with_children a_children] in Efirst.
  set (L := without c (a_children s p)) in *.
  assert (NoDup L) as Hnd by (apply NoDup_without; apply HW).
  assert (~ In c L) as HcL by (unfold L; rewrite in_without; tauto).
  unfold getn at 1. cbn [nodes]. rewrite nth_error_upd.
  destruct (Nat.eqb_spec p c) as [E|_]; [congruence|]. rewrite Hnp. cbn [bind].
  rewrite setn_ok by (cbn [nodes]; rewrite length_upd; exact Hplt). cbn [bind].
  match goal with |- exists d', ?X = Ok d' /\ _ => assert (exists d', X = Ok d'
        /\ style_elements d' = style_elements d1 /\ length (nodes d') = length (nodes d1)
        /\ forall i, nth_error (nodes d') i = option_map (appended p c L i) (nth_error (nodes d1) i)) as Hex end.
  { rewrite Elast. destruct (last_error L) as [x|] eqn:El.
    - assert (x <> c) as Hxc. { intros ->. apply HcL. apply last_error_In. exact El. }
      assert (child_of (a_remove s c) p x) as Hx by (apply last_error_In; exact El).
      assert (x <> p) as Hxp. { intros ->. apply (wf_acyclic _ HW1 p). apply t_step. exact Hx. }
      assert (x < length (nodes d1)) as Hxlt by (apply (child_lt _ _ HR1 HW1 _ _ Hx)).
      rewrite setn_ok by (cbn [nodes]; rewrite !length_upd; exact Hclt). cbn [bind].
      unfold getn. cbn [nodes]. rewrite !nth_error_upd.
      destruct (Nat.eqb_spec x c) as [|_]; [congruence|].
      destruct (Nat.eqb_spec x p) as [|_]; [congruence|].
      destruct (lt_nth _ _ Hxlt) as (nx & Hnx). rewrite Hnx. cbn [bind].
      pose proof (rep_links _ _ HR1 _ _ Hnx) as Hlx. destruct (lk_child _ _ _ Hlx _ Hx) as (_ & E2 & _).
      cbn [a_remove with_children a_children] in E2. fold L in E2.
      rewrite (proj2 (next_None_last x L Hnd (last_error_In _ _ El)) El) in E2. rewrite E2. cbn [is_none check bind].
      rewrite setn_ok by (cbn [nodes]; rewrite !length_upd; exact Hxlt). cbn [bind].
      rewrite setn_ok by (cbn [nodes]; rewrite !length_upd; exact Hplt).
      eexists. split; [reflexivity|]. cbn [nodes style_elements]. rewrite !length_upd.
      split; [reflexivity|]. split; [reflexivity|]. intros i. rewrite !nth_error_upd.
      unfold appended. rewrite El. cbn [opt_nat_eqb is_none andb].
      rewrite !andb_false_r. rewrite (Nat.eqb_sym x i).
      destruct (nth_error (nodes d1) i) as [ni|] eqn:Ei; cbn [option_map].
      + destruct (Nat.eqb_spec i p), (Nat.eqb_spec i x), (Nat.eqb_spec i c); subst;
          try congruence; cbn [option_map]; try reflexivity; destruct ni; reflexivity.
      + destruct (Nat.eqb i p), (Nat.eqb i x), (Nat.eqb i c); reflexivity.
    - pose proof (last_error_None _ El) as EL0.
      unfold getn. cbn [nodes]. rewrite !nth_error_upd, Nat.eqb_refl.
      destruct (Nat.eqb_spec p c) as [|_]; [congruence|]. rewrite Hnp. cbn [option_map bind set_last n_first].
      rewrite Efirst, EL0. cbn [hd_error is_none check bind].
      rewrite setn_ok by (cbn [nodes]; rewrite !length_upd; exact Hplt). cbn [bind].
      rewrite setn_ok by (cbn [nodes]; rewrite !length_upd; exact Hplt).
      eexists. split; [reflexivity|]. cbn [nodes style_elements]. rewrite !length_upd.
      split; [reflexivity|]. split; [reflexivity|]. intros i. rewrite !nth_error_upd.
      unfold appended. rewrite <- EL0, El. cbn [opt_nat_eqb is_none andb]. rewrite andb_true_r.
      destruct (nth_error (nodes d1) i) as [ni|] eqn:Ei; cbn [option_map].
      + destruct (Nat.eqb_spec i p), (Nat.eqb_spec i c); subst; try congruence; cbn [option_map];
          try reflexivity; try (destruct ni; reflexivity).
        destruct (lk_orphan _ _ _ (rep_links _ _ HR1 _ _ Ei) (remove_orphan s c)) as (_ & _ & E3).
        destruct ni; cbn in *. subst. reflexivity.
      + destruct (Nat.eqb i p), (Nat.eqb i c); reflexivity. }
  destruct Hex as (d' & Hd' & Hs & Hlen & Hnodes).
  exists d'. split; [exact Hd'|]. constructor.
  - rewrite Hlen. apply (rep_count _ _ HR1).
  - rewrite Hs. apply (rep_styles _ _ HR1).
  - intros i m Hm. rewrite Hnodes in Hm. destruct (nth_error (nodes d1) i) as [ni|] eqn:Ei; [|discriminate].
    injection Hm as <-. apply appended_links; [exact HW|exact Hcp|]. exact (rep_links _ _ HR1 _ _ Ei).
Qed.

(** insert_before, after the detach *)
Definition inserted (q sib c : node_id) (L : list nat) (i : nat) (n : node) : node :=
  Node (if Nat.eqb i c then Some q else n_parent n)
       (if Nat.eqb i c then Some sib else if opt_nat_eqb (prev_of sib L) (Some i) then Some c else n_next n)
       (if Nat.eqb i c then prev_of sib L else if Nat.eqb i sib then Some c else n_prev n)
       (if Nat.eqb i q && is_none (prev_of sib L) then Some c else n_first n)
       (n_last n)
       (n_data n).

Lemma inserted_links s q sib c i n : AWf s -> c <> sib -> child_of s q sib -> LinksOf (a_remove s c) i n ->
  LinksOf (a_insert_before s sib c) i (inserted q sib c (without c (a_children s q)) i n).
Proof.
  intros HW Hcs Hq0 Hl. set (L := without c (a_children s q)).
  assert (NoDup L) as Hnd by (apply NoDup_without; apply HW).
  assert (~ In c L) as HcL by (unfold L; rewrite in_without; tauto).
  assert (In sib L) as HsL by (unfold L; rewrite in_without; split; [exact Hq0|congruence]).
  pose proof (wf_remove _ c HW) as HW1.
  assert (forall p, p <> q -> insert_in sib c (without c (a_children s p)) = without c (a_children s p)) as Hoth.
  { intros p Hp. apply insert_in_notin. rewrite in_without. intros [H _]. apply Hp.
    eapply wf_parent; [exact HW|exact H|exact Hq0]. }
  constructor; cbn [inserted n_parent n_next n_prev n_first n_last n_data a_insert_before with_children a_data a_children].
  - apply Hl.
  - rewrite (lk_first _ _ _ Hl). cbn [a_remove with_children a_children].
    destruct (Nat.eqb_spec i q) as [->|Hip]; cbn [andb]; [|rewrite Hoth by exact Hip; reflexivity].
    fold L. rewrite hd_insert by assumption.
    destruct (prev_of sib L) as [x|] eqn:El; cbn [is_none].
    + destruct (opt_nat_eqb_spec (hd_error L) (Some sib)) as [E|_]; [|reflexivity].
      apply prev_None_hd in E; congruence.
    + apply prev_None_hd in El; [|assumption..]. rewrite El. cbn. rewrite Nat.eqb_refl. reflexivity.
  - rewrite (lk_last _ _ _ Hl). cbn [a_remove with_children a_children].
    destruct (Nat.eq_dec i q) as [->|Hip]; [|rewrite Hoth by exact Hip; reflexivity].
    fold L. rewrite last_insert by assumption. reflexivity.
  - intros p Hp. apply child_of_insert in Hp; [|exact Hcs]. destruct Hp as [[Hp Hic]|[Hp ->]].
    + assert (child_of (a_remove s c) p i) as Hp1 by (apply child_of_remove; auto).
      destruct (Nat.eqb_spec i c) as [E|_]; [congruence|].
      destruct (lk_child _ _ _ Hl _ Hp1) as (E1 & E2 & E3). rewrite E1, E2, E3.
      cbn [a_remove with_children a_children]. split; [reflexivity|].
      destruct (Nat.eq_dec p q) as [->|Hpq].
      * fold L. rewrite next_insert_other by assumption. split.
        -- destruct (opt_nat_eqb_spec (prev_of sib L) (Some i)) as [E|Hn].
           ++ apply next_prev in E; [|exact Hnd]. rewrite E. cbn. rewrite Nat.eqb_refl. reflexivity.
           ++ destruct (opt_nat_eqb_spec (next_of i L) (Some sib)) as [E|_]; [|reflexivity].
              apply next_prev in E; [congruence|exact Hnd].
        -- destruct (Nat.eqb_spec i sib) as [->|His].
           ++ rewrite prev_insert_sib by assumption. reflexivity.
           ++ rewrite prev_insert_other by assumption. reflexivity.
      * rewrite Hoth by exact Hpq. split.
        -- destruct (opt_nat_eqb_spec (prev_of sib L) (Some i)) as [E|_]; [|reflexivity].
           exfalso. apply Hpq. eapply wf_parent; [exact HW1|exact Hp1|]. unfold child_of; cbn.
           eapply prev_of_In. exact E.
        -- destruct (Nat.eqb_spec i sib) as [->|_]; [|reflexivity].
           exfalso. apply Hpq. eapply wf_parent; [exact HW|exact Hp|exact Hq0].
    + rewrite Nat.eqb_refl. assert (p = q) as -> by (eapply wf_parent; [exact HW|exact Hp|exact Hq0]).
      fold L. rewrite next_insert_self, prev_insert_self by assumption. auto.
  - intros Hno. assert (i <> c) as Hic.
    { intros ->. apply (Hno q). apply child_of_insert; [exact Hcs|]. right; auto. }
    assert (forall p, ~ child_of (a_remove s c) p i) as Hno1.
    { intros p Hp. apply child_of_remove in Hp. apply (Hno p). apply child_of_insert; [exact Hcs|]. left. exact Hp. }
    destruct (lk_orphan _ _ _ Hl Hno1) as (E1 & E2 & E3).
    destruct (Nat.eqb_spec i c) as [E|_]; [congruence|]. rewrite E1, E2, E3.
    split; [reflexivity|]. split.
    + destruct (opt_nat_eqb_spec (prev_of sib L) (Some i)) as [E|_]; [|reflexivity].
      exfalso. apply (Hno1 q). apply prev_of_In in E. exact E.
    + destruct (Nat.eqb_spec i sib) as [->|_]; [|reflexivity].
      exfalso. apply (Hno1 q). apply child_of_remove. auto.
Qed.

Lemma insert_before_refines d s q sib c : Rep d s -> AWf s -> child_of s q sib -> live s c -> c <> sib ->
  c <> q ->
  exists d', insert_before d sib c = Ok d' /\ Rep d' (a_insert_before s sib c).
Proof.
  intros HR HW Hq Hc Hcs Hcq. unfold insert_before.
  destruct (detach_refines _ _ HR HW c Hc) as (d1 & -> & HR1). cbn [bind].
  pose proof (wf_remove _ c HW) as HW1.
  assert (child_of (a_remove s c) q sib) as Hq1 by (apply child_of_remove; split; [exact Hq|congruence]).
  assert (c < length (nodes d1)) as Hclt by (rewrite (rep_count _ _ HR1); apply Hc).
  destruct (child_lt _ _ HR1 HW1 _ _ Hq1) as [Hslt Hqlt].
  destruct (lt_nth _ _ Hslt) as (ns & Hns). pose proof (rep_links _ _ HR1 _ _ Hns) as Hls.
  destruct (lk_child _ _ _ Hls _ Hq1) as (E1 & E2 & E3). cbn [a_remove with_children a_children] in E2, E3.
  set (L := without c (a_children s q)) in *.
  assert (NoDup L) as Hnd by (apply NoDup_without; apply HW).
  assert (~ In c L) as HcL by (unfold L; rewrite in_without; tauto).
  assert (In sib L) as HsL by exact Hq1.
  rewrite (getn_ok _ _ _ Hns). cbn [bind]. rewrite E1.
  rewrite setn_ok by exact Hclt. cbn [bind].
  rewrite setn_ok by (cbn [nodes]; rewrite !length_upd; exact Hclt). cbn [bind].
  unfold getn at 1. cbn [nodes]. rewrite !nth_error_upd.
  destruct (Nat.eqb_spec sib c) as [|_]; [congruence|]. rewrite Hns. cbn [bind].
  rewrite setn_ok by (cbn [nodes]; rewrite !length_upd; exact Hslt). cbn [bind].
  assert (q <> sib) as Hqs. { intros ->. apply (wf_acyclic _ HW1 sib). apply t_step. exact Hq1. }
  match goal with |- exists d', ?X = Ok d' /\ _ => assert (exists d', X = Ok d'
        /\ style_elements d' = style_elements d1 /\ length (nodes d') = length (nodes d1)
        /\ forall i, nth_error (nodes d') i = option_map (inserted q sib c L i) (nth_error (nodes d1) i)) as Hex end.
  { rewrite E3. destruct (prev_of sib L) as [x|] eqn:El.
    - assert (In x L) as HxL by (eapply prev_of_In; exact El).
      assert (x <> c) as Hxc by (intros ->; contradiction).
      assert (sib <> x) as Hsx by (eapply prev_of_neq; [exact Hnd|exact El]).
      assert (child_of (a_remove s c) q x) as Hx by exact HxL.
      assert (x < length (nodes d1)) as Hxlt by (apply (child_lt _ _ HR1 HW1 _ _ Hx)).
      rewrite setn_ok by (cbn [nodes]; rewrite !length_upd; exact Hclt). cbn [bind].
      unfold getn. cbn [nodes]. rewrite !nth_error_upd.
      destruct (Nat.eqb_spec x c) as [|_]; [congruence|].
      destruct (Nat.eqb_spec x sib) as [|_]; [congruence|].
      destruct (lt_nth _ _ Hxlt) as (nx & Hnx). rewrite Hnx. cbn [bind].
      pose proof (rep_links _ _ HR1 _ _ Hnx) as Hlx. destruct (lk_child _ _ _ Hlx _ Hx) as (_ & F2 & _).
      cbn [a_remove with_children a_children] in F2. fold L in F2.
      rewrite (proj2 (next_prev x sib L Hnd) El) in F2. rewrite F2.
      cbn [opt_nat_eqb]. rewrite Nat.eqb_refl. cbn [check bind].
      rewrite setn_ok by (cbn [nodes]; rewrite !length_upd; exact Hxlt). cbn [bind].
      rewrite setn_ok by (cbn [nodes]; rewrite !length_upd; exact Hslt).
      eexists. split; [reflexivity|]. cbn [nodes style_elements]. rewrite !length_upd.
      split; [reflexivity|]. split; [reflexivity|]. intros i. rewrite !nth_error_upd.
      unfold inserted. rewrite El. cbn [opt_nat_eqb is_none andb].
      rewrite !andb_false_r. rewrite (Nat.eqb_sym x i).
      destruct (nth_error (nodes d1) i) as [ni|] eqn:Ei; cbn [option_map].
      + destruct (Nat.eqb_spec i sib), (Nat.eqb_spec i x), (Nat.eqb_spec i c); subst;
          try congruence; cbn [option_map]; try reflexivity; destruct ni; reflexivity.
      + destruct (Nat.eqb i sib), (Nat.eqb i x), (Nat.eqb i c); reflexivity.
    - unfold getn at 1. cbn [nodes]. rewrite !nth_error_upd, Nat.eqb_refl.
      destruct (Nat.eqb_spec sib c) as [|_]; [congruence|]. rewrite Hns. cbn [option_map bind set_prev n_parent].
      rewrite E1. unfold getn. cbn [nodes]. rewrite !nth_error_upd.
      destruct (Nat.eqb_spec q sib) as [|_]; [congruence|].
      destruct (lt_nth _ _ Hqlt) as (nq & Hnq). rewrite Hnq.
      pose proof (rep_links _ _ HR1 _ _ Hnq) as Hlq. pose proof (lk_first _ _ _ Hlq) as Ef.
      cbn [a_remove with_children a_children] in Ef. fold L in Ef.
      rewrite (proj1 (prev_None_hd sib L Hnd HsL) El) in Ef.
      assert (Nat.eqb q c = false) as Eqc by (apply Nat.eqb_neq; congruence). rewrite Eqc. cbn [bind].
      rewrite Ef. cbn [opt_nat_eqb]. rewrite Nat.eqb_refl. cbn [check bind].
      rewrite setn_ok by (cbn [nodes]; rewrite !length_upd; exact Hqlt). cbn [bind].
      rewrite setn_ok by (cbn [nodes]; rewrite !length_upd; exact Hslt).
      eexists. split; [reflexivity|]. cbn [nodes style_elements]. rewrite !length_upd.
      split; [reflexivity|]. split; [reflexivity|]. intros i. rewrite !nth_error_upd.
      unfold inserted. rewrite El. cbn [opt_nat_eqb is_none andb]. rewrite andb_true_r.
      destruct (nth_error (nodes d1) i) as [ni|] eqn:Ei; cbn [option_map].
      + destruct (Nat.eqb_spec i q), (Nat.eqb_spec i sib), (Nat.eqb_spec i c); subst; try congruence;
          cbn [option_map]; try reflexivity; try (destruct ni; reflexivity).
        all: destruct (lk_orphan _ _ _ (rep_links _ _ HR1 _ _ Ei) (remove_orphan s c)) as (_ & _ & F3);
          destruct ni; cbn in *; subst; reflexivity.
      + destruct (Nat.eqb i q), (Nat.eqb i sib), (Nat.eqb i c); reflexivity. }
  destruct Hex as (d' & Hd' & Hs & Hlen & Hnodes).
  exists d'. split; [exact Hd'|]. constructor.
  - rewrite Hlen. apply (rep_count _ _ HR1).
  - rewrite Hs. apply (rep_styles _ _ HR1).
  - intros i m Hm. rewrite Hnodes in Hm. destruct (nth_error (nodes d1) i) as [ni|] eqn:Ei; [|discriminate].
    injection Hm as <-. apply inserted_links; [exact HW|exact Hcs|exact Hq|]. exact (rep_links _ _ HR1 _ _ Ei).
Qed.

(* ------------------------------------------------------------------ *)
(** * New nodes and payload updates *)
Lemma push_refines d s dt : Rep d s -> AWf s ->
  Rep (fst (push_node d (new_node dt))) (a_new s dt) /\ snd (push_node d (new_node dt)) = a_count s.
Proof.
  intros HR HW. unfold push_node. cbn [fst snd]. split; [|apply HR].
  constructor; cbn [nodes style_elements a_new a_count a_styles].
  - rewrite app_length, (rep_count _ _ HR). cbn. lia.
  - apply HR.
  - intros i n Hn. destruct (Nat.lt_ge_cases i (length (nodes d))) as [Hlt|Hge].
    + rewrite nth_error_app1 in Hn by exact Hlt. pose proof (rep_links _ _ HR _ _ Hn) as Hl.
      rewrite (rep_count _ _ HR) in Hlt.
      constructor; cbn [a_new a_data a_children].
      * destruct (Nat.eqb_spec i (a_count s)) as [|_]; [lia|]. apply Hl.
      * apply Hl.
      * apply Hl.
      * apply Hl.
      * apply Hl.
    + rewrite nth_error_app2 in Hn by exact Hge.
      destruct (i - length (nodes d)) as [|m] eqn:Em; [|destruct m; discriminate].
      cbn in Hn. injection Hn as <-. assert (i = a_count s) as -> by (rewrite <- (rep_count _ _ HR); lia).
      assert (a_children s (a_count s) = []) as Ech.
      { destruct (a_children s (a_count s)) as [|k ks] eqn:E; [reflexivity|].
        assert (child_of s (a_count s) k) as Hc by (unfold child_of; rewrite E; left; reflexivity).
        destruct (wf_range _ HW _ _ Hc) as [[_ H] _]. lia. }
      assert (forall p, ~ child_of s p (a_count s)) as Hno.
      { intros p Hp. destruct (wf_range _ HW _ _ Hp) as [_ H]. lia. }
      constructor; cbn [a_new a_data a_children new_node n_data n_first n_last n_parent n_next n_prev].
      * rewrite Nat.eqb_refl. reflexivity.
      * rewrite Ech. reflexivity.
      * rewrite Ech. reflexivity.
      * intros p Hp. exfalso. exact (Hno _ Hp).
      * auto.
Qed.

Lemma set_data_refines d s i dt : Rep d s -> i < a_count s ->
  exists d', setn d i (set_data dt) = Ok d' /\ Rep d' (a_set_data s i dt).
Proof.
  intros HR Hi. rewrite setn_ok by (rewrite (rep_count _ _ HR); exact Hi).
  eexists. split; [reflexivity|]. constructor; cbn [nodes style_elements a_set_data a_count a_styles].
  - rewrite length_upd. apply HR.
  - apply HR.
  - intros j n Hn. rewrite nth_error_upd in Hn.
    destruct (Nat.eqb_spec j i) as [->|Hne].
    + destruct (nth_error (nodes d) i) as [m|] eqn:Em; [|discriminate]. cbn in Hn. injection Hn as <-.
      pose proof (rep_links _ _ HR _ _ Em) as Hl.
      constructor; cbn [set_data n_data n_first n_last n_parent n_next n_prev a_set_data a_data a_children]; try apply Hl.
      rewrite Nat.eqb_refl. reflexivity.
    + pose proof (rep_links _ _ HR _ _ Hn) as Hl.
      constructor; cbn [a_set_data a_data a_children]; try apply Hl.
      destruct (Nat.eqb_spec j i); [congruence|]. apply Hl.
Qed.

Lemma live_new s dt i : live s i -> live (a_new s dt) i.
Proof. unfold live; cbn. lia. Qed.
Lemma new_live s dt : AWf s -> live (a_new s dt) (a_count s).
Proof. intros H. pose proof (wf_count _ H). unfold live; cbn. lia. Qed.
Lemma new_no_child s dt p : AWf s -> ~ child_of (a_new s dt) p (a_count s).
Proof. intros H Hc. destruct (wf_range _ H _ _ Hc) as [_ Hr]. lia. Qed.
Lemma new_no_kids s dt k : AWf s -> ~ child_of (a_new s dt) (a_count s) k.
Proof. intros H Hc. destruct (wf_range _ H _ _ Hc) as [[_ Hr] _]. lia. Qed.
Lemma new_not_anc s dt p : AWf s -> ~ anc (a_new s dt) (a_count s) p.
Proof.
  intros H Ha. remember (a_count s) as c eqn:Ec. revert Ec.
  induction Ha as [x y Hxy|x y z _ IH1 _ _]; intros ->.
  - eapply new_no_kids; eassumption.
  - apply IH1. reflexivity.
Qed.

Lemma append_new s d p dt : Rep d s -> AWf s -> live s p ->
  let '(d1, k) := push_node d (new_node dt) in
  exists d', append d1 p k = Ok d' /\ Rep d' (a_append (a_new s dt) p (a_count s))
             /\ AWf (a_append (a_new s dt) p (a_count s)).
Proof.
  intros HR HW Hp. destruct (push_refines d s dt HR HW) as [HR1 Ek].
  destruct (push_node d (new_node dt)) as [d1 k]. cbn [fst snd] in *. subst k.
  pose proof (wf_new s dt HW) as HW1. pose proof (wf_count _ HW) as Hc.
  assert (a_count s <> p) as Hne by (destruct Hp; lia).
  destruct (append_refines d1 (a_new s dt) p (a_count s) HR1 HW1 (live_new _ _ _ Hp) (new_live _ _ HW) Hne) as (d' & E & HR').
  exists d'. split; [exact E|]. split; [exact HR'|].
  apply wf_append; auto using live_new, new_live, new_not_anc. unfold document_node_id. lia.
Qed.

Lemma insert_new s d sib q dt : Rep d s -> AWf s -> child_of s q sib ->
  let '(d1, k) := push_node d (new_node dt) in
  exists d', insert_before d1 sib k = Ok d' /\ Rep d' (a_insert_before (a_new s dt) sib (a_count s))
             /\ AWf (a_insert_before (a_new s dt) sib (a_count s)).
Proof.
  intros HR HW Hq. destruct (push_refines d s dt HR HW) as [HR1 Ek].
  destruct (push_node d (new_node dt)) as [d1 k]. cbn [fst snd] in *. subst k.
  pose proof (wf_new s dt HW) as HW1. pose proof (wf_count _ HW) as Hc.
  destruct (wf_range _ HW _ _ Hq) as [Hql Hsl].
  assert (a_count s <> sib) as Hne by lia.
  assert (a_count s <> q) as Hne2 by (destruct Hql; lia).
  assert (child_of (a_new s dt) q sib) as Hq1 by exact Hq.
  destruct (insert_before_refines d1 (a_new s dt) q sib (a_count s) HR1 HW1 Hq1 (new_live _ _ HW) Hne Hne2) as (d' & E & HR').
  exists d'. split; [exact E|]. split; [exact HR'|].
  eapply wf_insert; eauto using new_live, new_not_anc. unfold document_node_id. lia.
Qed.

Definition good (d : doc) (s : astate) : Prop := Rep d s /\ AWf s.

Lemma sink_append_refines d s p c : good d s -> ok_append s p c ->
  exists d', sink_append d p c = Ok d' /\ good d' (a_sink_append s p c).
Proof.
  intros [HR HW] [Hp Hc]. unfold sink_append, append_common, a_sink_append. destruct c as [k|t].
  - destruct Hc as (Hk & Hk1 & Hkp & Hanc).
    destruct (append_refines d s p k HR HW Hp Hk Hkp) as (d' & E & HR').
    exists d'. split; [exact E|]. split; [exact HR'|]. apply wf_append; assumption.
  - destruct (rep_node _ _ HR p (proj2 Hp)) as (n & Hn & Hl). rewrite (getn_ok _ _ _ Hn). cbn [bind].
    rewrite (lk_last _ _ _ Hl). unfold a_text.
    pose proof (append_new s d p (DText t) HR HW Hp) as Hfresh.
    destruct (last_error (a_children s p)) as [k|] eqn:Ek.
    + assert (child_of s p k) as Hk by (apply last_error_In; exact Ek).
      destruct (wf_range _ HW _ _ Hk) as [_ Hkr].
      destruct (rep_node _ _ HR k (proj2 Hkr)) as (nk & Hnk & Hlk). rewrite (getn_ok _ _ _ Hnk). cbn [bind].
      rewrite (lk_data _ _ _ Hlk).
      destruct (a_data s k) as [| |u| |e|] eqn:Ed;
        try (destruct (push_node d (new_node (DText t))) as [d1 k1]; destruct Hfresh as (d' & E & HR' & HW');
             exists d'; split; [exact E|split; assumption]).
      destruct (set_data_refines d s k (DText (u ++ t)) HR (proj2 Hkr)) as (d' & E & HR').
      exists d'. split; [exact E|]. split; [exact HR'|].
      apply wf_set_data; [exact HW|unfold document_node_id; lia|]. intros (e & He). congruence.
    + destruct (push_node d (new_node (DText t))) as [d1 k1]. destruct Hfresh as (d' & E & HR' & HW').
      exists d'. split; [exact E|]. split; assumption.
Qed.

Lemma sink_before_refines d s sib c : good d s -> ok_before s sib c ->
  exists d', sink_append_before_sibling d sib c = Ok d' /\ good d' (a_sink_before s sib c).
Proof.
  intros [HR HW] (Hs & (q & Hq) & Hc). unfold sink_append_before_sibling, append_common, a_sink_before. destruct c as [k|t].
  - destruct Hc as (Hk & Hk1 & Hks & Hanc).
    assert (k <> q) as Hkq. { intros ->. apply Hanc. apply t_step. exact Hq. }
    destruct (insert_before_refines d s q sib k HR HW Hq Hk Hks Hkq) as (d' & E & HR').
    exists d'. split; [exact E|]. split; [exact HR'|]. eapply wf_insert; eassumption.
  - rewrite (a_parent_child _ _ _ HW Hq).
    destruct (rep_node _ _ HR sib (proj2 Hs)) as (n & Hn & Hl). rewrite (getn_ok _ _ _ Hn). cbn [bind].
    destruct (lk_child _ _ _ Hl _ Hq) as (_ & _ & E3). rewrite E3. unfold a_text.
    pose proof (insert_new s d sib q (DText t) HR HW Hq) as Hfresh.
    destruct (prev_of sib (a_children s q)) as [k|] eqn:Ek.
    + assert (child_of s q k) as Hk by (eapply prev_of_In; exact Ek).
      destruct (wf_range _ HW _ _ Hk) as [_ Hkr].
      destruct (rep_node _ _ HR k (proj2 Hkr)) as (nk & Hnk & Hlk). rewrite (getn_ok _ _ _ Hnk). cbn [bind].
      rewrite (lk_data _ _ _ Hlk).
      destruct (a_data s k) as [| |u| |e|] eqn:Ed;
        try (destruct (push_node d (new_node (DText t))) as [d1 k1]; destruct Hfresh as (d' & E & HR' & HW');
             exists d'; split; [exact E|split; assumption]).
      destruct (set_data_refines d s k (DText (u ++ t)) HR (proj2 Hkr)) as (d' & E & HR').
      exists d'. split; [exact E|]. split; [exact HR'|].
      apply wf_set_data; [exact HW|unfold document_node_id; lia|]. intros (e & He). congruence.
    + destruct (push_node d (new_node (DText t))) as [d1 k1]. destruct Hfresh as (d' & E & HR' & HW').
      exists d'. split; [exact E|]. split; assumption.
Qed.

Lemma reparent_refines d s n p fuel : good d s -> live s n -> live s p -> n <> p -> ~ anc s n p -> 1 <= fuel ->
  exists d', reparent_children fuel d n p = Ok d' /\ good d' (astep s (OReparent n p)).
Proof.
  intros [HR HW] Hn Hp Hnp Hanc Hf. unfold reparent_children, astep.
  destruct (rep_node _ _ HR n (proj2 Hn)) as (nn & Hnn & Hl). rewrite (getn_ok _ _ _ Hnn). cbn [bind].
  rewrite (lk_first _ _ _ Hl). destruct (a_children s n) as [|c cs] eqn:Ech; cbn [hd_error].
  - destruct fuel; exists d; (split; [reflexivity|split; assumption]).
  - assert (child_of s n c) as Hc by (unfold child_of; rewrite Ech; left; reflexivity).
    destruct (wf_range _ HW _ _ Hc) as [_ Hcr].
    assert (live s c) as Hcl by (unfold live; lia).
    assert (c <> p) as Hcp. { intros ->. apply Hanc. apply t_step. exact Hc. }
    assert (~ anc s c p) as Hcanc. { intros Ha. apply Hanc. eapply t_trans; [apply t_step; exact Hc|exact Ha]. }
    destruct fuel as [|fuel]; [lia|]. cbn [reparent_loop].
    destruct (rep_node _ _ HR c (proj2 Hcr)) as (nc & Hnc & Hlc). rewrite (getn_ok _ _ _ Hnc). cbn [bind].
    destruct (lk_child _ _ _ Hlc _ Hc) as (Epar & _ & _). rewrite Epar. cbn [opt_nat_eqb].
    rewrite Nat.eqb_refl. cbn [check bind].
    destruct (append_refines d s p c HR HW Hp Hcl Hcp) as (d' & E & HR'). rewrite E. cbn [bind].
    assert (c < a_count (a_append s p c)) as Hc' by (cbn; lia).
    destruct (rep_node _ _ HR' c Hc') as (nc' & Hnc' & Hlc'). rewrite (getn_ok _ _ _ Hnc'). cbn [bind].
    assert (child_of (a_append s p c) p c) as Hpc by (apply child_of_append; right; auto).
    destruct (lk_child _ _ _ Hlc' _ Hpc) as (_ & Enx & _). rewrite Enx.
    cbn [a_append with_children a_children]. rewrite Nat.eqb_refl.
    rewrite next_snoc_self by (rewrite in_without; tauto).
    exists d'. split; [destruct fuel; reflexivity|]. split; [exact HR'|].
    apply wf_append; try assumption. unfold document_node_id. lia.
Qed.

Lemma create_element_refines d s name attrs : good d s ->
  good (fst (create_element d name attrs)) (astep s (OCreateElement name attrs))
  /\ snd (create_element d name attrs) = a_count s.
Proof.
  intros [HR HW]. unfold create_element. cbn [astep].
  destruct (push_refines d s (DElement (Elem name attrs)) HR HW) as [HR1 Ek].
  pose proof (wf_new s (DElement (Elem name attrs)) HW) as HW1.
  destruct (push_node d (new_node (DElement (Elem name attrs)))) as [d1 k]. cbn [fst snd] in *. subst k.
  unfold is_style_nameb. destruct (qname_eqb name (QName html_ns "style")); cbn [fst snd].
  - split; [|reflexivity]. split.
    + constructor; cbn [nodes style_elements a_add_style a_count a_styles].
      * apply HR1.
      * rewrite (rep_styles _ _ HR1). reflexivity.
      * intros i n Hn. pose proof (rep_links _ _ HR1 _ _ Hn) as Hl. constructor; apply Hl.
    + eapply wf_add_style; [exact HW1|apply new_live; exact HW|]. cbn. rewrite Nat.eqb_refl. reflexivity.
  - split; [|reflexivity]. split; assumption.
Qed.

(** Every admissible operation succeeds and refines its forest operation. *)
Lemma step_refines d s o : good d s -> admissible s o ->
  exists d', step d o = Ok d' /\ good d' (astep s o).
Proof.
  intros HG Ha. destruct o as [name attrs| | |p c|sib c|e p c| |t attrs|t|n p]; cbn [admissible] in Ha.
  - destruct (create_element_refines d s name attrs HG) as [HG' _].
    exists (fst (create_element d name attrs)). split; [reflexivity|exact HG'].
  - destruct HG as [HR HW]. destruct (push_refines d s DComment HR HW) as [HR1 _].
    eexists. split; [reflexivity|]. split; [exact HR1|apply wf_new; exact HW].
  - destruct HG as [HR HW]. destruct (push_refines d s DPI HR HW) as [HR1 _].
    eexists. split; [reflexivity|]. split; [exact HR1|apply wf_new; exact HW].
  - apply sink_append_refines; assumption.
  - apply sink_before_refines; assumption.
  - destruct Ha as (He & Hyes & Hno). destruct HG as [HR HW]. cbn [step astep].
    unfold sink_append_based_on_parent_node.
    destruct (rep_node _ _ HR e (proj2 He)) as (n & Hn & Hl). rewrite (getn_ok _ _ _ Hn). cbn [bind].
    destruct (a_parent s e) as [q|] eqn:Eq.
    + apply a_parent_Some in Eq. destruct (lk_child _ _ _ Hl _ Eq) as (E1 & _ & _). rewrite E1.
      apply sink_before_refines; [split; assumption|]. apply Hyes. exists q. exact Eq.
    + pose proof (a_parent_None _ _ HW Eq) as Hn0. destruct (lk_orphan _ _ _ Hl Hn0) as (E1 & _ & _). rewrite E1.
      apply sink_append_refines; [split; assumption|]. apply Hno. exact Hn0.
  - destruct HG as [HR HW]. cbn [step astep]. unfold append_doctype.
    assert (live s document_node_id) as H1 by (pose proof (wf_count _ HW); unfold live, document_node_id; lia).
    pose proof (append_new s d document_node_id DDoctype HR HW H1) as Hf.
    destruct (push_node d (new_node DDoctype)) as [d1 k]. destruct Hf as (d' & E & HR' & HW').
    exists d'. split; [exact E|split; assumption].
  - destruct Ha as (Ht & e & He). destruct HG as [HR HW]. cbn [step astep]. unfold add_attrs_if_missing.
    destruct (rep_node _ _ HR t (proj2 Ht)) as (n & Hn & Hl). rewrite (getn_ok _ _ _ Hn). cbn [bind].
    rewrite (lk_data _ _ _ Hl), He.
    destruct (set_data_refines d s t (DElement (Elem (e_name e) (add_missing (e_attrs e) attrs))) HR (proj2 Ht)) as (d' & E & HR').
    exists d'. split; [exact E|]. split; [exact HR'|].
    apply wf_set_data; [exact HW| |eauto]. intros ->. rewrite (wf_doc _ HW) in He. discriminate.
  - destruct HG as [HR HW]. destruct (detach_refines d s HR HW t Ha) as (d' & E & HR').
    exists d'. split; [exact E|]. split; [exact HR'|apply wf_remove; exact HW].
  - destruct Ha as (Hn & Hp & Hnp & Hanc). apply reparent_refines; try assumption. lia.
Qed.

Lemma init_good : good doc_new a_init.
Proof.
  split; [|apply wf_init]. constructor; cbn.
  - reflexivity.
  - reflexivity.
  - intros i n Hn. destruct i as [|[|i]]; cbn in Hn; try (destruct i; discriminate);
      injection Hn as <-; constructor; cbn; try reflexivity; try (intros p []); auto.
Qed.

(** Local consistency. *)
Lemma good_consistent d s : good d s -> links_consistent d.
Proof.
  intros [HR HW].
  assert (forall i n, nth_error (nodes d) i = Some n -> forall p, n_parent n = Some p -> child_of s p i) as Hpar.
  { intros i n Hn p Hp. pose proof (rep_links _ _ HR _ _ Hn) as Hl. destruct (a_parent s i) as [q|] eqn:E.
    - apply a_parent_Some in E. destruct (lk_child _ _ _ Hl _ E) as (E1 & _). congruence.
    - destruct (lk_orphan _ _ _ Hl (a_parent_None _ _ HW E)) as (E1 & _). congruence. }
  assert (forall p k, child_of s p k -> exists m, nth_error (nodes d) k = Some m /\ LinksOf s k m) as Hnode.
  { intros p k Hk. apply (rep_node _ _ HR). apply (wf_range _ HW _ _ Hk). }
  constructor.
  - intros i n j Hn Hj. pose proof (rep_links _ _ HR _ _ Hn) as Hl. destruct (a_parent s i) as [q|] eqn:E.
    + apply a_parent_Some in E. destruct (lk_child _ _ _ Hl _ E) as (E1 & E2 & _).
      rewrite Hj in E2. symmetry in E2. assert (child_of s q j) as Hqj by (eapply next_of_In; exact E2).
      destruct (Hnode _ _ Hqj) as (m & Hm & Hlm). destruct (lk_child _ _ _ Hlm _ Hqj) as (F1 & _ & F3).
      exists m. rewrite F3, F1, E1. split; [exact Hm|]. split; [|split; [reflexivity|congruence]].
      apply (proj1 (next_prev _ _ _ (wf_nodup _ HW q))). exact E2.
    + destruct (lk_orphan _ _ _ Hl (a_parent_None _ _ HW E)) as (_ & E2 & _). congruence.
  - intros i n j Hn Hj. pose proof (rep_links _ _ HR _ _ Hn) as Hl. destruct (a_parent s i) as [q|] eqn:E.
    + apply a_parent_Some in E. destruct (lk_child _ _ _ Hl _ E) as (E1 & _ & E2).
      rewrite Hj in E2. symmetry in E2. assert (child_of s q j) as Hqj by (eapply prev_of_In; exact E2).
      destruct (Hnode _ _ Hqj) as (m & Hm & Hlm). destruct (lk_child _ _ _ Hlm _ Hqj) as (F1 & F3 & _).
      exists m. rewrite F3, F1, E1. split; [exact Hm|]. split; [|split; [reflexivity|congruence]].
      apply (proj2 (next_prev _ _ _ (wf_nodup _ HW q))). exact E2.
    + destruct (lk_orphan _ _ _ Hl (a_parent_None _ _ HW E)) as (_ & _ & E2). congruence.
  - intros i n j Hn Hj. pose proof (rep_links _ _ HR _ _ Hn) as Hl. rewrite (lk_first _ _ _ Hl) in Hj.
    assert (child_of s i j) as Hij by (apply hd_error_In; exact Hj).
    destruct (Hnode _ _ Hij) as (m & Hm & Hlm). destruct (lk_child _ _ _ Hlm _ Hij) as (F1 & _ & F3).
    exists m. rewrite F3. split; [exact Hm|]. split; [exact F1|].
    apply prev_None_hd; [apply HW|exact Hij|exact Hj].
  - intros i n j Hn Hj. pose proof (rep_links _ _ HR _ _ Hn) as Hl. rewrite (lk_last _ _ _ Hl) in Hj.
    assert (child_of s i j) as Hij by (apply last_error_In; exact Hj).
    destruct (Hnode _ _ Hij) as (m & Hm & Hlm). destruct (lk_child _ _ _ Hlm _ Hij) as (F1 & F3 & _).
    exists m. rewrite F3. split; [exact Hm|]. split; [exact F1|].
    apply next_None_last; [apply HW|exact Hij|exact Hj].
  - intros i n p Hn Hp. pose proof (Hpar _ _ Hn _ Hp) as Hc. pose proof (rep_links _ _ HR _ _ Hn) as Hl.
    destruct (lk_child _ _ _ Hl _ Hc) as (_ & E2 & E3).
    destruct (wf_range _ HW _ _ Hc) as [Hpl _]. destruct (rep_node _ _ HR p (proj2 Hpl)) as (m & Hm & Hlm).
    exists m. split; [exact Hm|]. rewrite E2, E3, (lk_first _ _ _ Hlm), (lk_last _ _ _ Hlm). split; intros H0.
    + apply prev_None_hd in H0; [exact H0|apply HW|exact Hc].
    + apply next_None_last in H0; [exact H0|apply HW|exact Hc].
Qed.
