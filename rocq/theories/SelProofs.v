(** Proofs about selector matching. *)
From Coq Require Import List Arith Lia Bool ZArith String Relations.
From Verif Require Import Base DomModel DomSpec DomForest DomTraverse DomProofs DomFacts SelModel SelSpec.
Import ListNotations.
Local Open Scope nat_scope.
Open Scope result_scope.

Lemma elementb_iff d e : elementb d e = true <-> element d e.
Proof.
  unfold elementb, element. destruct (data_of d e) as [[]|]; split; intros H; try discriminate; try (destruct H; discriminate); eauto.
Qed.
Lemma elementb_false d e : elementb d e = false <-> ~ element d e.
Proof. rewrite <- elementb_iff. destruct (elementb d e); split; congruence. Qed.

Lemma kid_parent d p k : reach d -> (kid d p k <-> (node_of d p /\ node_of d k /\ parent_of d k = Some p)).
Proof.
  intros Hd. destruct (reach_good d Hd) as (s & HR & HW). rewrite (kid_iff d s p k HR HW), !(node_of_live d s _ HR). split.
  - intros H. destruct (wf_range _ HW _ _ H) as [H1 H2]. split; [exact H1|]. split; [unfold live in *; lia|].
    rewrite (parent_of_rep d s k HR HW) by lia. apply a_parent_child; assumption.
  - intros (Hp & Hk & E). rewrite (parent_of_rep d s k HR HW) in E by (unfold live in Hk; lia).
    apply a_parent_Some in E. exact E.
Qed.
Lemma parent_node d p k : reach d -> node_of d k -> parent_of d k = Some p -> node_of d p.
Proof.
  intros Hd Hk E. destruct (reach_good d Hd) as (s & HR & HW). apply (node_of_live d s k HR) in Hk.
  rewrite (parent_of_rep d s k HR HW) in E by (unfold live in Hk; lia). apply a_parent_Some in E.
  apply (node_of_live d s p HR). apply (wf_range _ HW _ _ E).
Qed.
Lemma in_kids_node d p l k : reach d -> kids d p l -> In k l -> node_of d k /\ parent_of d k = Some p /\ node_of d p.
Proof. intros Hd Hl Hk. assert (kid d p k) as H by (exists l; auto). apply (kid_parent d p k Hd) in H. tauto. Qed.

(** Following a link. *)
Inductive gch (d : doc) (nx : node -> option node_id) : option node_id -> list node_id -> Prop :=
| gch_nil : gch d nx None []
| gch_cons i n l : nth_error (nodes d) i = Some n -> gch d nx (nx n) l -> gch d nx (Some i) (i :: l).

Lemma chain_gch d o l : chain d o l -> gch d n_next o l.
Proof. induction 1; econstructor; eauto. Qed.
Lemma chain_split d a e b : forall o, chain d o (a ++ e :: b) ->
  exists n, nth_error (nodes d) e = Some n /\ chain d (n_next n) b.
Proof.
  induction a as [|x a IH]; intros o H; cbn in H; inversion H; subst; [eauto|]. eapply IH; eassumption.
Qed.
Lemma kids_prev d p e : reach d -> forall a b, kids d p (a ++ e :: b) ->
  exists n, nth_error (nodes d) e = Some n /\ gch d n_prev (n_prev n) (rev a).
Proof.
  intros Hd a. revert e. induction a as [|x a IH] using rev_ind; intros e b (n & Hn & Hc).
  - cbn in Hc. inversion Hc as [|i m l Hm Hl E1 E2]; subst. exists m. split; [exact Hm|].
    destruct (lc_first _ (reach_links d Hd) p n e Hn (eq_sym E1)) as (m' & Hm' & _ & Hp).
    assert (m' = m) by congruence. subst m'. rewrite Hp. constructor.
  - rewrite <- app_assoc in Hc. cbn in Hc.
    destruct (IH x (e :: b)) as (m & Hm & Hg). { exists n. split; assumption. }
    destruct (chain_split _ _ _ _ _ Hc) as (m' & Hm' & Hc'). assert (m' = m) by congruence. subst m'.
    inversion Hc' as [|i k l Hk Hl E1 E2]; subst.
    destruct (lc_next _ (reach_links d Hd) x m e Hm (eq_sym E1)) as (k' & Hk' & Hp & _).
    assert (k' = k) by congruence. subst k'. exists k. split; [exact Hk|]. rewrite Hp, rev_app_distr. cbn.
    econstructor; eassumption.
Qed.
Lemma kids_next d p e a b : kids d p (a ++ e :: b) ->
  exists n, nth_error (nodes d) e = Some n /\ gch d n_next (n_next n) b.
Proof.
  intros (n & Hn & Hc). destruct (chain_split _ _ _ _ _ Hc) as (m & Hm & Hb). exists m. split; [exact Hm|]. apply chain_gch; exact Hb.
Qed.
Lemma kids_bound d p l : reach d -> kids d p l -> length l < length (nodes d).
Proof.
  intros Hd Hl. pose proof (kids_nodup d p l Hd Hl) as Hnd.
  assert (incl l (seq 1 (length (nodes d) - 1))) as Hi.
  { intros k Hk. destruct (in_kids_node d p l k Hd Hl Hk) as [[H1 H2] _]. apply in_seq. lia. }
  pose proof (NoDup_incl_length Hnd Hi) as H. rewrite seq_length in H.
  destruct Hl as (n & Hn & _). assert (p < length (nodes d)) by (apply nth_error_Some; congruence). lia.
Qed.

Lemma elementb_node d i n : nth_error (nodes d) i = Some n -> elementb d i = is_element_data (n_data n).
Proof. intros H. unfold elementb, data_of. rewrite H. cbn. destruct (n_data n); reflexivity. Qed.

Lemma find_element_ok d nx : forall l o fuel, gch d nx o l -> length l <= fuel ->
  find_element fuel d nx o = Ok (find (elementb d) l).
Proof.
  induction l as [|i l IH]; intros o fuel H Hf; inversion H as [|i' n l' Hn Hg E1 E2]; subst.
  - destruct fuel; reflexivity.
  - destruct fuel as [|f]; [cbn in Hf; lia|]. cbn [find_element find]. unfold getn. rewrite Hn. cbn [bind].
    rewrite (elementb_node _ _ _ Hn). destruct (is_element_data (n_data n)); [reflexivity|]. apply IH; [exact Hg|cbn in Hf; lia].
Qed.

(** Position of a node among its siblings. *)
Lemma sib_cases d e : reach d -> node_of d e ->
  (exists p a b, kids d p (a ++ e :: b)) \/
  ((forall p, ~ kid d p e) /\ exists n, nth_error (nodes d) e = Some n /\ n_prev n = None /\ n_next n = None /\ n_parent n = None).
Proof.
  intros Hd He. destruct (parent_of d e) as [p|] eqn:Ep.
  - left. pose proof (parent_node d p e Hd He Ep) as Hp. destruct (reach_kids d p Hd Hp) as (l & Hl & _ & Hin).
    assert (In e l) as H by (apply Hin; auto). apply in_split in H. destruct H as (a & b & ->). eauto.
  - right. split; [intros p Hk; apply (kid_parent d p e Hd) in Hk; destruct Hk as (_ & _ & H); congruence|].
    unfold parent_of in Ep. destruct (nth_error (nodes d) e) as [n|] eqn:En.
    2:{ exfalso. apply nth_error_None in En. destruct He. lia. }
    exists n. split; [reflexivity|]. split; [|split; [|exact Ep]].
    + destruct (n_prev n) as [j|] eqn:E; [|reflexivity].
      destruct (lc_prev _ (reach_links d Hd) e n j En E) as (_ & _ & _ & _ & H). congruence.
    + destruct (n_next n) as [j|] eqn:E; [|reflexivity].
      destruct (lc_next _ (reach_links d Hd) e n j En E) as (_ & _ & _ & _ & H). congruence.
Qed.

Lemma find_element_none f d nx : find_element f d nx None = Ok None.
Proof. destruct f; reflexivity. Qed.
Lemma nth_index_step fuel steps d fe ot self cur i : 0 < steps ->
  nth_index fuel steps d fe ot self cur i =
    (do o <- (if fe then next_sibling_element fuel d cur else prev_sibling_element fuel d cur);
     match o with
     | None => Ok i
     | Some x => do same <- (if ot then is_same_type d self x else Ok true);
                 nth_index fuel (pred steps) d fe ot self x (if same then (i + 1)%Z else i)
     end).
Proof. destruct steps; [lia|]. reflexivity. Qed.

Section Nav.
Variables (d : doc) (fuel : nat).
Hypothesis Hd : reach d.
Hypothesis Hf : length (nodes d) <= fuel.

Lemma prev_ok p e a b : kids d p (a ++ e :: b) -> prev_sibling_element fuel d e = Ok (find (elementb d) (rev a)).
Proof.
  intros Hk. destruct (kids_prev d p e Hd a b Hk) as (n & Hn & Hg). unfold prev_sibling_element, getn. rewrite Hn. cbn [bind].
  apply find_element_ok; [exact Hg|]. rewrite rev_length. pose proof (kids_bound d p _ Hd Hk) as H. rewrite app_length in H. lia.
Qed.
Lemma next_ok p e a b : kids d p (a ++ e :: b) -> next_sibling_element fuel d e = Ok (find (elementb d) b).
Proof.
  intros Hk. destruct (kids_next d p e a b Hk) as (n & Hn & Hg). unfold next_sibling_element, getn. rewrite Hn. cbn [bind].
  apply find_element_ok; [exact Hg|]. pose proof (kids_bound d p _ Hd Hk) as H. rewrite app_length in H. cbn in H. lia.
Qed.
Lemma prev_none e n : nth_error (nodes d) e = Some n -> n_prev n = None -> prev_sibling_element fuel d e = Ok None.
Proof. intros Hn H. unfold prev_sibling_element, getn. rewrite Hn. cbn [bind]. rewrite H. apply find_element_none. Qed.
Lemma next_none e n : nth_error (nodes d) e = Some n -> n_next n = None -> next_sibling_element fuel d e = Ok None.
Proof. intros Hn H. unfold next_sibling_element, getn. rewrite Hn. cbn [bind]. rewrite H. apply find_element_none. Qed.

Lemma find_split (f : nat -> bool) l x : find f l = Some x -> f x = true /\ exists l1 l2, l = l1 ++ x :: l2 /\ forall y, In y l1 -> f y = false.
Proof.
  clear. induction l as [|y l IH]; cbn; [discriminate|]. destruct (f y) eqn:E.
  - intros [= ->]. split; [exact E|]. exists [], l. split; [reflexivity|]. intros ? [].
  - intros H. destruct (IH H) as (H1 & l1 & l2 & -> & H2). split; [exact H1|]. exists (y :: l1), l2. split; [reflexivity|].
    intros z [<-|Hz]; auto.
Qed.
Lemma find_rev_split (f : nat -> bool) a x : find f (rev a) = Some x ->
  f x = true /\ exists a1 a2, a = a1 ++ x :: a2 /\ forall y, In y a2 -> f y = false.
Proof.
  intros H. apply find_split in H. destruct H as (H1 & l1 & l2 & E & H2). split; [exact H1|].
  exists (rev l2), (rev l1). split.
  - apply (f_equal (@rev nat)) in E. rewrite rev_involutive, rev_app_distr in E. cbn in E. rewrite <- app_assoc in E. exact E.
  - intros y Hy. apply H2. apply in_rev. exact Hy.
Qed.
Lemma unique_pos p q e (a b a' b' : list nat) : kids d p (a ++ e :: b) -> kids d q (a' ++ e :: b') -> p = q /\ a = a' /\ b = b'.
Proof.
  intros H1 H2. assert (p = q) as <-.
  { destruct (in_kids_node d p _ e Hd H1) as (_ & E1 & _); [apply in_elt|].
    destruct (in_kids_node d q _ e Hd H2) as (_ & E2 & _); [apply in_elt|]. congruence. }
  split; [reflexivity|]. pose proof (kids_fun _ _ _ _ H1 H2) as E. pose proof (kids_nodup _ _ _ Hd H1) as Hn. clear - E Hn.
  revert a' E Hn. induction a as [|x a IH]; intros [|y a'] E Hn; cbn in *.
  - injection E as ->. auto.
  - injection E as <- ->. apply NoDup_cons_iff in Hn. destruct Hn as [H _]. exfalso. apply H, in_elt.
  - injection E as -> _. apply NoDup_cons_iff in Hn. destruct Hn as [H _]. exfalso. apply H, in_elt.
  - injection E as -> E. apply NoDup_cons_iff in Hn. destruct Hn as [_ Hn]. destruct (IH a' E Hn) as [-> ->]. auto.
Qed.

Lemma earlier_in p e a b f : kids d p (a ++ e :: b) -> (earlier_elt d e f <-> (element d f /\ In f a)).
Proof.
  intros Hk. split.
  - intros (Hf' & q & a1 & b1 & c1 & H). split; [exact Hf'|].
    change (f :: b1 ++ e :: c1) with ((f :: b1) ++ e :: c1) in H. rewrite app_assoc in H.
    destruct (unique_pos _ _ _ _ _ _ _ Hk H) as (_ & -> & _). apply in_elt.
  - intros (Hf' & Hi). split; [exact Hf'|]. apply in_split in Hi. destruct Hi as (a1 & b1 & ->).
    exists p, a1, b1, b. rewrite <- app_assoc in Hk. exact Hk.
Qed.
Lemma later_in p e a b f : kids d p (a ++ e :: b) -> (later_elt d e f <-> (element d f /\ In f b)).
Proof.
  intros Hk. split.
  - intros (Hf' & q & a1 & b1 & c1 & H). split; [exact Hf'|].
    destruct (unique_pos _ _ _ _ _ _ _ Hk H) as (_ & _ & ->). apply in_elt.
  - intros (Hf' & Hi). split; [exact Hf'|]. apply in_split in Hi. destruct Hi as (a1 & b1 & ->).
    exists p, a, a1, b1. exact Hk.
Qed.
Lemma sib_kid q a e b (l := a ++ e :: b) : kids d q l -> kid d q e.
Proof. intros H. exists l. split; [exact H|]. apply in_elt. Qed.
Lemma no_earlier e f : (forall p, ~ kid d p e) -> ~ earlier_elt d e f.
Proof.
  intros H (_ & q & a & b & c & Hk). change (f :: b ++ e :: c) with ((f :: b) ++ e :: c) in Hk. rewrite app_assoc in Hk.
  exact (H q (sib_kid _ _ _ _ Hk)).
Qed.
Lemma no_later e f : (forall p, ~ kid d p e) -> ~ later_elt d e f.
Proof. intros H (_ & q & a & b & c & Hk). exact (H q (sib_kid _ _ _ _ Hk)). Qed.

Lemma prev_spec e : node_of d e -> exists o, prev_sibling_element fuel d e = Ok o /\
  (forall f, o = Some f <-> previous_elt d e f) /\ (o = None <-> forall f, ~ earlier_elt d e f).
Proof.
  intros He. destruct (sib_cases d e Hd He) as [(p & a & b & Hk)|(Hno & n & Hn & Hp & _)].
  - exists (find (elementb d) (rev a)). split; [exact (prev_ok p e a b Hk)|]. split.
    + intros f. split.
      * intros H. apply find_rev_split in H. destruct H as (H1 & a1 & a2 & -> & H2). split; [apply elementb_iff; exact H1|].
        exists p, a1, a2, b. rewrite <- app_assoc in Hk. split; [exact Hk|]. intros x Hx. apply elementb_false. auto.
      * intros (H1 & q & a1 & b1 & c1 & H & Hb).
        change (f :: b1 ++ e :: c1) with ((f :: b1) ++ e :: c1) in H. rewrite app_assoc in H.
        destruct (unique_pos _ _ _ _ _ _ _ Hk H) as (_ & -> & _). rewrite rev_app_distr. cbn [rev]. rewrite <- app_assoc. cbn [app].
        assert (forall x, In x (rev b1) -> elementb d x = false) as Hb'.
        { intros x Hx. apply elementb_false, Hb. apply in_rev. exact Hx. }
        clear - Hb' H1. induction (rev b1) as [|y l IH]; cbn.
        -- apply elementb_iff in H1. rewrite H1. reflexivity.
        -- rewrite (Hb' y) by (left; reflexivity). apply IH. intros x Hx. apply Hb'. right. exact Hx.
    + split.
      * intros H f Hf'. apply (earlier_in p e a b f Hk) in Hf'. destruct Hf' as [H1 H2].
        pose proof (find_none _ _ H f) as H3. rewrite <- in_rev in H3. apply elementb_iff in H1. rewrite (H3 H2) in H1. discriminate.
      * intros H. destruct (find (elementb d) (rev a)) as [f|] eqn:E; [|reflexivity]. exfalso.
        apply find_some in E. destruct E as [E1 E2]. apply (H f). apply (earlier_in p e a b f Hk).
        split; [apply elementb_iff; exact E2|apply in_rev; exact E1].
  - exists None. split; [exact (prev_none e n Hn Hp)|]. split.
    + intros f. split; [discriminate|]. intros (H & q & a & b & c & Hk & _). exfalso.
      apply (no_earlier e f Hno). split; [exact H|]. eauto.
    + split; [|reflexivity]. intros _ f. apply no_earlier. exact Hno.
Qed.
Lemma next_spec e : node_of d e -> exists o, next_sibling_element fuel d e = Ok o /\
  (forall f, o = Some f <-> next_elt d e f) /\ (o = None <-> forall f, ~ later_elt d e f).
Proof.
  intros He. destruct (sib_cases d e Hd He) as [(p & a & b & Hk)|(Hno & n & Hn & _ & Hp & _)].
  - exists (find (elementb d) b). split; [exact (next_ok p e a b Hk)|]. split.
    + intros f. split.
      * intros H. apply find_split in H. destruct H as (H1 & a1 & a2 & -> & H2). split; [apply elementb_iff; exact H1|].
        exists p, a, a1, a2. split; [exact Hk|]. intros x Hx. apply elementb_false. auto.
      * intros (H1 & q & a1 & b1 & c1 & H & Hb).
        destruct (unique_pos _ _ _ _ _ _ _ Hk H) as (_ & _ & ->).
        assert (forall x, In x b1 -> elementb d x = false) as Hb'.
        { intros x Hx. apply elementb_false, Hb. exact Hx. }
        clear - Hb' H1. induction b1 as [|y l IH]; cbn.
        -- apply elementb_iff in H1. rewrite H1. reflexivity.
        -- rewrite (Hb' y) by (left; reflexivity). apply IH. intros x Hx. apply Hb'. right. exact Hx.
    + split.
      * intros H f Hf'. apply (later_in p e a b f Hk) in Hf'. destruct Hf' as [H1 H2].
        pose proof (find_none _ _ H f H2) as H3. apply elementb_iff in H1. congruence.
      * intros H. destruct (find (elementb d) b) as [f|] eqn:E; [|reflexivity]. exfalso.
        apply find_some in E. destruct E as [E1 E2]. apply (H f). apply (later_in p e a b f Hk).
        split; [apply elementb_iff; exact E2|exact E1].
  - exists None. split; [exact (next_none e n Hn Hp)|]. split.
    + intros f. split; [discriminate|]. intros (H & q & a & b & c & Hk & _). exfalso.
      apply (no_later e f Hno). split; [exact H|]. eauto.
    + split; [|reflexivity]. intros _ f. apply no_later. exact Hno.
Qed.

Lemma parent_spec e : node_of d e -> exists o, parent_element d e = Ok o /\ (forall p, o = Some p <-> parent_elt d e p).
Proof.
  intros He. destruct (nth_error (nodes d) e) as [n|] eqn:En.
  2:{ exfalso. apply nth_error_None in En. destruct He. lia. }
  unfold parent_element, getn. rewrite En. cbn [bind].
  assert (parent_of d e = n_parent n) as Ep by (unfold parent_of; rewrite En; reflexivity).
  destruct (n_parent n) as [q|] eqn:E.
  - pose proof (parent_node d q e Hd He Ep) as Hq.
    destruct (nth_error (nodes d) q) as [m|] eqn:Em.
    2:{ exfalso. apply nth_error_None in Em. destruct Hq. lia. }
    cbn [bind]. eexists. split; [reflexivity|]. intros p. rewrite <- (elementb_node d q m Em).
    destruct (elementb d q) eqn:Eq.
    + split.
      * intros [= <-]. split; [apply (kid_parent d q e Hd); auto|apply elementb_iff; exact Eq].
      * intros [H1 H2]. apply (kid_parent d p e Hd) in H1. destruct H1 as (_ & _ & H1). congruence.
    + split; [discriminate|]. intros [H1 H2]. apply (kid_parent d p e Hd) in H1. destruct H1 as (_ & _ & H1).
      assert (p = q) by congruence. subst. apply elementb_iff in H2. congruence.
  - exists None. split; [reflexivity|]. intros p. split; [discriminate|]. intros [H1 _]. apply (kid_parent d p e Hd) in H1.
    destruct H1 as (_ & _ & H1). congruence.
Qed.

Lemma elt_node e p : parent_elt d e p -> node_of d p /\ node_of d e.
Proof. intros [H _]. apply (kid_parent d p e Hd) in H. tauto. Qed.
Lemma earlier_node e f : earlier_elt d e f -> node_of d e /\ node_of d f.
Proof.
  intros (_ & q & a & b & c & Hk). split.
  - apply (in_kids_node d q _ e Hd Hk). apply in_app_iff. right; right. apply in_elt.
  - apply (in_kids_node d q _ f Hd Hk). apply in_elt.
Qed.
Lemma earlier_parent e f p : earlier_elt d e f -> (parent_elt d e p <-> parent_elt d f p).
Proof.
  intros (_ & q & a & b & c & Hk). unfold parent_elt. rewrite !(kid_parent d p _ Hd).
  destruct (in_kids_node d q _ e Hd Hk) as (H1 & H2 & H3); [apply in_app_iff; right; right; apply in_elt|].
  destruct (in_kids_node d q _ f Hd Hk) as (H1' & H2' & H3'); [apply in_elt|]. rewrite H2, H2'. tauto.
Qed.
Lemma earlier_trans e f g : earlier_elt d e f -> earlier_elt d f g -> earlier_elt d e g.
Proof.
  intros (_ & q & a & b & c & Hk) H. apply (earlier_in q f a (b ++ e :: c) g Hk) in H. destruct H as [H1 H2].
  split; [exact H1|]. apply in_split in H2. destruct H2 as (a1 & a2 & ->). rewrite <- app_assoc in Hk. cbn in Hk.
  exists q, a1, (a2 ++ f :: b), c. rewrite <- app_assoc. exact Hk.
Qed.
Lemma previous_earlier e f : previous_elt d e f -> earlier_elt d e f.
Proof. intros (H & q & a & b & c & Hk & _). split; [exact H|]. eauto. Qed.

(** The elements before e, nearest first. *)
Lemma previous_ok : forall steps p e a b, kids d p (a ++ e :: b) -> length a < steps ->
  previous steps fuel d e = Ok (filter (elementb d) (rev a)).
Proof.
  induction steps as [|s IH]; intros p e a b Hk Hs; [lia|]. cbn [previous]. rewrite (prev_ok p e a b Hk). cbn [bind].
  destruct (find (elementb d) (rev a)) as [f|] eqn:E.
  - apply find_rev_split in E. destruct E as (H1 & a1 & a2 & -> & H2). rewrite app_length in Hs. cbn in Hs.
    rewrite <- app_assoc in Hk. cbn in Hk. rewrite (IH p f a1 (a2 ++ e :: b) Hk) by lia. cbn [bind].
    rewrite rev_app_distr. cbn [rev]. rewrite <- app_assoc, filter_app. cbn [app filter]. rewrite H1.
    assert (filter (elementb d) (rev a2) = []) as ->; [|reflexivity].
    assert (forall y, In y (rev a2) -> elementb d y = false) as Hb by (intros y Hy; apply H2, in_rev; exact Hy).
    clear - Hb. induction (rev a2) as [|y l IHl]; [reflexivity|]. cbn. rewrite Hb by (left; reflexivity). apply IHl. intros z Hz. apply Hb. right. exact Hz.
  - assert (filter (elementb d) (rev a) = []) as ->; [|reflexivity].
    pose proof (find_none _ _ E) as Hb. clear - Hb. induction (rev a) as [|y l IHl]; [reflexivity|]. cbn. rewrite Hb by (left; reflexivity). apply IHl. intros z Hz. apply Hb. right. exact Hz.
Qed.
Lemma previous_nil steps e n : nth_error (nodes d) e = Some n -> n_prev n = None -> 0 < steps -> previous steps fuel d e = Ok [].
Proof. intros Hn Hp Hs. destruct steps; [lia|]. cbn. rewrite (prev_none e n Hn Hp). reflexivity. Qed.

(** A list of candidates in the order of relation R, nearest first. *)
Definition nearest_first (R : nat -> nat -> Prop) (e : nat) (l : list nat) : Prop :=
  (forall y, In y l <-> R e y) /\ (forall l1 x l2, l = l1 ++ x :: l2 -> forall y, In y l2 -> R x y).

Lemma previous_spec e : node_of d e -> exists l, previous fuel fuel d e = Ok l /\ nearest_first (earlier_elt d) e l.
Proof.
  intros He. assert (0 < fuel) by (destruct He; lia).
  destruct (sib_cases d e Hd He) as [(p & a & b & Hk)|(Hno & n & Hn & Hp & _)].
  - exists (filter (elementb d) (rev a)). pose proof (kids_bound d p _ Hd Hk) as Hb. rewrite app_length in Hb.
    split; [apply (previous_ok fuel p e a b Hk); lia|]. split.
    + intros y. rewrite filter_In, <- in_rev, elementb_iff, (earlier_in p e a b y Hk). tauto.
    + clear He Hb H. revert e b Hk. induction a as [|x a IH] using rev_ind; intros e b Hk l1 z l2 E y Hy.
      * destruct l1; discriminate.
      * rewrite rev_app_distr in E. cbn [rev app filter] in E. rewrite <- app_assoc in Hk. cbn in Hk.
        destruct (elementb d x) eqn:Ex.
        -- destruct l1 as [|u l1]; cbn in E.
           ++ injection E as -> E. rewrite <- E in Hy. apply filter_In in Hy. destruct Hy as [Hy1 Hy2].
              apply (earlier_in p z a (e :: b) y Hk). split; [apply elementb_iff; exact Hy2|apply in_rev; exact Hy1].
           ++ injection E as -> E. eapply (IH u (e :: b) Hk); eassumption.
        -- eapply (IH x (e :: b) Hk); eassumption.
  - exists []. split; [apply (previous_nil fuel e n Hn Hp); assumption|]. split.
    + intros y. split; [intros []|]. intros H0. exact (no_earlier e y Hno H0).
    + intros l1 x l2 E. destruct l1; discriminate.
Qed.

(** The ancestors of e, nearest first. *)
Lemma parent_fun e p q : parent_elt d e p -> parent_elt d e q -> p = q.
Proof. intros [H1 _] [H2 _]. apply (kid_parent d _ _ Hd) in H1, H2. destruct H1 as (_ & _ & H1), H2 as (_ & _ & H2). congruence. Qed.
Lemma ancestor_step e y : ancestor_elt d e y <-> exists p, parent_elt d e p /\ (y = p \/ ancestor_elt d p y).
Proof.
  split.
  - intros H. apply clos_trans_t1n in H. inversion H; subst; eauto. exists y0. split; [assumption|]. right. apply clos_t1n_trans. assumption.
  - intros (p & H & [->|H']); [apply t_step; exact H|]. eapply t_trans; [apply t_step; exact H|exact H'].
Qed.
Lemma ancestor_below e y : ancestor_elt d e y -> below d y e.
Proof. induction 1 as [x y [H _]|]; [apply t_step; exact H|eapply t_trans; eassumption]. Qed.

Lemma ancestors_ok : forall steps vis e, node_of d e -> NoDup (e :: vis) -> (forall v, In v vis -> node_of d v /\ below d e v) ->
  length (nodes d) <= length vis + steps ->
  exists l, ancestors steps d e = Ok l /\ nearest_first (ancestor_elt d) e l.
Proof.
  induction steps as [|s IH]; intros vis e He Hnd Hv Hs.
  - exfalso. assert (incl (e :: vis) (seq 1 (length (nodes d) - 1))) as Hi.
    { intros v [<-|Hin]; apply in_seq; [destruct He; lia|]. destruct (Hv v Hin) as [[? ?] _]. lia. }
    pose proof (NoDup_incl_length Hnd Hi) as H. rewrite seq_length in H. cbn in H. destruct He. lia.
  - cbn [ancestors]. destruct (parent_spec e He) as (o & E & Ho). rewrite E. cbn [bind]. destruct o as [p|].
    + assert (parent_elt d e p) as Hp by (apply Ho; reflexivity). destruct (elt_node e p Hp) as [Hpn _].
      assert (below d p e) as Hbe by (apply t_step; apply Hp).
      destruct (IH (e :: vis) p) as (l & El & H1 & H2).
      * exact Hpn.
      * constructor; [|exact Hnd]. intros [<-|Hin].
        -- exact (reach_acyclic d e Hd Hbe).
        -- destruct (Hv p Hin) as [_ Hb]. apply (reach_acyclic d p Hd). eapply t_trans; eassumption.
      * intros v [<-|Hin]; [split; assumption|]. destruct (Hv v Hin) as [Hn Hb]. split; [exact Hn|]. eapply t_trans; eassumption.
      * cbn. lia.
      * rewrite El. cbn [bind]. exists (p :: l). split; [reflexivity|]. split.
        -- intros y. rewrite ancestor_step. split.
           ++ intros [<-|Hy]; exists p; split; auto. right. apply H1. exact Hy.
           ++ intros (q & Hq & Hor). pose proof (parent_fun e p q Hp Hq) as <-. destruct Hor as [->|Hor]; [left; reflexivity|right; apply H1; exact Hor].
        -- intros l1 x l2 El' y Hy. destruct l1 as [|u l1]; cbn in El'.
           ++ injection El' as -> ->. apply H1. exact Hy.
           ++ injection El' as -> El'. eapply H2; eassumption.
    + exists []. split; [reflexivity|]. split.
      * intros y. split; [intros []|]. rewrite ancestor_step. intros (p & Hp & _). apply Ho in Hp. discriminate.
      * intros l1 x l2 El'. destruct l1; discriminate.
Qed.
Lemma ancestors_spec e : node_of d e -> exists l, ancestors fuel d e = Ok l /\ nearest_first (ancestor_elt d) e l.
Proof.
  intros He. apply (ancestors_ok fuel [] e He); [constructor; [intros []|constructor]|intros ? []|cbn; lia].
Qed.

(** * Simple selectors *)

Lemma nth_index_ok_prev : forall steps self p e a b i, kids d p (a ++ e :: b) -> length a < steps ->
  nth_index fuel steps d false false self e i = Ok (i + Z.of_nat (length (filter (elementb d) a)))%Z.
Proof.
  induction steps as [|s IH]; intros self p e a b i Hk Hs; [lia|]. cbn [nth_index]. rewrite (prev_ok p e a b Hk). cbn [bind].
  destruct (find (elementb d) (rev a)) as [f|] eqn:E.
  - apply find_rev_split in E. destruct E as (H1 & a1 & a2 & -> & H2). rewrite app_length in Hs. cbn in Hs.
    rewrite <- app_assoc in Hk. cbn in Hk. cbn [bind]. rewrite (IH self p f a1 (a2 ++ e :: b) _ Hk) by lia.
    rewrite filter_app. cbn [filter]. rewrite H1, app_length. cbn [length].
    assert (filter (elementb d) a2 = []) as ->.
    { clear - H2. induction a2 as [|y l IHl]; [reflexivity|]. cbn. rewrite H2 by (left; reflexivity). apply IHl. intros z Hz. apply H2. right. exact Hz. }
    cbn [length]. f_equal. lia.
  - assert (filter (elementb d) a = []) as ->; [|f_equal; cbn; lia].
    pose proof (find_none _ _ E) as Hb. setoid_rewrite <- in_rev in Hb.
    clear - Hb. induction a as [|y l IHl]; [reflexivity|]. cbn. rewrite Hb by (left; reflexivity). apply IHl. intros z Hz. apply Hb. right. exact Hz.
Qed.
Lemma nth_index_ok_next : forall steps self p e a b i, kids d p (a ++ e :: b) -> length b < steps ->
  nth_index fuel steps d true false self e i = Ok (i + Z.of_nat (length (filter (elementb d) b)))%Z.
Proof.
  induction steps as [|s IH]; intros self p e a b i Hk Hs; [lia|]. cbn [nth_index]. rewrite (next_ok p e a b Hk). cbn [bind].
  destruct (find (elementb d) b) as [f|] eqn:E.
  - apply find_split in E. destruct E as (H1 & a1 & a2 & -> & H2). rewrite app_length in Hs. cbn in Hs.
    assert (kids d p ((a ++ e :: a1) ++ f :: a2)) as Hk' by (rewrite <- app_assoc; exact Hk).
    cbn [bind]. rewrite (IH self p f (a ++ e :: a1) a2 _ Hk') by lia.
    rewrite filter_app. cbn [filter]. rewrite H1, app_length. cbn [length].
    assert (filter (elementb d) a1 = []) as ->.
    { clear - H2. induction a1 as [|y l IHl]; [reflexivity|]. cbn. rewrite H2 by (left; reflexivity). apply IHl. intros z Hz. apply H2. right. exact Hz. }
    cbn [length]. f_equal. lia.
  - assert (filter (elementb d) b = []) as ->; [|f_equal; cbn; lia].
    pose proof (find_none _ _ E) as Hb.
    clear - Hb. induction b as [|y l IHl]; [reflexivity|]. cbn. rewrite Hb by (left; reflexivity). apply IHl. intros z Hz. apply Hb. right. exact Hz.
Qed.
Lemma position_fun from_end e i j : position d from_end e i -> position d from_end e j -> i = j.
Proof.
  intros [(q & l1 & l2 & Hk & ->)|[Hno ->]] [(q' & l1' & l2' & Hk' & ->)|[Hno' ->]].
  - destruct (unique_pos _ _ _ _ _ _ _ Hk Hk') as (_ & -> & ->). reflexivity.
  - exfalso. exact (Hno' q (sib_kid _ _ _ _ Hk)).
  - exfalso. exact (Hno q' (sib_kid _ _ _ _ Hk')).
  - reflexivity.
Qed.
Lemma nth_spec from_end e : node_of d e -> exists i, nth_index fuel fuel d from_end false e e 1 = Ok i /\ position d from_end e i.
Proof.
  intros He. assert (0 < fuel) by (destruct He; lia).
  destruct (sib_cases d e Hd He) as [(p & a & b & Hk)|(Hno & n & Hn & Hp & Hx & _)].
  - pose proof (kids_bound d p _ Hd Hk) as Hb. rewrite app_length in Hb. cbn in Hb.
    eexists. split; [|left; exists p, a, b; split; [exact Hk|reflexivity]].
    destruct from_end; [apply (nth_index_ok_next fuel e p e a b 1 Hk)|apply (nth_index_ok_prev fuel e p e a b 1 Hk)]; lia.
  - exists 1%Z. split; [|right; auto]. rewrite nth_index_step by assumption.
    destruct from_end; [rewrite (next_none e n Hn Hx)|rewrite (prev_none e n Hn Hp)]; reflexivity.
Qed.
Lemma nth_test_iff a b i : nth_test a b i = true <-> exists n, (0 <= n)%Z /\ (a * n + b = i)%Z.
Proof.
  unfold nth_test. destruct (Z.eqb_spec a 0) as [->|Ha].
  - rewrite Z.eqb_eq. split; [intros H; exists 0%Z; lia|intros (n & _ & H); lia].
  - rewrite andb_true_iff, Z.leb_le, Z.eqb_eq. split.
    + intros [H1 H2]. exists (Z.quot (i - b) a). lia.
    + intros (n & Hn & H). assert (i - b = n * a)%Z as -> by lia. rewrite Z.quot_mul by exact Ha. lia.
Qed.

Lemma empty_loop_ok : forall l i fu, gch d n_next (Some i) l -> length l <= fu ->
  exists r, is_empty_loop fu d i = Ok r /\ (r = true <-> forall k, In k l -> ~ element d k /\ own_text d k = []).
Proof.
  induction l as [|x l IH]; intros i fu H Hl; inversion H as [|i' n l' H3 H5 E1 E2]; subst.
  destruct fu as [|fu]; [cbn in Hl; lia|]. cbn [is_empty_loop]. unfold getn. rewrite H3. cbn [bind].
  pose proof (elementb_node _ _ _ H3) as Eb. destruct (is_element_data (n_data n)) eqn:E.
  - exists false. split; [reflexivity|]. split; [discriminate|]. intros Hk. exfalso. apply (proj1 (Hk x (or_introl eq_refl))). apply elementb_iff. exact Eb.
  - apply elementb_false in Eb.
    assert (own_text d x = match n_data n with DText t => t | _ => [] end) as Et.
    { unfold own_text, data_of. rewrite H3. reflexivity. }
    destruct (match n_data n with DText t => negb (length t =? 0) | _ => false end) eqn:E2.
    + exists false. split; [reflexivity|]. split; [discriminate|]. intros Hk. exfalso. destruct (Hk x (or_introl eq_refl)) as [_ Ht].
      rewrite Et in Ht. revert E2 Ht. clear. destruct (n_data n); try discriminate. intros E2 ->. discriminate.
    + assert (own_text d x = []) as Et'.
      { rewrite Et. clear - E2. revert E2. destruct (n_data n) as [| |t| | |]; intros E2; try reflexivity. destruct t; [reflexivity|discriminate]. }
      destruct (n_next n) as [j|] eqn:En.
      * destruct (IH j fu H5) as (r & Er & Hr); [cbn in Hl; lia|]. exists r. split; [exact Er|]. rewrite Hr. split.
        -- intros Hk k [<-|Hin]; auto.
        -- intros Hk k Hin. apply Hk. right. exact Hin.
      * inversion H5; subst. exists true. split; [reflexivity|]. split; [|reflexivity]. intros _ k [<-|[]]. auto.
Qed.
Lemma empty_spec e : node_of d e -> exists r, is_empty fuel d e = Ok r /\ (r = true <-> forall k, kid d e k -> ~ element d k /\ own_text d k = []).
Proof.
  intros He. destruct (reach_kids d e Hd He) as (l & Hl & _ & _). pose proof (kids_bound d e l Hd Hl) as Hb.
  destruct Hl as (n & Hn & Hc). unfold is_empty, getn. rewrite Hn. cbn [bind]. destruct (n_first n) as [j|] eqn:Ef.
  - destruct (empty_loop_ok l j fuel) as (r & Er & Hr); [apply chain_gch; exact Hc|lia|]. exists r. split; [exact Er|]. rewrite Hr. split.
    + intros H k (l' & (n' & Hn' & Hc') & Hk). assert (n' = n) by congruence. subst. rewrite Ef in Hc'.
      rewrite (chain_fun _ _ _ Hc' _ Hc) in Hk. auto.
    + intros H k Hk. apply H. exists l. split; [|exact Hk]. exists n. rewrite Ef. auto.
  - exists true. split; [reflexivity|]. split; [|reflexivity]. intros _ k (l' & (n' & Hn' & Hc') & Hk). assert (n' = n) by congruence. subst. rewrite Ef in Hc'.
    inversion Hc'; subst. destruct Hk.
Qed.

Lemma unwrap_ok e x : data_of d e = Some (DElement x) -> unwrap_element d e = Ok x.
Proof.
  unfold data_of, unwrap_element, getn. destruct (nth_error (nodes d) e); [|discriminate]. cbn. intros [= ->]. reflexivity.
Qed.

Section SimpleInd.
Variable P : simple -> Prop.
Hypothesis H1 : forall a b, P (SLocal a b).
Hypothesis H2 : forall a, P (SNamespace a).
Hypothesis H3 : forall a, P (SId a).
Hypothesis H4 : forall a, P (SClass a).
Hypothesis H5 : forall a b c, P (SAttr a b c).
Hypothesis H6 : P SRoot.
Hypothesis H7 : P SEmpty.
Hypothesis H8 : P SFirstChild.
Hypothesis H9 : P SLastChild.
Hypothesis H10 : P SOnlyChild.
Hypothesis H11 : forall x y a b, P (SNth x y a b).
Hypothesis H12 : forall l, Forall P l -> P (SNot l).
Fixpoint simple_ind' (s : simple) : P s :=
  match s with
  | SLocal a b => H1 a b | SNamespace a => H2 a | SId a => H3 a | SClass a => H4 a | SAttr a b c => H5 a b c
  | SRoot => H6 | SEmpty => H7 | SFirstChild => H8 | SLastChild => H9 | SOnlyChild => H10
  | SNth x y a b => H11 x y a b
  | SNot l => H12 l ((fix go l := match l return Forall P l with
                                  | [] => Forall_nil P
                                  | s :: r => Forall_cons s (simple_ind' s) (go r)
                                  end) l)
  end.
End SimpleInd.

Lemma simple_match_ok e (He : node_of d e) (Hel : element d e) s : simple_supported s ->
  exists r, simple_match fuel d e s = Ok r /\ (r = true <-> simple_holds d e s).
Proof.
  destruct Hel as (x & Hx). pose proof (unwrap_ok e x Hx) as Hu.
  induction s using simple_ind'; intros Hs.
  - cbn [simple_match simple_holds]. unfold is_html_element_in_html_document, has_local_name. rewrite Hu. cbn [bind].
    eexists. split; [reflexivity|]. rewrite String.eqb_eq. split; [intros H; exists x; auto|intros (x' & E & H); assert (x' = x) by congruence; subst x'; first [exact H|congruence]].
  - cbn [simple_match simple_holds]. unfold has_namespace. rewrite Hu. cbn [bind].
    eexists. split; [reflexivity|]. rewrite String.eqb_eq. split; [intros H; exists x; auto|intros (x' & E & H); assert (x' = x) by congruence; subst x'; first [exact H|congruence]].
  - cbn [simple_match simple_holds]. unfold has_id. rewrite Hu. cbn [bind].
    eexists. split; [reflexivity|]. destruct (get_attr x "id") as [v|] eqn:Ev.
    + rewrite String.eqb_eq. split; [intros ->; exists x; auto|intros (x' & E & H); assert (x' = x) by congruence; subst x'; first [exact H|congruence]].
    + split; [discriminate|intros (x' & E & H); assert (x' = x) by congruence; subst x'; first [exact H|congruence]].
  - cbn [simple_match simple_holds]. unfold has_class. rewrite Hu. cbn [bind].
    eexists. split; [reflexivity|]. destruct (get_attr x "class") as [v|] eqn:Ev.
    + rewrite String.eqb_eq. split; [intros ->; exists x; auto|intros (x' & E & H); assert (x' = x) by congruence; subst x'; first [exact H|congruence]].
    + split; [discriminate|intros (x' & E & H); assert (x' = x) by congruence; subst x'; first [exact H|congruence]].
  - cbn [simple_match simple_holds]. unfold attr_matches. rewrite Hu. cbn [bind].
    eexists. split; [reflexivity|]. rewrite existsb_exists. split.
    + intros (at' & Hin & Hb). apply andb_true_iff in Hb. destruct Hb as [Hb Hop]. apply andb_true_iff in Hb. destruct Hb as [Hl Hn].
      apply String.eqb_eq in Hl. exists x, at'. repeat split; auto. intros n ->. apply String.eqb_eq. exact Hn.
    + intros (x' & at' & E & Hin & Hl & Hn & Hop). assert (x' = x) by congruence. subst x'. exists at'. split; [exact Hin|].
      rewrite Hl, String.eqb_refl, Hop, andb_true_r. cbn. destruct a as [n|]; [|reflexivity]. apply String.eqb_eq. auto.
  - cbn [simple_match simple_holds]. unfold is_root. destruct (parent_spec e He) as (o & E & Ho). rewrite E. cbn [bind].
    eexists. split; [reflexivity|]. destruct o as [p|]; cbn.
    + split; [discriminate|]. intros H. exfalso. apply (H p). apply Ho. reflexivity.
    + split; [|reflexivity]. intros _ p Hp. apply Ho in Hp. discriminate.
  - cbn [simple_match simple_holds]. apply empty_spec. exact He.
  - cbn [simple_match simple_holds]. destruct (prev_spec e He) as (o & E & _ & Ho). rewrite E. cbn [bind].
    eexists. split; [reflexivity|]. rewrite <- Ho. destruct o; cbn; split; congruence.
  - cbn [simple_match simple_holds]. destruct (next_spec e He) as (o & E & _ & Ho). rewrite E. cbn [bind].
    eexists. split; [reflexivity|]. rewrite <- Ho. destruct o; cbn; split; congruence.
  - cbn [simple_match simple_holds]. destruct (prev_spec e He) as (o & E & _ & Ho). destruct (next_spec e He) as (o' & E' & _ & Ho').
    rewrite E. cbn [bind]. setoid_rewrite <- Ho. setoid_rewrite <- Ho'. destruct o; cbn [is_none].
    + eexists. split; [reflexivity|]. split; [discriminate|intros [? _]; discriminate].
    + rewrite E'. cbn [bind]. eexists. split; [reflexivity|]. destruct o'; cbn; split; intros; try discriminate; auto. destruct H; discriminate.
  - cbn [simple_supported] in Hs. subst y. cbn [simple_match simple_holds]. destruct (nth_spec x0 e He) as (i & E & Hp). rewrite E. cbn [bind].
    eexists. split; [reflexivity|]. rewrite nth_test_iff. split.
    + intros (n & Hn & H). exists n, i. auto.
    + intros (n & i' & Hn & Hp' & H). rewrite (position_fun _ _ _ _ Hp Hp'). eauto.
  - cbn [simple_match simple_holds].
    assert (exists r, (fix all (l0 : list simple) : result bool :=
       match l0 with [] => Ok true | s :: r => do b <- simple_match fuel d e s; (if b then all r else Ok false) end) l = Ok r /\
       (r = true <-> (fix all (l0 : list simple) : Prop := match l0 with [] => True | s :: r => simple_holds d e s /\ all r end) l)) as (r & E & Hr).
    { cbn [simple_supported] in Hs. clear Hu. revert Hs. induction H as [|s l HP HF IH]; intros Hs.
      - exists true. tauto.
      - destruct Hs as [Hs1 Hs2]. destruct (HP Hs1) as (b & Eb & Hb). destruct (IH Hs2) as (r & E & Hr). rewrite Eb. cbn [bind]. destruct b.
        + exists r. split; [exact E|]. rewrite Hr. tauto.
        + exists false. split; [reflexivity|]. split; [discriminate|]. intros [H0 _]. apply Hb in H0. discriminate. }
    rewrite E. cbn [bind]. eexists. split; [reflexivity|]. rewrite <- Hr. destruct r; cbn; split; congruence.
Qed.
Lemma compound_match_ok e (He : node_of d e) (Hel : element d e) l : Forall simple_supported l ->
  exists r, compound_match fuel d e l = Ok r /\ (r = true <-> compound_holds d e l).
Proof.
  induction l as [|s l IH]; intros Hs; [exists true; cbn; tauto|]. inversion Hs; subst.
  destruct (simple_match_ok e He Hel s H1) as (b & Eb & Hb). destruct (IH H2) as (r & E & Hr).
  cbn [compound_match compound_holds]. rewrite Eb. cbn [bind]. destruct b.
  - exists r. split; [exact E|]. rewrite Hr. tauto.
  - exists false. split; [reflexivity|]. split; [discriminate|]. intros [H0 _]. apply Hb in H0. discriminate.
Qed.

(** * Whole selectors *)

Definition up : nat -> nat -> Prop := clos_refl_trans nat (fun e f => parent_elt d e f \/ earlier_elt d e f).
Definition out (S : nat -> Prop) (r : outcome) (e : nat) : Prop :=
  match r with
  | Matched => S e
  | RestartLaterSibling => ~ S e
  | RestartDescendant => ~ S e /\ forall f, earlier_elt d e f -> ~ S f
  | NotGlobally => forall f, up e f -> ~ S f
  end.
Lemma out_fails S r e : out S r e -> r <> Matched -> ~ S e.
Proof. destruct r; cbn; intros H Hne; try congruence; try tauto. apply H. apply rt_refl. Qed.

Lemma walk_ok k (f : nat -> result outcome) nf (S : nat -> Prop) l :
  (forall x, In x l -> exists r, f x = Ok r /\ out S r x) ->
  exists r, walk k f nf l = Ok r /\
    ((r = Matched /\ exists x, In x l /\ S x) \/
     (r = nf /\ (forall x, In x l -> ~ S x) /\ (l = [] \/ k = CDescendant \/ k = CLaterSibling)) \/
     (exists l1 x l2, l = l1 ++ x :: l2 /\ (forall y, In y l1 -> ~ S y) /\
        ((r = NotGlobally /\ out S NotGlobally x) \/
         (k = CNextSibling /\ (r = RestartLaterSibling \/ r = RestartDescendant) /\ out S r x) \/
         (k = CChild /\ r = RestartDescendant /\ ~ S x) \/
         (k = CLaterSibling /\ r = RestartDescendant /\ out S r x)))).
Proof.
  induction l as [|x l IH]; intros H.
  - exists nf. split; [reflexivity|]. right; left. split; [reflexivity|]. split; [intros ? []|]. left; reflexivity.
  - destruct (H x (or_introl eq_refl)) as (r & Er & Hr). cbn [walk]. rewrite Er. cbn [bind].
    assert (H' : forall y, In y l -> exists r, f y = Ok r /\ out S r y) by (intros y Hy; apply H; right; exact Hy).
    destruct r eqn:Erx.
    + exists Matched. split; [destruct k; reflexivity|]. left. split; [reflexivity|]. exists x. split; [left; reflexivity|exact Hr].
    + assert (Hx : ~ S x) by exact Hr. destruct k.
      * eexists. split; [reflexivity|]. right; right. exists [], x, l. split; [reflexivity|]. split; [intros ? []|]. tauto.
      * destruct (IH H') as (r' & E' & C). exists r'. split; [exact E'|]. destruct C as [(-> & y & Hy & HS)|[(-> & Hall & Hk)|(l1 & y & l2 & -> & Hl1 & C)]].
        -- left. split; [reflexivity|]. exists y. split; [right; exact Hy|exact HS].
        -- right; left. split; [reflexivity|]. split; [intros y [<-|Hy]; auto|]. tauto.
        -- right; right. exists (x :: l1), y, l2. split; [reflexivity|]. split; [intros z [<-|Hz]; auto|exact C].
      * eexists. split; [reflexivity|]. right; right. exists [], x, l. split; [reflexivity|]. split; [intros ? []|]. cbn in *. tauto.
      * destruct (IH H') as (r' & E' & C). exists r'. split; [exact E'|]. destruct C as [(-> & y & Hy & HS)|[(-> & Hall & Hk)|(l1 & y & l2 & -> & Hl1 & C)]].
        -- left. split; [reflexivity|]. exists y. split; [right; exact Hy|exact HS].
        -- right; left. split; [reflexivity|]. split; [intros y [<-|Hy]; auto|]. tauto.
        -- right; right. exists (x :: l1), y, l2. split; [reflexivity|]. split; [intros z [<-|Hz]; auto|exact C].
    + assert (Hx : ~ S x) by exact (proj1 Hr). destruct k.
      * eexists. split; [reflexivity|]. right; right. exists [], x, l. split; [reflexivity|]. split; [intros ? []|]. tauto.
      * destruct (IH H') as (r' & E' & C). exists r'. split; [exact E'|]. destruct C as [(-> & y & Hy & HS)|[(-> & Hall & Hk)|(l1 & y & l2 & -> & Hl1 & C)]].
        -- left. split; [reflexivity|]. exists y. split; [right; exact Hy|exact HS].
        -- right; left. split; [reflexivity|]. split; [intros y [<-|Hy]; auto|]. tauto.
        -- right; right. exists (x :: l1), y, l2. split; [reflexivity|]. split; [intros z [<-|Hz]; auto|exact C].
      * eexists. split; [reflexivity|]. right; right. exists [], x, l. split; [reflexivity|]. split; [intros ? []|]. right; left. split; [reflexivity|]. split; [right; reflexivity|exact Hr].
      * eexists. split; [reflexivity|]. right; right. exists [], x, l. split; [reflexivity|]. split; [intros ? []|]. right; right; right. split; [reflexivity|]. split; [reflexivity|exact Hr].
    + eexists. split; [destruct k; reflexivity|]. right; right. exists [], x, l. split; [reflexivity|]. split; [intros ? []|]. left. split; [reflexivity|exact Hr].
Qed.

(** Relations seen from the closure. *)
Lemma ancestor_up e y : ancestor_elt d e y -> up e y.
Proof. induction 1; [apply rt_step; left; assumption|eapply rt_trans; eassumption]. Qed.
Lemma ancestor_of_up e f y : up e f -> ancestor_elt d f y -> ancestor_elt d e y.
Proof.
  intros H. apply clos_rt_rt1n in H. induction H as [|e g f Hs _ IH]; intros Hy; [exact Hy|]. specialize (IH Hy).
  destruct Hs as [Hp|He].
  - apply ancestor_step. exists g. auto.
  - apply ancestor_step in IH. destruct IH as (p & Hp & Hor). apply ancestor_step. exists p. split; [|exact Hor].
    apply (earlier_parent e g p He). exact Hp.
Qed.
Lemma earlier_up e f : earlier_elt d e f -> up e f.
Proof. intros H. apply rt_step. right. exact H. Qed.
(** Seen from e, what a combinator reaches from anywhere above or before e. *)
Lemma up_cases e f : up e f -> f = e \/ earlier_elt d e f \/ exists p, parent_elt d e p /\ up p f.
Proof.
  intros H. apply clos_rt_rt1n in H. destruct H as [|g f Hs H]; [left; reflexivity|]. apply clos_rt1n_rt in H. right.
  destruct Hs as [Hp|He]; [right; exists g; auto|].
  revert He. apply clos_rt_rt1n in H. induction H as [|g h f Hs H IH]; intros He; [left; exact He|].
  destruct Hs as [Hp|He']; [right; exists h; split; [apply (earlier_parent e g h He); exact Hp|apply clos_rt1n_rt; exact H]|].
  apply IH. eapply earlier_trans; eassumption.
Qed.
Lemma related_ok k e : node_of d e -> exists l, next_elements fuel d k e = Ok l /\ nearest_first (related d k) e l /\
  (k = CChild \/ k = CNextSibling -> length l <= 1).
Proof.
  intros He. destruct k; cbn [next_elements related].
  - destruct (parent_spec e He) as (o & E & Ho). rewrite E. cbn [bind]. eexists. split; [reflexivity|]. split; [|destruct o; cbn; lia]. split.
    + intros y. destruct o as [p|]; cbn.
      * rewrite <- Ho. split; [intros [->|[]]; reflexivity|intros [= ->]; auto].
      * rewrite <- Ho. split; [intros []|discriminate].
    + intros l1 x l2 E'. destruct o; cbn in E'; destruct l1 as [|u [|v l1]]; cbn in E'; try discriminate.
      injection E' as _ <-. intros ? [].
  - destruct (ancestors_spec e He) as (l & E & H). exists l. split; [exact E|]. split; [exact H|]. intros [|]; discriminate.
  - destruct (prev_spec e He) as (o & E & Ho & _). rewrite E. cbn [bind]. eexists. split; [reflexivity|]. split; [|destruct o; cbn; lia]. split.
    + intros y. destruct o as [p|]; cbn.
      * rewrite <- Ho. split; [intros [->|[]]; reflexivity|intros [= ->]; auto].
      * rewrite <- Ho. split; [intros []|discriminate].
    + intros l1 x l2 E'. destruct o; cbn in E'; destruct l1 as [|u [|v l1]]; cbn in E'; try discriminate.
      injection E' as _ <-. intros ? [].
  - destruct (previous_spec e He) as (l & E & H). exists l. split; [exact E|]. split; [exact H|]. intros [|]; discriminate.
Qed.
Lemma related_elt k e x : related d k e x -> node_of d x /\ element d x.
Proof.
  destruct k; cbn.
  - intros H. split; [apply (elt_node e x H)|apply H].
  - intros H. apply clos_trans_tn1 in H. destruct H as [y H|y z H _]; split; try apply (elt_node _ _ H); apply H.
  - intros H. apply previous_earlier in H. split; [apply (earlier_node e x H)|apply H].
  - intros H. split; [apply (earlier_node e x H)|apply H].
Qed.

Lemma previous_of_earlier e x f y : previous_elt d e x -> earlier_elt d e f -> previous_elt d f y -> f = x \/ earlier_elt d x f.
Proof.
  intros (H1 & q & a & b & c & Hk & Hb) He _.
  assert (Hk2 := Hk). change (x :: b ++ e :: c) with ((x :: b) ++ e :: c) in Hk2. rewrite app_assoc in Hk2.
  apply (earlier_in q e (a ++ x :: b) c f Hk2) in He. destruct He as [Hf1 Hin]. apply in_app_iff in Hin. destruct Hin as [Hin|[->|Hin]].
  - right. apply (earlier_in q x a (b ++ e :: c) f Hk). auto.
  - left. reflexivity.
  - exfalso. exact (Hb f Hin Hf1).
Qed.

Lemma match_complex_ok : forall rest c e, node_of d e -> element d e -> supported c rest ->
  exists r, match_complex fuel d c rest e = Ok r /\ out (selector_holds d c rest) r e.
Proof.
  induction rest as [|[k c'] rest IH]; intros c e He Hel [Hs1 Hs2]; cbn [match_complex];
    destruct (compound_match_ok e He Hel c Hs1) as (b & Eb & Hb); rewrite Eb; cbn [bind].
  - destruct b.
    + exists Matched. split; [reflexivity|]. cbn. split; [apply Hb; reflexivity|exact I].
    + exists RestartLaterSibling. split; [reflexivity|]. cbn. intros [H _]. apply Hb in H. discriminate.
  - destruct b.
    2:{ exists RestartLaterSibling. split; [reflexivity|]. cbn. intros [H _]. apply Hb in H. discriminate. }
    inversion Hs2 as [|? ? Hc' Hs2']; subst. cbn in Hc'.
    destruct (related_ok k e He) as (l & El & (Hin & Hord) & Hlen). rewrite El. cbn [bind].
    set (S' := selector_holds d c' rest).
    destruct (walk_ok k (fun x => match_complex fuel d c' rest x) (candidate_not_found k) S' l) as (r & Er & Hr).
    { intros x Hx. apply Hin in Hx. apply related_elt in Hx. destruct Hx. apply IH; [assumption|assumption|split; assumption]. }
    exists r. split; [exact Er|]. set (S := selector_holds d c ((k, c') :: rest)).
    assert (HS : forall f, S f -> exists x, related d k f x /\ S' x) by (intros f [_ H]; exact H).
    destruct Hr as [(-> & x & Hx & HSx)|[(-> & Hall & Hk)|(l1 & x & l2 & -> & Hl1 & C)]].
    + cbn [out]. split; [apply Hb; reflexivity|]. exists x. split; [apply Hin; exact Hx|exact HSx].
    + assert (Hall' : forall x, related d k e x -> ~ S' x) by (intros x Hx; apply Hall, Hin; exact Hx).
      destruct k; cbn [candidate_not_found out related] in *.
      * assert (l = []) as -> by (destruct Hk as [H|[H|H]]; [exact H|discriminate|discriminate]).
        assert (Hno : forall p, ~ parent_elt d e p) by (intros p Hp; apply Hin in Hp; destruct Hp).
        intros f Hf' HSf. apply HS in HSf. destruct HSf as (x & Hx & _). cbn in Hx.
        destruct (up_cases e f Hf') as [->|[He'|(p & Hp & _)]]; [exact (Hno x Hx)| |exact (Hno p Hp)].
        apply (Hno x). apply (earlier_parent e f x He'). exact Hx.
      * intros f Hf' HSf. apply HS in HSf. destruct HSf as (x & Hx & HSx). cbn in Hx.
        exact (Hall' x (ancestor_of_up e f x Hf' Hx) HSx).
      * assert (l = []) as -> by (destruct Hk as [H|[H|H]]; [exact H|discriminate|discriminate]).
        assert (Hno : forall f, ~ earlier_elt d e f).
        { destruct (prev_spec e He) as (o & _ & Ho1 & Ho2). apply Ho2. destruct o as [y|]; [|reflexivity].
          exfalso. apply (Hin y). apply Ho1. reflexivity. }
        split; [intros HSe; apply HS in HSe; destruct HSe as (x & Hx & _); exact (Hin x) || (apply Hin in Hx; exact Hx)|].
        intros f Hf'. exfalso. exact (Hno f Hf').
      * split.
        -- intros HSe. apply HS in HSe. destruct HSe as (x & Hx & HSx). exact (Hall' x Hx HSx).
        -- intros f Hf' HSf. apply HS in HSf. destruct HSf as (x & Hx & HSx). cbn in Hx.
           exact (Hall' x (earlier_trans e f x Hf' Hx) HSx).
    + assert (Hrel : related d k e x) by (apply Hin, in_elt).
      destruct C as [(-> & Hg)|[(-> & Hr' & Hox)|[(-> & -> & Hnx)|(-> & -> & Hox)]]].
      * cbn [out] in Hg |- *. intros f Hf' HSf. apply HS in HSf. destruct HSf as (y & Hy & HSy).
        destruct k; cbn [related] in *.
        -- (* child *) apply (Hg y); [|exact HSy]. destruct (up_cases e f Hf') as [->|[He'|(p & Hp & Hup)]].
           ++ rewrite (parent_fun e y x Hy Hrel). apply rt_refl.
           ++ rewrite (parent_fun e y x) ; [apply rt_refl| |exact Hrel]. apply (earlier_parent e f y He'). exact Hy.
           ++ rewrite <- (parent_fun e p x Hp Hrel). eapply rt_trans; [exact Hup|]. apply rt_step. left. exact Hy.
        -- (* descendant *) pose proof (ancestor_of_up e f y Hf' Hy) as Ha. apply Hin in Ha. apply in_app_iff in Ha. destruct Ha as [Ha|[->|Ha]].
           ++ exact (Hl1 y Ha HSy).
           ++ apply (Hg y); [apply rt_refl|exact HSy].
           ++ apply (Hg y); [|exact HSy]. apply ancestor_up. exact (Hord l1 x l2 eq_refl y Ha).
        -- (* next sibling *) apply (Hg y); [|exact HSy]. destruct (up_cases e f Hf') as [->|[He'|(p & Hp & Hup)]].
           ++ assert (y = x) as ->; [|apply rt_refl]. destruct (prev_spec e He) as (o & _ & Ho & _). apply Ho in Hy, Hrel. congruence.
           ++ eapply rt_trans; [|apply earlier_up, previous_earlier; exact Hy].
              destruct (previous_of_earlier e x f y Hrel He' Hy) as [->|H]; [apply rt_refl|apply earlier_up; exact H].
           ++ eapply rt_trans; [|apply earlier_up, previous_earlier; exact Hy]. eapply rt_trans; [|exact Hup].
              apply rt_step. left. apply (earlier_parent e x p (previous_earlier _ _ Hrel)). exact Hp.
        -- (* later sibling *) destruct (up_cases e f Hf') as [->|[He'|(p & Hp & Hup)]].
           1,2: assert (Ha : earlier_elt d e y) by (first [exact Hy|exact (earlier_trans _ _ _ He' Hy)]); apply Hin in Ha; apply in_app_iff in Ha; destruct Ha as [Ha|[->|Ha]];
             [exact (Hl1 y Ha HSy)|apply (Hg y); [apply rt_refl|exact HSy]|apply (Hg y); [|exact HSy]; apply earlier_up; exact (Hord l1 x l2 eq_refl y Ha)].
           apply (Hg y); [|exact HSy]. eapply rt_trans; [|apply earlier_up; exact Hy]. eapply rt_trans; [|exact Hup].
           apply rt_step. left. apply (earlier_parent e x p Hrel). exact Hp.
      * (* next sibling, local failure *) cbn [related] in *.
        assert (HSe : ~ S e).
        { intros HSe. apply HS in HSe. destruct HSe as (y & Hy & HSy). cbn in Hy.
          assert (y = x) as ->. { destruct (prev_spec e He) as (o & _ & Ho & _). apply Ho in Hy, Hrel. congruence. }
          revert HSy. eapply out_fails; [exact Hox|]. destruct Hr' as [-> | ->]; discriminate. }
        destruct Hr' as [-> | ->]; cbn [out]; [exact HSe|]. split; [exact HSe|].
        intros f Hf' HSf. apply HS in HSf. destruct HSf as (y & Hy & HSy). cbn in Hy. cbn [out] in Hox. destruct Hox as [_ Hox].
        apply (Hox y); [|exact HSy]. destruct (previous_of_earlier e x f y Hrel Hf' Hy) as [->|H].
        -- apply previous_earlier. exact Hy.
        -- eapply earlier_trans; [exact H|apply previous_earlier; exact Hy].
      * (* child *) cbn [related out] in *.
        assert (forall f, (forall y, parent_elt d f y -> parent_elt d e y) -> ~ S f) as HX.
        { intros f Hfe HSf. apply HS in HSf. destruct HSf as (y & Hy & HSy). cbn in Hy. apply Hnx.
          rewrite <- (parent_fun e y x); [exact HSy|apply Hfe; exact Hy|exact Hrel]. }
        split; [apply HX; auto|]. intros f Hf'. apply HX. intros y Hy. apply (earlier_parent e f y Hf'). exact Hy.
      * (* later sibling *) cbn [related out] in *. destruct Hox as [Hx1 Hx2].
        assert (forall y, earlier_elt d e y -> ~ S' y) as HX.
        { intros y Hy. apply Hin in Hy. apply in_app_iff in Hy. destruct Hy as [Hy|[<-|Hy]]; [auto|exact Hx1|].
          apply Hx2. exact (Hord l1 x l2 eq_refl y Hy). }
        split.
        -- intros HSe. apply HS in HSe. destruct HSe as (y & Hy & HSy). exact (HX y Hy HSy).
        -- intros f Hf' HSf. apply HS in HSf. destruct HSf as (y & Hy & HSy). cbn in Hy. exact (HX y (earlier_trans _ _ _ Hf' Hy) HSy).
Qed.
Lemma matches_ok s e : node_of d e -> element d e -> supported (s_subject s) (s_rest s) ->
  exists r, matches fuel d s e = Ok r /\ (r = true <-> selector_holds d (s_subject s) (s_rest s) e).
Proof.
  intros He Hel Hs. destruct (match_complex_ok (s_rest s) (s_subject s) e He Hel Hs) as (r & E & Ho).
  unfold matches. rewrite E. cbn [bind]. eexists. split; [reflexivity|]. destruct r; cbn in Ho |- *.
  - tauto.
  - split; [discriminate|tauto].
  - split; [discriminate|tauto].
  - split; [discriminate|]. intros H. exfalso. exact (Ho e (rt_refl _ _ _) H).
Qed.

(** The of-type family panics as soon as an element sibling is examined. *)
Lemma of_type_panics e f a b (He : node_of d e) : previous_elt d e f -> simple_match fuel d e (SNth false true a b) = Panic.
Proof.
  intros H. cbn [simple_match]. assert (0 < fuel) by (destruct He; lia). rewrite nth_index_step by assumption.
  destruct (prev_spec e He) as (o & E & Ho & _). apply Ho in H. subst o. rewrite E. reflexivity.
Qed.
End Nav.
