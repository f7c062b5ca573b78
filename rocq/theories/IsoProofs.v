(** Proofs for C86. *)
From Coq Require Import ZArith Relations.
From Verif Require Import StyleModel StyleSpec TreeModel Base DomModel DomSpec DomForest DomProofs DomTraverse DomFacts SelModel SelSpec SelProofs PropSel UnsetModel UaModel UaSpec UaProofs UaDoc PropText IsoSpec.
Local Open Scope nat_scope.
Local Open Scope list_scope.

Lemma forall2_length {A B} (R : A -> B -> Prop) l l' : Forall2 R l l' -> List.length l = List.length l'.
Proof. induction 1; cbn; congruence. Qed.
Lemma same_tree_ind' d d' (P : node_id -> node_id -> Prop) :
  (forall i i' l l', data_of d i = data_of d' i' -> kids d i l -> kids d' i' l' -> Forall2 (same_tree d d') l l' -> Forall2 P l l' -> P i i') ->
  forall i i', same_tree d d' i i' -> P i i'.
Proof.
  intros K. fix IH 3. intros i i' H. destruct H as [i i' l l' H1 H2 H3 H4]. apply (K i i' l l' H1 H2 H3 H4).
  clear H1 H2 H3. induction H4 as [|x y l l' Hx _ IHl]; constructor; [apply IH; exact Hx|exact IHl].
Qed.
Lemma same_tree_sym d d' i i' : same_tree d d' i i' -> same_tree d' d i' i.
Proof.
  intros H. induction H as [i i' l l' H1 H2 H3 _ H5] using same_tree_ind'. apply (Same d' d i' i l' l); auto.
  clear - H5. induction H5; constructor; assumption.
Qed.

(** Nodes at the same place. *)
Inductive at_same (d d' : doc) : node_id -> node_id -> Prop :=
| As_root : at_same d d' document_node_id document_node_id
| As_kid p p' a e b a' e' b' : at_same d d' p p' -> kids d p (a ++ e :: b) -> kids d' p' (a' ++ e' :: b') ->
    List.length a = List.length a' -> List.length b = List.length b' -> at_same d d' e e'.
Lemma at_same_sym d d' e e' : at_same d d' e e' -> at_same d' d e' e.
Proof. induction 1; [constructor|]. eapply As_kid; eauto. Qed.
Lemma forall2_split {A B} (R : A -> B -> Prop) a e b : forall l', Forall2 R (a ++ e :: b) l' ->
  exists a' e' b', l' = a' ++ e' :: b' /\ Forall2 R a a' /\ R e e' /\ Forall2 R b b'.
Proof.
  intros l' H. apply Forall2_app_inv_l in H as (a' & r & Ha & Hr & ->). inversion Hr as [|? e' ? b' He Hb]; subst. eauto 8.
Qed.
Lemma split_same {A} (a a' : list A) e e' b b' : List.length a = List.length a' -> a ++ e :: b = a' ++ e' :: b' -> a = a' /\ e = e' /\ b = b'.
Proof.
  revert a'. induction a as [|x a IH]; intros [|y a'] L E; try discriminate; cbn in *.
  - injection E as -> ->. auto.
  - injection E as -> E. destruct (IH a' ltac:(cbn in L; congruence) E) as (-> & -> & ->). auto.
Qed.
Lemma forall2_places {A B} (R : A -> B -> Prop) l l' : List.length l = List.length l' ->
  (forall a e b a' e' b', l = a ++ e :: b -> l' = a' ++ e' :: b' -> List.length a = List.length a' -> List.length b = List.length b' -> R e e') -> Forall2 R l l'.
Proof.
  revert l'. induction l as [|x l IH]; intros [|y l'] L H; try discriminate; constructor.
  - apply (H [] x l [] y l'); auto.
  - apply IH; [cbn in L; congruence|]. intros a e b a' e' b' -> -> La Lb. apply (H (x :: a) e b (y :: a') e' b'); auto. cbn. congruence.
Qed.
Lemma document_no_kid d p : reach d -> ~ kid d p document_node_id.
Proof.
  intros Hd (l & Hk & Hi). destruct (reach_good d Hd) as (s & HR & HW). apply (kids_iff d s p l HR HW) in Hk as [_ ->].
  destruct (wf_range _ HW _ _ Hi) as [_ [H _]]. unfold document_node_id in H. lia.
Qed.

Section Two.
Variables (d d' : doc).
Hypotheses (Hd : reach d) (Hd' : reach d') (HS : same_tree d d' document_node_id document_node_id).

Lemma at_same_tree e e' : at_same d d' e e' -> same_tree d d' e e'.
Proof.
  induction 1 as [|p p' a e b a' e' b' _ IH K K' La Lb]; [exact HS|].
  inversion IH as [i i' l l' H1 H2 H3 H4]; subst. rewrite (kids_fun _ _ _ _ H2 K) in H4. rewrite (kids_fun _ _ _ _ H3 K') in H4.
  destruct (forall2_split _ _ _ _ _ H4) as (a2 & e2 & b2 & E & Ha & He & Hb). apply forall2_length in Ha.
  destruct (split_same a' a2 e' e2 b' b2 ltac:(congruence) E) as (_ & -> & _). exact He.
Qed.
Lemma at_same_data e e' : at_same d d' e e' -> data_of d e = data_of d' e'.
Proof. intros H. destruct (at_same_tree e e' H). assumption. Qed.
Lemma at_same_element e e' : at_same d d' e e' -> element d e -> element d' e'.
Proof. intros H [x Hx]. exists x. rewrite <- (at_same_data e e' H). exact Hx. Qed.
Lemma at_same_kids e e' : at_same d d' e e' -> exists l l', kids d e l /\ kids d' e' l' /\ Forall2 (at_same d d') l l'.
Proof.
  intros H. destruct (at_same_tree e e' H) as [i i' l l' H1 H2 H3 H4]. exists l, l'. split; [exact H2|]. split; [exact H3|].
  apply forall2_places; [exact (forall2_length _ _ _ H4)|]. intros a e b a' e' b' -> -> La Lb. exact (As_kid d d' i i' a e b a' e' b' H H2 H3 La Lb).
Qed.
Lemma at_same_siblings e e' q a b : at_same d d' e e' -> kids d q (a ++ e :: b) ->
  exists q' a' b', at_same d d' q q' /\ kids d' q' (a' ++ e' :: b') /\ Forall2 (at_same d d') a a' /\ Forall2 (at_same d d') b b'.
Proof.
  intros H K. inversion H as [|p p' a0 e0 b0 a' e0' b' Hp K0 K' La Lb]; subst.
  - exfalso. apply (document_no_kid d q Hd). exists (a ++ document_node_id :: b). split; [exact K|apply in_elt].
  - destruct (unique_pos d Hd _ _ _ _ _ _ _ K0 K) as (-> & -> & ->). exists p', a', b'. split; [exact Hp|]. split; [exact K'|].
    destruct (at_same_kids _ _ Hp) as (l & l' & E & E' & F). rewrite (kids_fun _ _ _ _ E K) in F. rewrite (kids_fun _ _ _ _ E' K') in F.
    destruct (forall2_split _ _ _ _ _ F) as (a2 & e2 & b2 & E2 & Ha & He & Hb). pose proof (forall2_length _ _ _ Ha) as L2.
    destruct (split_same a' a2 e' e2 b' b2 ltac:(congruence) E2) as (-> & -> & ->). auto.
Qed.
Lemma at_same_parent e e' p : at_same d d' e e' -> kid d p e -> exists p', at_same d d' p p' /\ kid d' p' e'.
Proof.
  intros H (l & K & Hi). apply in_split in Hi as (a & b & ->). destruct (at_same_siblings e e' p a b H K) as (p' & a' & b' & Hp & K' & _).
  exists p'. split; [exact Hp|]. exists (a' ++ e' :: b'). split; [exact K'|apply in_elt].
Qed.
Lemma at_same_no_element x y : Forall2 (at_same d d') x y -> (forall i, In i y -> element d' i -> exists j, In j x /\ element d j).
Proof.
  intros F i Hi [z Hz]. destruct (forall2_in_r _ _ _ F _ Hi) as (j & Hj & Hs). exists j. split; [exact Hj|]. exists z.
  rewrite (at_same_data _ _ Hs). exact Hz.
Qed.
Lemma at_same_in x y i : Forall2 (at_same d d') x y -> In i x -> exists j, In j y /\ at_same d d' i j.
Proof. induction 1 as [|a b x y Hs _ IH]; [intros []|]. intros [E|E]; [subst; eexists; split; [left; reflexivity|exact Hs]|]. destruct (IH E) as (j & H1 & H2). eexists. split; [right; exact H1|exact H2]. Qed.

Lemma parent_same e e' p : at_same d d' e e' -> parent_elt d e p -> exists p', parent_elt d' e' p' /\ at_same d d' p p'.
Proof. intros H [K E]. destruct (at_same_parent e e' p H K) as (p' & Hp & K'). exists p'. split; [split; [exact K'|exact (at_same_element _ _ Hp E)]|exact Hp]. Qed.
Lemma ancestor_same e p : ancestor_elt d e p -> forall e', at_same d d' e e' -> exists p', ancestor_elt d' e' p' /\ at_same d d' p p'.
Proof.
  induction 1 as [e p H|e q p _ IH1 _ IH2]; intros e' He.
  - destruct (parent_same e e' p He H) as (p' & H1 & H2). exists p'. split; [apply t_step; exact H1|exact H2].
  - destruct (IH1 e' He) as (q' & H1 & H2). destruct (IH2 q' H2) as (p' & H3 & H4). exists p'. split; [exact (t_trans _ _ _ _ _ H1 H3)|exact H4].
Qed.
Lemma earlier_same e e' f : at_same d d' e e' -> earlier_elt d e f -> exists f', earlier_elt d' e' f' /\ at_same d d' f f'.
Proof.
  intros H (E & q & a & b & c & K). replace (a ++ f :: b ++ e :: c) with ((a ++ f :: b) ++ e :: c) in K by (rewrite <- app_assoc; reflexivity).
  destruct (at_same_siblings _ _ _ _ _ H K) as (q' & l' & c' & _ & K' & F & _). destruct (forall2_split _ _ _ _ _ F) as (a' & f' & b' & -> & Ha & Hf & Hb).
  exists f'. split; [|exact Hf]. split; [exact (at_same_element _ _ Hf E)|]. exists q', a', b', c'. rewrite <- app_assoc in K'. exact K'.
Qed.
Lemma later_same e e' f : at_same d d' e e' -> later_elt d e f -> exists f', later_elt d' e' f' /\ at_same d d' f f'.
Proof.
  intros H (E & q & a & b & c & K). destruct (at_same_siblings _ _ _ _ _ H K) as (q' & a' & l' & _ & K' & _ & F).
  destruct (forall2_split _ _ _ _ _ F) as (b' & f' & c' & -> & Hb & Hf & Hc).
  exists f'. split; [|exact Hf]. split; [exact (at_same_element _ _ Hf E)|]. exists q', a', b', c'. exact K'.
Qed.
Lemma previous_same e e' f : at_same d d' e e' -> previous_elt d e f -> exists f', previous_elt d' e' f' /\ at_same d d' f f'.
Proof.
  intros H (E & q & a & b & c & K & N). replace (a ++ f :: b ++ e :: c) with ((a ++ f :: b) ++ e :: c) in K by (rewrite <- app_assoc; reflexivity).
  destruct (at_same_siblings _ _ _ _ _ H K) as (q' & l' & c' & _ & K' & F & _). destruct (forall2_split _ _ _ _ _ F) as (a' & f' & b' & -> & Ha & Hf & Hb).
  exists f'. split; [|exact Hf]. split; [exact (at_same_element _ _ Hf E)|]. exists q', a', b', c'. rewrite <- app_assoc in K'. split; [exact K'|].
  intros x Hx Ex. destruct (at_same_no_element _ _ Hb x Hx Ex) as (y & Hy & Ey). exact (N y Hy Ey).
Qed.
Lemma related_same k e e' x : at_same d d' e e' -> related d k e x -> exists x', related d' k e' x' /\ at_same d d' x x'.
Proof.
  destruct k; cbn [related]; intros H R.
  - exact (parent_same e e' x H R).
  - exact (ancestor_same e x R e' H).
  - exact (previous_same e e' x H R).
  - exact (earlier_same e e' x H R).
Qed.
Lemma filter_same x y : Forall2 (at_same d d') x y -> List.length (filter (elementb d) x) = List.length (filter (elementb d') y).
Proof.
  induction 1 as [|a b x y Hs _ IH]; [reflexivity|]. cbn [filter]. assert (E : elementb d a = elementb d' b) by (unfold elementb; rewrite (at_same_data a b Hs); reflexivity).
  rewrite <- E. destruct (elementb d a); cbn [List.length]; congruence.
Qed.
End Two.

Section Match.
Lemma simple_same s : forall d d' e e', reach d -> reach d' -> same_tree d d' document_node_id document_node_id -> at_same d d' e e' ->
  simple_holds d e s -> simple_holds d' e' s.
Proof.
  induction s as [a b|a|a|a|a b c| | | | | |x y a b|l IH] using simple_ind'; intros d d' e e' Hd Hd' HS H;
    pose proof (same_tree_sym _ _ _ _ HS) as HS'; pose proof (at_same_sym _ _ _ _ H) as H'; cbn [simple_holds];
    rewrite ?(at_same_data d d' HS e e' H); try tauto.
  - intros N p Hp. destruct (parent_same d' d Hd' HS' e' e p H' Hp) as (q & Hq & _). exact (N q Hq).
  - intros N k (l' & K' & Hk). destruct (at_same_kids d' d HS' e' e H') as (l1 & l2 & K1 & K2 & F). rewrite (kids_fun _ _ _ _ K1 K') in F.
    destruct (at_same_in d' d _ _ _ F Hk) as (j & Hj & Hs). destruct (N j (ex_intro _ l2 (conj K2 Hj))) as [N1 N2].
    split; [intros E; exact (N1 (at_same_element d' d HS' _ _ Hs E))|]. unfold own_text in *. rewrite (at_same_data d' d HS' _ _ Hs). exact N2.
  - intros N f Hf. destruct (earlier_same d' d Hd' HS' e' e f H' Hf) as (g & Hg & _). exact (N g Hg).
  - intros N f Hf. destruct (later_same d' d Hd' HS' e' e f H' Hf) as (g & Hg & _). exact (N g Hg).
  - intros [N1 N2]. split; intros f Hf.
    + destruct (earlier_same d' d Hd' HS' e' e f H' Hf) as (g & Hg & _). exact (N1 g Hg).
    + destruct (later_same d' d Hd' HS' e' e f H' Hf) as (g & Hg & _). exact (N2 g Hg).
  - intros (n & i & Hn & [(q & l1 & l2 & K & E)|[N E]] & Ei); exists n, i; (split; [exact Hn|]); (split; [|exact Ei]).
    + left. destruct (at_same_siblings d d' Hd HS e e' q l1 l2 H K) as (q' & a' & b' & _ & K' & F1 & F2). exists q', a', b'. split; [exact K'|].
      rewrite E. destruct x; [rewrite (filter_same d d' HS _ _ F2)|rewrite (filter_same d d' HS _ _ F1)]; reflexivity.
    + right. split; [|exact E]. intros q Hq. destruct (at_same_parent d' d Hd' HS' e' e q H' Hq) as (p & _ & Hp). exact (N p Hp).
  - intros N A. apply N. clear N. induction IH as [|s l Hs _ IHl]; [exact I|]. destruct A as [A1 A2]. split; [|exact (IHl A2)].
    exact (Hs d' d e' e Hd' Hd HS' H' A1).
Qed.
Lemma compound_same l : forall d d' e e', reach d -> reach d' -> same_tree d d' document_node_id document_node_id -> at_same d d' e e' ->
  compound_holds d e l -> compound_holds d' e' l.
Proof.
  induction l as [|s l IH]; intros d d' e e' Hd Hd' HS H; [tauto|]. intros [A B]. split; [exact (simple_same s _ _ _ _ Hd Hd' HS H A)|exact (IH _ _ _ _ Hd Hd' HS H B)].
Qed.
Lemma selector_same rest : forall d d' c e e', reach d -> reach d' -> same_tree d d' document_node_id document_node_id -> at_same d d' e e' ->
  selector_holds d c rest e -> selector_holds d' c rest e'.
Proof.
  induction rest as [|[k c'] rest IH]; intros d d' c e e' Hd Hd' HS H; cbn [selector_holds]; intros [A B]; (split; [exact (compound_same c _ _ _ _ Hd Hd' HS H A)|]); [exact I|].
  destruct B as (x & R & Hx). destruct (related_same d d' Hd HS k e e' x H R) as (x' & R' & Hs). exists x'. split; [exact R'|].
  exact (IH d d' c' x x' Hd Hd' HS Hs Hx).
Qed.
Lemma at_same_node d d' e e' : reach d -> at_same d d' e e' -> node_of d e.
Proof.
  intros Hd H. destruct H as [|p p' a e b a' e' b' _ K _ _ _].
  - destruct (reach_good d Hd) as (s & HR & HW). pose proof (wf_count _ HW). rewrite <- (rep_count _ _ HR) in H. unfold node_of, document_node_id. lia.
  - exact (proj1 (in_kids_node d p _ e Hd K (in_elt _ _ _))).
Qed.
Lemma matches_same d d' fuel fuel' s e e' : reach d -> reach d' -> same_tree d d' document_node_id document_node_id -> at_same d d' e e' ->
  List.length (nodes d) <= fuel -> List.length (nodes d') <= fuel' -> element d e -> supported (s_subject s) (s_rest s) ->
  matches fuel d s e = matches fuel' d' s e'.
Proof.
  intros Hd Hd' HS H Hf Hf' E Su. pose proof (at_same_sym _ _ _ _ H) as H'.
  destruct (C21_selectors d fuel Hd Hf s e (at_same_node _ _ _ _ Hd H) E Su) as (m & Em & Hm).
  destruct (C21_selectors d' fuel' Hd' Hf' s e' (at_same_node _ _ _ _ Hd' H') (at_same_element d d' HS _ _ H E) Su) as (m' & Em' & Hm').
  rewrite Em, Em'. f_equal. apply Bool.eq_true_iff_eq. rewrite Hm, Hm'. split; apply selector_same; auto using same_tree_sym.
Qed.
End Match.

Section Styles.
Variables (ct : token -> option color) (attr_items : string -> list item).
Lemma push_same d d' fuel fuel' e e' rules : reach d -> reach d' -> same_tree d d' document_node_id document_node_id -> at_same d d' e e' ->
  List.length (nodes d) <= fuel -> List.length (nodes d') <= fuel' -> element d e ->
  (forall s b, In (s, b) rules -> supported (s_subject s) (s_rest s)) ->
  push_matching_in fuel d e rules = push_matching_in fuel' d' e' rules.
Proof.
  intros Hd Hd' HS H Hf Hf' E. induction rules as [|[s b] r IH]; intros Su; [reflexivity|]. cbn [push_matching_in].
  rewrite (matches_same d d' fuel fuel' s e e' Hd Hd' HS H Hf Hf' E (Su s b (or_introl eq_refl))).
  rewrite IH by (intros s' b' Hi; exact (Su s' b' (or_intror Hi))). reflexivity.
Qed.
Lemma node_style_same d d' fuel fuel' e e' parent ua author : reach d -> reach d' -> same_tree d d' document_node_id document_node_id -> at_same d d' e e' ->
  List.length (nodes d) <= fuel -> List.length (nodes d') <= fuel' ->
  (forall s b, In (s, b) ua -> supported (s_subject s) (s_rest s)) -> (forall s b, In (s, b) author -> supported (s_subject s) (s_rest s)) ->
  style_or_anonymous ct attr_items fuel ua author d e parent = style_or_anonymous ct attr_items fuel' ua author d' e' parent.
Proof.
  intros Hd Hd' HS H Hf Hf' Su Sa. unfold style_or_anonymous, node_style, getn.
  pose proof (at_same_data d d' HS e e' H) as D. unfold data_of in D.
  destruct (nth_error (nodes d) e) as [n|] eqn:En, (nth_error (nodes d') e') as [n'|] eqn:En'; try discriminate; [|reflexivity].
  cbn [bind option_map] in *. injection D as D. rewrite <- D. destruct (n_data n) eqn:Ed; try reflexivity.
  all: assert (E : element d e) by (eexists; unfold data_of; rewrite En; cbn; rewrite Ed; reflexivity).
  all: rewrite (push_same d d' fuel fuel' e e' ua Hd Hd' HS H Hf Hf' E Su), (push_same d d' fuel fuel' e e' author Hd Hd' HS H Hf Hf' E Sa); reflexivity.
Qed.
End Styles.

(* ------------------------------------------------------------------ *)
(** * Whole documents *)

Lemma arena_same d d' : reach d -> reach d' -> same_tree d d' document_node_id document_node_id ->
  forall t i i' t', at_same d d' i i' -> arena_tree d i t -> arena_tree d' i' t' ->
  match t, t' with DT j ts, DT j' ts' => j = i /\ j' = i' /\
    exists l l', kids d i l /\ kids d' i' l' /\ Forall2 (at_same d d') l l' /\ Forall2 (arena_tree d) l ts /\ Forall2 (arena_tree d') l' ts' end.
Proof.
  intros Hd Hd' HS t i i' t' H A A'. destruct A as [i l ts K F], A' as [i' l' ts' K' F']. split; [reflexivity|]. split; [reflexivity|].
  exists l, l'. split; [exact K|]. split; [exact K'|]. destruct (at_same_kids d d' HS i i' H) as (m & m' & E & E' & G).
  rewrite (kids_fun _ _ _ _ E K) in G. rewrite (kids_fun _ _ _ _ E' K') in G. auto.
Qed.
Lemma styled_same d d' style_of style_of' : reach d -> reach d' -> same_tree d d' document_node_id document_node_id ->
  (forall e e' p, at_same d d' e e' -> style_of e p = style_of' e' p) ->
  forall t i i' t' st, at_same d d' i i' -> arena_tree d i t -> arena_tree d' i' t' -> styled style_of d st t = styled style_of' d' st t'.
Proof.
  intros Hd Hd' HS Hst. induction t as [j ts IH] using dtree_ind'. intros i i' [j' ts'] st H A A'.
  destruct (arena_same d d' Hd Hd' HS _ _ _ _ H A A') as (-> & -> & l & l' & _ & _ & G & F & F').
  cbn [styled]. rewrite (at_same_data d d' HS i i' H). destruct (data_of d' i') as [dt|]; [destruct dt|]; try reflexivity.
  all: rewrite (Hst i i' (Some st) H); f_equal; set (s := style_of' i' (Some st)); clearbody s.
  all: revert IH; clear - G F F'; revert ts ts' F F'; induction G as [|a b l l' Hs _ IHl]; intros ts ts' F F';
    inversion F as [|? u ? us Hu Fu]; subst; inversion F' as [|? v ? vs Hv Fv]; subst; intros IH; [reflexivity|];
    inversion IH as [|? ? IH1 IH2]; subst; cbn [map]; f_equal; [exact (IH1 a b v s Hs Hu Hv)|exact (IHl _ _ Fu Fv IH2)].
Qed.
Lemma preorder_same d d' : reach d -> reach d' -> same_tree d d' document_node_id document_node_id ->
  forall t i i' t', at_same d d' i i' -> arena_tree d i t -> arena_tree d' i' t' -> Forall2 (at_same d d') (preorder t) (preorder t').
Proof.
  intros Hd Hd' HS. induction t as [j ts IH] using dtree_ind'. intros i i' [j' ts'] H A A'.
  destruct (arena_same d d' Hd Hd' HS _ _ _ _ H A A') as (-> & -> & l & l' & _ & _ & G & F & F').
  cbn [preorder]. constructor; [exact H|]. clear A A' H.
  revert IH. revert ts ts' F F'; induction G as [|a b l l' Hs _ IHl]; intros ts ts' F F';
    inversion F as [|? u ? us Hu Fu]; subst; inversion F' as [|? v ? vs Hv Fv]; subst; intros IH; [constructor|];
    inversion IH as [|? ? IH1 IH2]; subst. cbn [flat_map]. apply Forall2_app; [exact (IH1 a b v Hs Hu Hv)|exact (IHl _ _ Fu Fv IH2)].
Qed.
