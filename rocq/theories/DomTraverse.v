(** Lemmas about reading the tree: child lists, traversal, root element, style sheets. *)
From Coq Require Import List Arith Lia Bool NArith String Relations.
From Verif Require Import Base DomModel DomSpec DomForest DomLists DomProofs.
Import ListNotations.
Local Open Scope nat_scope.

Fixpoint tree_of_ind' (s : astate) (P : node_id -> dtree -> Prop)
  (H : forall i ts, Forall2 (tree_of s) (a_children s i) ts -> Forall2 P (a_children s i) ts -> P i (DT i ts))
  i t (ht : tree_of s i t) {struct ht} : P i t :=
  match ht in tree_of _ i0 t0 return P i0 t0 with
  | tree_of_intro _ i0 ts hf =>
    H i0 ts hf
      ((fix go l ts (hf : Forall2 (tree_of s) l ts) : Forall2 P l ts :=
         match hf with
         | Forall2_nil _ => Forall2_nil _
         | Forall2_cons x y hx hl => Forall2_cons x y (tree_of_ind' s P H x y hx) (go _ _ hl)
         end) _ _ hf)
  end.

(* ---------------- chains ---------------- *)
Lemma chain_fun d o l1 : chain d o l1 -> forall l2, chain d o l2 -> l1 = l2.
Proof.
  induction 1 as [|i n l Hn Hc IH]; intros l2 H2; inversion H2; subst; [reflexivity|].
  f_equal. apply IH. congruence.
Qed.

Lemma next_of_cons_split a i b : NoDup (a ++ i :: b) -> next_of i (a ++ i :: b) = hd_error b.
Proof.
  intros H. apply NoDup_split_notin in H. apply next_of_split. apply H.
Qed.

Lemma chain_suffix d s p : Rep d s -> AWf s -> forall b a, a_children s p = a ++ b -> chain d (hd_error b) b.
Proof.
  intros HR HW. induction b as [|i b IH]; intros a E; [constructor|]. cbn [hd_error].
  assert (child_of s p i) as Hc by (unfold child_of; rewrite E; apply in_or_app; right; left; reflexivity).
  destruct (wf_range _ HW _ _ Hc) as [_ Hi]. destruct (rep_node _ _ HR i (proj2 Hi)) as (n & Hn & Hl).
  econstructor; [exact Hn|]. destruct (lk_child _ _ _ Hl _ Hc) as (_ & -> & _). rewrite E.
  rewrite next_of_cons_split by (rewrite <- E; apply HW). apply (IH (a ++ [i])). rewrite E, <- app_assoc. reflexivity.
Qed.

Lemma kids_children d s p : Rep d s -> AWf s -> p < a_count s -> kids d p (a_children s p).
Proof.
  intros HR HW Hp. destruct (rep_node _ _ HR p Hp) as (n & Hn & Hl). exists n. split; [exact Hn|].
  rewrite (lk_first _ _ _ Hl). apply (chain_suffix d s p HR HW _ []). reflexivity.
Qed.

Lemma kids_iff d s p l : Rep d s -> AWf s -> (kids d p l <-> (p < a_count s /\ l = a_children s p)).
Proof.
  intros HR HW. split.
  - intros (n & Hn & Hc). assert (p < a_count s) as Hp.
    { rewrite <- (rep_count _ _ HR). apply nth_error_Some. congruence. }
    split; [exact Hp|]. destruct (kids_children d s p HR HW Hp) as (n' & Hn' & Hc').
    assert (n = n') by congruence. subst. eapply chain_fun; eassumption.
  - intros [Hp ->]. apply kids_children; assumption.
Qed.

Lemma kid_iff d s p k : Rep d s -> AWf s -> (kid d p k <-> child_of s p k).
Proof.
  intros HR HW. split.
  - intros (l & Hl & Hk). apply (kids_iff d s p l HR HW) in Hl. destruct Hl as [_ ->]. exact Hk.
  - intros Hk. exists (a_children s p). split; [|exact Hk]. apply kids_children; auto.
    destruct (wf_range _ HW _ _ Hk) as [[_ H] _]. exact H.
Qed.

Lemma below_iff d s a b : Rep d s -> AWf s -> (below d a b <-> anc s a b).
Proof.
  intros HR HW. split; induction 1 as [x y H|x y z _ IH1 _ IH2].
  - apply t_step. apply (kid_iff d s x y HR HW). exact H.
  - eapply t_trans; eassumption.
  - apply t_step. apply (kid_iff d s x y HR HW). exact H.
  - eapply t_trans; eassumption.
Qed.

Lemma node_of_live d s i : Rep d s -> (node_of d i <-> live s i).
Proof. intros HR. unfold node_of, live. rewrite (rep_count _ _ HR). reflexivity. Qed.

Lemma data_of_rep d s i : Rep d s -> i < a_count s -> data_of d i = Some (a_data s i).
Proof.
  intros HR Hi. destruct (rep_node _ _ HR i Hi) as (n & Hn & Hl). unfold data_of. rewrite Hn. cbn.
  rewrite (lk_data _ _ _ Hl). reflexivity.
Qed.

Lemma parent_of_rep d s i : Rep d s -> AWf s -> i < a_count s -> parent_of d i = a_parent s i.
Proof.
  intros HR HW Hi. destruct (rep_node _ _ HR i Hi) as (n & Hn & Hl). unfold parent_of. rewrite Hn.
  destruct (a_parent s i) as [q|] eqn:E.
  - apply a_parent_Some in E. apply (lk_child _ _ _ Hl _ E).
  - apply (lk_orphan _ _ _ Hl). apply a_parent_None; assumption.
Qed.

(* ---------------- ancestors ---------------- *)
Lemma anc_live s a b : AWf s -> anc s a b -> live s a /\ 2 <= b < a_count s.
Proof.
  intros HW. induction 1 as [x y H|x y z _ IH1 _ IH2].
  - apply (wf_range _ HW _ _ H).
  - split; [apply IH1|apply IH2].
Qed.

Lemma anc_parent s a b : anc s a b -> exists p, child_of s p b /\ (p = a \/ anc s a p).
Proof.
  intros H. apply clos_trans_tn1 in H. destruct H as [b H|p b H H1].
  - exists a. auto.
  - exists p. split; [exact H|]. right. apply clos_tn1_trans. exact H1.
Qed.

Lemma anc_child s a b : anc s a b -> exists k, child_of s a k /\ (k = b \/ anc s k b).
Proof.
  intros H. apply clos_trans_t1n in H. destruct H as [k H|k b H H1].
  - exists k. auto.
  - exists k. split; [exact H|]. right. apply clos_t1n_trans. exact H1.
Qed.

Lemma anc_linear s a x : AWf s -> anc s a x -> forall b, anc s b x -> a = b \/ anc s a b \/ anc s b a.
Proof.
  intros HW Ha. apply clos_trans_tn1 in Ha. induction Ha as [x Hx|y x Hyx Hay IH]; intros b Hb.
  - destruct (anc_parent _ _ _ Hb) as (p & Hp & [->|Hbp]).
    + left. eapply wf_parent; eassumption.
    + assert (p = a) by (eapply wf_parent; eassumption). subst. auto.
  - destruct (anc_parent _ _ _ Hb) as (p & Hp & Hbp); assert (p = y) by (eapply wf_parent; eassumption); subst p; destruct Hbp as [->|Hbp].
    + right. left. apply clos_tn1_trans. exact Hay.
    + apply IH. exact Hbp.
Qed.

Lemma NoDup_bound (l : list nat) n : NoDup l -> (forall x, In x l -> x < n) -> length l <= n.
Proof.
  intros Hnd Hb. rewrite <- (seq_length n 0). apply NoDup_incl_length; [exact Hnd|].
  intros x Hx. apply in_seq. specialize (Hb x Hx). lia.
Qed.

(* ---------------- existence of the tree ---------------- *)
Lemma tree_exists_aux s : AWf s -> forall n path i,
  NoDup path -> (forall x, In x path -> x < a_count s /\ (x = i \/ anc s x i)) -> In i path ->
  S (a_count s) <= length path + n -> exists t, tree_of s i t.
Proof.
  intros HW. induction n as [|n IH]; intros path i Hnd Hp Hi Hlen.
  - assert (length path <= a_count s) by (apply NoDup_bound; [exact Hnd|intros x Hx; apply (Hp _ Hx)]). lia.
  - assert (forall l, (forall k, In k l -> child_of s i k) -> exists ts, Forall2 (tree_of s) l ts) as Hl.
    { induction l as [|k l IHl]; intros Hk; [exists []; constructor|].
      destruct IHl as (ts & Hts); [intros; apply Hk; right; assumption|].
      assert (child_of s i k) as Hc by (apply Hk; left; reflexivity).
      destruct (IH (k :: path) k) as (t & Ht).
      - constructor; [|exact Hnd]. intros Hin. destruct (Hp _ Hin) as [_ [->|Ha]].
        + apply (wf_acyclic _ HW i). apply t_step. exact Hc.
        + apply (wf_acyclic _ HW k). eapply t_trans; [exact Ha|apply t_step; exact Hc].
      - intros x [<-|Hx].
        + split; [apply (wf_range _ HW _ _ Hc)|auto].
        + destruct (Hp _ Hx) as [H1 [->|H2]]; (split; [exact H1|right]).
          * apply t_step. exact Hc.
          * eapply t_trans; [exact H2|apply t_step; exact Hc].
      - left. reflexivity.
      - cbn [length]. lia.
      - exists (t :: ts). constructor; assumption. }
    destruct (Hl (a_children s i)) as (ts & Hts); [intros k Hk; exact Hk|].
    exists (DT i ts). constructor. exact Hts.
Qed.

Lemma tree_exists s i : AWf s -> live s i -> exists t, tree_of s i t.
Proof.
  intros HW [_ Hi]. apply (tree_exists_aux s HW (a_count s) [i] i).
  - repeat constructor. intros [].
  - intros x [<-|[]]. auto.
  - left. reflexivity.
  - cbn. lia.
Qed.

Lemma tree_members s i t : tree_of s i t -> forall x, In x (preorder t) <-> x = i \/ anc s i x.
Proof.
  intros Ht. induction Ht as [i ts Hts IH] using tree_of_ind'. intros x. cbn [preorder In].
  assert (In x (flat_map preorder ts) <-> exists k, In k (a_children s i) /\ (x = k \/ anc s k x)) as HF.
  { clear Hts. induction IH as [|k t l ts Hk _ IHl]; cbn [flat_map].
    - split; [intros []|intros (k & [] & _)].
    - rewrite in_app_iff, Hk, IHl. split.
      + intros [H|(k' & Hk' & H)]; [exists k; split; [left; reflexivity|exact H]|exists k'; split; [right; exact Hk'|exact H]].
      + intros (k' & [<-|Hk'] & H); [left; exact H|right; eauto]. }
  rewrite HF. split.
  - intros [E|(k & Hk & [E|H])]; [auto|subst x; right; apply t_step; exact Hk|].
    right. eapply t_trans; [apply t_step; exact Hk|exact H].
  - intros [E|H]; [auto|]. right. destruct (anc_child _ _ _ H) as (k & Hk & [E|H1]); exists k; auto.
Qed.

Lemma NoDup_app_intro (A : Type) (a b : list A) :
  NoDup a -> NoDup b -> (forall x, In x a -> In x b -> False) -> NoDup (a ++ b).
Proof.
  intros Ha Hb Hd. induction Ha as [|x a Hx Ha IH]; [exact Hb|]. cbn. constructor.
  - rewrite in_app_iff. intros [H|H]; [auto|]. apply (Hd x); [left; reflexivity|exact H].
  - apply IH. intros y Hy. apply Hd. right. exact Hy.
Qed.

Lemma kids_not_self s i : AWf s -> forall l ts, incl l (a_children s i) -> Forall2 (tree_of s) l ts -> ~ In i (flat_map preorder ts).
Proof.
  intros HW l ts Hincl HF. induction HF as [|k t l ts Hk _ IHl]; cbn [flat_map]; [intros []|].
  rewrite in_app_iff, (tree_members _ _ _ Hk). assert (child_of s i k) as Hc by (apply Hincl; left; reflexivity).
  intros [[->|H]|H].
  - apply (wf_acyclic _ HW k). apply t_step. exact Hc.
  - apply (wf_acyclic _ HW i). eapply t_trans; [apply t_step; exact Hc|exact H].
  - apply IHl; [|exact H]. intros x Hx. apply Hincl. right. exact Hx.
Qed.

Lemma siblings_disjoint s p k1 k2 x : AWf s -> child_of s p k1 -> child_of s p k2 -> k1 <> k2 ->
  (x = k1 \/ anc s k1 x) -> (x = k2 \/ anc s k2 x) -> False.
Proof.
  intros HW H1 H2 Hne Hx1 Hx2.
  assert (forall a b, child_of s p a -> child_of s p b -> ~ anc s a b) as Hno.
  { intros a b Ha Hb Hab. destruct (anc_parent _ _ _ Hab) as (q & Hq & Hqa).
    assert (q = p) by (eapply wf_parent; eassumption). subst q.
    destruct Hqa as [->|Hap].
    - apply (wf_acyclic _ HW a). apply t_step. exact Ha.
    - apply (wf_acyclic _ HW a). eapply t_trans; [exact Hap|apply t_step; exact Ha]. }
  destruct Hx1 as [->|Hx1]; destruct Hx2 as [Hx2|Hx2].
  - congruence.
  - apply (Hno k2 k1); assumption.
  - subst. apply (Hno k1 k2); assumption.
  - destruct (anc_linear _ _ _ HW Hx1 _ Hx2) as [E|[E|E]]; [congruence| |].
    + apply (Hno k1 k2); assumption.
    + apply (Hno k2 k1); assumption.
Qed.

Lemma tree_nodup s i t : AWf s -> tree_of s i t -> NoDup (preorder t).
Proof.
  intros HW Ht. induction Ht as [i ts Hts IH] using tree_of_ind'. cbn [preorder]. constructor.
  - eapply kids_not_self; [exact HW|apply incl_refl|exact Hts].
  - assert (NoDup (a_children s i)) as Hnd by apply HW.
    assert (incl (a_children s i) (a_children s i)) as Hincl by apply incl_refl.
    revert IH Hnd Hincl. revert Hts. generalize (a_children s i) at 1 2 3 4 as l.
    intros l Hts. induction Hts as [|k t l ts Hk Hts IHl]; intros IH Hnd Hincl; cbn [flat_map]; [constructor|].
    inversion IH; subst. inversion Hnd; subst. apply NoDup_app_intro.
    + assumption.
    + apply IHl; try assumption. intros x Hx. apply Hincl. right. exact Hx.
    + intros x Hx1 Hx2. apply (tree_members _ _ _ Hk) in Hx1.
      apply in_flat_map in Hx2. destruct Hx2 as (t2 & Ht2 & Hx2).
      assert (exists k2, In k2 l /\ tree_of s k2 t2) as (k2 & Hk2 & Htk2).
      { clear - Hts Ht2. induction Hts as [|k t l ts Hk Hts IHl]; [destruct Ht2|]. destruct Ht2 as [<-|Ht2].
        - exists k. split; [left; reflexivity|exact Hk].
        - destruct (IHl Ht2) as (k2 & H1 & H2). exists k2. split; [right; exact H1|exact H2]. }
      apply (tree_members _ _ _ Htk2) in Hx2.
      apply (siblings_disjoint s i k k2 x); try assumption.
      * apply Hincl. left. reflexivity.
      * apply Hincl. right. exact Hk2.
      * intros ->. contradiction.
Qed.

(* ---------------- climbing ---------------- *)
Inductive climbs (s : astate) : node_id -> option node_id -> list node_id -> Prop :=
| cl_next i p k : child_of s p i -> next_of i (a_children s p) = Some k -> climbs s i (Some k) [i]
| cl_up i p nx path : child_of s p i -> next_of i (a_children s p) = None -> climbs s p nx path -> climbs s i nx (i :: path)
| cl_top i : (forall p, ~ child_of s p i) -> climbs s i None [i].

Lemma climbs_path s i nx path : climbs s i nx path -> forall x, In x path -> x = i \/ anc s x i.
Proof.
  induction 1 as [i p k Hc Hn|i p nx path Hc Hn _ IH|i Hno]; intros x Hx.
  - destruct Hx as [<-|[]]. auto.
  - destruct Hx as [<-|Hx]; [auto|]. right. destruct (IH _ Hx) as [->|Ha]; [apply t_step; exact Hc|].
    eapply t_trans; [exact Ha|apply t_step; exact Hc].
  - destruct Hx as [<-|[]]. auto.
Qed.

Lemma climbs_nodup s i nx path : AWf s -> climbs s i nx path -> NoDup path.
Proof.
  intros HW. induction 1 as [i p k Hc Hn|i p nx path Hc Hn Hcl IH|i Hno].
  - repeat constructor. intros [].
  - constructor; [|exact IH]. intros Hin. destruct (climbs_path _ _ _ _ Hcl _ Hin) as [->|Ha].
    + apply (wf_acyclic _ HW p). apply t_step. exact Hc.
    + apply (wf_acyclic _ HW i). eapply t_trans; [exact Ha|apply t_step; exact Hc].
  - repeat constructor. intros [].
Qed.

Lemma climbs_len s i nx path : AWf s -> i < a_count s -> climbs s i nx path -> length path <= a_count s.
Proof.
  intros HW Hi Hc. apply NoDup_bound; [eapply climbs_nodup; eassumption|].
  intros x Hx. destruct (climbs_path _ _ _ _ Hc _ Hx) as [->|Ha]; [exact Hi|].
  apply (anc_live _ _ _ HW) in Ha. apply Ha.
Qed.

Lemma climbs_run d s i nx path : Rep d s -> AWf s -> i < a_count s -> climbs s i nx path ->
  forall f, length path <= f -> climb f d i = Ok nx.
Proof.
  intros HR HW Hi Hc. revert Hi. induction Hc as [i p k Hch Hn|i p nx path Hch Hn Hcl IH|i Hno]; intros Hi f Hf;
    (destruct f as [|f]; [cbn in Hf; lia|]); cbn [climb];
    destruct (rep_node _ _ HR i Hi) as (n & Hnn & Hl); rewrite (getn_ok _ _ _ Hnn); cbn [bind].
  - destruct (lk_child _ _ _ Hl _ Hch) as (_ & -> & _). rewrite Hn. reflexivity.
  - destruct (lk_child _ _ _ Hl _ Hch) as (-> & -> & _). rewrite Hn. apply IH.
    + apply (wf_range _ HW _ _ Hch).
    + cbn in Hf. lia.
  - destruct (lk_orphan _ _ _ Hl Hno) as (-> & -> & _). reflexivity.
Qed.

Lemma climb_fuel d s i nx path f : Rep d s -> AWf s -> i < a_count s -> climbs s i nx path ->
  a_count s <= f -> climb f d i = Ok nx.
Proof.
  intros HR HW Hi Hc Hf. eapply climbs_run; try eassumption.
  pose proof (climbs_len _ _ _ _ HW Hi Hc). lia.
Qed.

(* ---------------- traversal ---------------- *)
Lemma iter_tree d s cf : Rep d s -> AWf s -> a_count s <= cf ->
  forall i t, tree_of s i t -> i < a_count s -> forall nx path, climbs s i nx path -> forall f,
  iter_nodes (length (preorder t) + f) cf d (Some i)
  = (do r <- iter_nodes f cf d nx; Ok (preorder t ++ r))%result.
Proof.
  intros HR HW Hcf i t Ht. induction Ht as [i ts Hts IH] using tree_of_ind'.
  intros Hi nx path Hcl f. cbn [preorder length plus iter_nodes].
  unfold next_in_tree_order. destruct (rep_node _ _ HR i Hi) as (n & Hn & Hl).
  rewrite (getn_ok _ _ _ Hn). cbn [bind]. rewrite (lk_first _ _ _ Hl).
  assert (forall a b tb, a_children s i = a ++ b -> Forall2 (fun k t => k < a_count s -> forall nx path, climbs s k nx path -> forall f,
     iter_nodes (length (preorder t) + f) cf d (Some k) = (do r <- iter_nodes f cf d nx; Ok (preorder t ++ r))%result) b tb ->
     iter_nodes (length (flat_map preorder tb) + f) cf d (match b with [] => nx | k :: _ => Some k end)
     = (do r <- iter_nodes f cf d nx; Ok (flat_map preorder tb ++ r))%result) as HF.
  { intros a b tb E HFb. revert a E. induction HFb as [|k tk b tb Hk HFb IHb]; intros a E.
    - cbn. destruct (iter_nodes f cf d nx); reflexivity.
    - assert (child_of s i k) as Hc by (unfold child_of; rewrite E; apply in_or_app; right; left; reflexivity).
      assert (next_of k (a_children s i) = hd_error b) as En.
      { rewrite E. apply next_of_cons_split. rewrite <- E. apply HW. }
      cbn [flat_map]. rewrite app_length, <- Nat.add_assoc.
      assert (exists pk, climbs s k (match b with [] => nx | k' :: _ => Some k' end) pk) as (pk & Hpk).
      { destruct b as [|k' b']; cbn [hd_error] in En.
        - exists (k :: path). eapply cl_up; eassumption.
        - exists [k]. eapply cl_next; eassumption. }
      rewrite (Hk (proj2 (proj2 (wf_range _ HW _ _ Hc))) _ _ Hpk).
      rewrite (IHb (a ++ [k])) by (rewrite E, <- app_assoc; reflexivity).
      destruct (iter_nodes f cf d nx); cbn [bind]; [|reflexivity|reflexivity].
      rewrite app_assoc. reflexivity. }
  specialize (HF [] (a_children s i) ts eq_refl IH).
  destruct (a_children s i) as [|k b] eqn:Ech.
  - inversion Hts; subst. cbn [hd_error]. rewrite (climb_fuel d s i nx path cf HR HW Hi Hcl Hcf). cbn [bind flat_map length plus].
    destruct (iter_nodes f cf d nx); reflexivity.
  - cbn [hd_error bind]. rewrite HF. destruct (iter_nodes f cf d nx); reflexivity.
Qed.

Lemma doc_orphan s : AWf s -> forall p, ~ child_of s p document_node_id.
Proof. intros HW p H. destruct (wf_range _ HW _ _ H) as [_ H2]. unfold document_node_id in H2. lia. Qed.

Lemma doc_nodes_tree d s : Rep d s -> AWf s ->
  exists t, tree_of s document_node_id t /\
    forall f, S (length (nodes d)) <= f -> doc_nodes f d = Ok (preorder t).
Proof.
  intros HR HW. pose proof (wf_count _ HW) as Hc.
  assert (live s document_node_id) as Hd by (unfold live, document_node_id; lia).
  destruct (tree_exists s _ HW Hd) as (t & Ht). exists t. split; [exact Ht|]. intros f Hf.
  unfold doc_nodes. assert (length (preorder t) <= a_count s) as Hlen.
  { apply NoDup_bound; [eapply tree_nodup; eassumption|]. intros x Hx.
    apply (tree_members _ _ _ Ht) in Hx. destruct Hx as [->|Ha]; [apply Hd|]. apply (anc_live _ _ _ HW) in Ha. apply Ha. }
  rewrite (rep_count _ _ HR) in Hf.
  replace f with (length (preorder t) + (f - length (preorder t))) at 1 by lia.
  rewrite (iter_tree d s f HR HW ltac:(lia) _ _ Ht (proj2 Hd) _ _ (cl_top s _ (doc_orphan s HW))).
  destruct (f - length (preorder t)); cbn; rewrite app_nil_r; reflexivity.
Qed.

Lemma arena_tree_iff d s i t : Rep d s -> AWf s -> i < a_count s -> tree_of s i t -> arena_tree d i t.
Proof.
  intros HR HW Hi Ht. revert Hi. induction Ht as [i ts Hts IH] using tree_of_ind'. intros Hi.
  econstructor; [apply (kids_children d s i HR HW Hi)|].
  assert (forall k, In k (a_children s i) -> k < a_count s) as Hk.
  { intros k Hk. apply (wf_range _ HW i k Hk). }
  revert Hk. clear Hts. induction IH as [|k t l ts H _ IHl]; intros Hk; constructor.
  - apply H. apply Hk. left. reflexivity.
  - apply IHl. intros x Hx. apply Hk. right. exact Hx.
Qed.

(* ---------------- following siblings ---------------- *)
Lemma chain_following d o l : chain d o l -> forall f, length l <= f -> following_siblings f d o = Ok l.
Proof.
  induction 1 as [|i n l Hn Hc IH]; intros f Hf; destruct f as [|f]; cbn in Hf |- *; try reflexivity; try lia.
  rewrite (getn_ok _ _ _ Hn). cbn [bind]. rewrite IH by lia. reflexivity.
Qed.

Lemma kids_len d s p : Rep d s -> AWf s -> length (a_children s p) <= length (nodes d).
Proof.
  intros HR HW. rewrite (rep_count _ _ HR). apply NoDup_bound; [apply HW|].
  intros x Hx. apply (wf_range _ HW p x Hx).
Qed.

Lemma chain_text d o l : chain d o l -> forall f, length l <= f ->
  child_text_loop f d o = Ok (flat_map (own_text d) l).
Proof.
  induction 1 as [|i n l Hn Hc IH]; intros f Hf; destruct f as [|f]; cbn [length child_text_loop flat_map] in Hf |- *; try reflexivity; try lia.
  rewrite (getn_ok _ _ _ Hn). cbn [bind]. rewrite IH by lia. cbn [bind].
  assert (own_text d i = match n_data n with DText t => t | _ => [] end) as -> .
  { unfold own_text, data_of. rewrite Hn. reflexivity. }
  destruct (n_data n); reflexivity.
Qed.

Lemma child_text_ok d s i l f : Rep d s -> AWf s -> kids d i l -> length (nodes d) <= f ->
  child_text_content f d i = Ok (flat_map (own_text d) l).
Proof.
  intros HR HW Hk Hf. unfold child_text_content. destruct Hk as (n & Hn & Hc).
  rewrite (getn_ok _ _ _ Hn). cbn [bind]. apply chain_text; [exact Hc|].
  assert (kids d i l) as Hk by (exists n; auto). apply (kids_iff d s i l HR HW) in Hk. destruct Hk as [_ ->].
  pose proof (kids_len d s i HR HW). lia.
Qed.
