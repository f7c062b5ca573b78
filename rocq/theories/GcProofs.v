(** Proofs about the C code's use of R's memory. *)
From Verif Require Import GcModel GcSpec.
Local Open Scope prog_scope.

(* -------- reachability -------- *)
Lemma reach_incl h a b j : incl a b -> reach h a j -> reach h b j.
Proof. intros I H. induction H; [apply re_root; auto | eapply re_step; eauto]. Qed.
Lemma reach_app h a b j : reach h (a ++ b) j -> reach h a j \/ reach h b j.
Proof.
  intros H. induction H as [i Hi|i o j H [IH|IH] Ho Hp].
  - apply in_app_or in Hi. destruct Hi; [left | right]; apply re_root; assumption.
  - left. eapply re_step; eauto.
  - right. eapply re_step; eauto.
Qed.
Lemma reach_trans h a b j : (forall i, In i b -> reach h a i) -> reach h b j -> reach h a j.
Proof. intros I H. induction H; [auto | eapply re_step; eauto]. Qed.
Lemma vreach_incl h a b j : incl a b -> vreach h a j -> vreach h b j.
Proof. intros I H. induction H; [apply vre_root; auto | eapply vre_step; eauto]. Qed.
Lemma vreach_reach h a j : vreach h a j -> reach h a j.
Proof. intros H. induction H; [apply re_root; auto | eapply re_step; eauto]. Qed.
(** heaps that agree on what is reachable reach the same *)
Lemma reach_same h h' a j : (forall i, reach h a i -> h' i = h i) -> reach h' a j -> reach h a j.
Proof.
  intros E H. induction H as [i Hi|i o j H IH Ho Hp]; [apply re_root; assumption|].
  eapply re_step; [exact IH | rewrite <- E by exact IH; exact Ho | exact Hp].
Qed.
Lemma reach_same' h h' a j : (forall i, reach h a i -> h' i = h i) -> reach h a j -> reach h' a j.
Proof.
  intros E H. induction H as [i Hi|i o j H IH Ho Hp]; [apply re_root; assumption|].
  eapply re_step; [exact IH | rewrite E by exact H; exact Ho | exact Hp].
Qed.


Lemma safe_nil s : gc_safe s [] <-> forall j, reach (st_heap s) (roots s) j -> st_heap s j <> None.
Proof. unfold gc_safe. rewrite app_nil_r. reflexivity. Qed.
Lemma safe_temps s temps : gc_safe s [] -> (forall t, In t temps -> closed s t) -> gc_safe s temps.
Proof.
  intros H HT j Hj. apply reach_app in Hj. destruct Hj as [Hj|Hj]; [apply (proj1 (safe_nil s) H); exact Hj|].
  enough (exists t, In t temps /\ reach (st_heap s) [t] j) as (t & Ht & Hr) by exact (HT t Ht j Hr).
  clear - Hj. induction Hj as [i Hi|i o j H (t & Ht & Hr) Ho Hp].
  - exists i. split; [exact Hi | apply re_root; left; reflexivity].
  - exists t. split; [exact Ht | eapply re_step; eauto].
Qed.
Lemma root_closed s x : gc_safe s [] -> In x (roots s) -> closed s x.
Proof.
  intros H Hx j Hj. apply (proj1 (safe_nil s) H). eapply reach_trans; [|exact Hj]. intros i [<-|[]]. apply re_root; exact Hx.
Qed.

(* ------------------------------------------------------------------ *)
(** * Weakest preconditions *)

Fixpoint wp {A} (p : prog A) (Q : A -> state -> Prop) (s : state) : Prop :=
  match p with
  | Ret a => Q a s
  | Install k => gc_safe s [] /\ forall s1, gc s [] s1 -> wp k Q s1
  | Alloc refs k => gc_safe s (refs_of refs) /\ forall s1, gc s (refs_of refs) s1 -> wp (k (st_fresh s1)) Q (new_object s1 refs)
  | Evaluate x k => gc_safe s [] /\ (forall s1, gc s [] s1 -> closed s1 x) /\ forall s1 r, evals s s1 r -> wp (k r) Q s1
  | Protect x k => wp k Q (set_pstack s (x :: st_pstack s))
  | Unprotect n k => (n <= length (st_pstack s))%nat /\ wp k Q (set_pstack s (skipn n (st_pstack s)))
  | Preserve x k => gc_safe s [x] /\ forall s1, gc s [x] s1 -> wp k Q (set_preserved s1 (x :: st_preserved s1))
  | Release x k => wp k Q (set_preserved s (remove_one x (st_preserved s)))
  | SetRef x i y k => exists l a, st_heap s x = Some (Obj Vec l a) /\ st_heap s y <> None /\ (i < length l)%nat /\
      wp k Q (set_object s x (Obj Vec (set_slot l i (Some y)) a))
  | GetRef x i k => exists l a r, st_heap s x = Some (Obj Vec l a) /\ nth_error l i = Some r /\ wp (k r) Q s
  | SetAttr x y k => exists l a, st_heap s x = Some (Obj Vec l a) /\ st_heap s y <> None /\ gc_safe s [x; y] /\
      forall s1, gc s [x; y] s1 -> wp k Q (set_object s1 x (Obj Vec l (a ++ [y])))
  | NewBlock k => wp (k (st_bfresh s)) Q (set_blocks s (st_bfresh s :: st_blocks s) (S (st_bfresh s)))
  | UseBlock b k => In b (st_blocks s) /\ wp k Q s
  | FreeBlock b k => In b (st_blocks s) /\ wp k Q (set_blocks s (remove_one b (st_blocks s)) (st_bfresh s))
  end.

Lemma existsb_In b l : In b l -> existsb (Nat.eqb b) l = true.
Proof. intros H. apply existsb_exists. exists b. split; [exact H | apply Nat.eqb_refl]. Qed.

Theorem wp_sound {A} (p : prog A) : forall Q s e, wp p Q s -> exec p s e ->
  match e with Returns a s1 => Q a s1 | Faults => False | Errors _ => True end.
Proof.
  induction p as [a|k IH|refs k IH|x k IH|x k IH|n k IH|x k IH|x k IH|x i y k IH|x i k IH|x y k IH|k IH|b k IH|b k IH]; intros Q s e W E; cbn [wp exec] in *.
  - subst e. exact W.
  - destruct W as [W1 W2]. destruct E as [[E _]|[->|(s1 & G & E)]]; [contradiction | exact I | eapply IH; eauto].
  - destruct W as [W1 W2]. destruct E as [[E _]|[->|(s1 & G & E)]]; [contradiction | exact I | eapply IH; eauto].
  - destruct W as (W1 & W2 & W3). destruct E as [[E _]|[(s1 & j & G & R & N & _)|[->|(s1 & r & G & E)]]]; [contradiction | | exact I | eapply IH; eauto].
    exfalso. exact (W2 s1 G j R N).
  - eapply IH; eauto.
  - destruct W as [W1 W2]. rewrite (proj2 (Nat.leb_le _ _) W1) in E. eapply IH; eauto.
  - destruct W as [W1 W2]. destruct E as [[E _]|[->|(s1 & G & E)]]; [contradiction | exact I | eapply IH; eauto].
  - eapply IH; eauto.
  - destruct W as (l & a & W1 & W2 & W3 & W4). rewrite W1 in E. destruct (st_heap s y) eqn:Ey; [|congruence].
    rewrite (proj2 (Nat.ltb_lt _ _) W3) in E. eapply IH; eauto.
  - destruct W as (l & a & r & W1 & W2 & W3). rewrite W1, W2 in E. eapply IH; eauto.
  - destruct W as (l & a & W1 & W2 & W3 & W4). rewrite W1 in E. destruct (st_heap s y) eqn:Ey; [|congruence].
    destruct E as [[E _]|[->|(s1 & G & E)]]; [contradiction | exact I | eapply IH; eauto].
  - destruct E as [->|E]; [exact I | eapply IH; eauto].
  - destruct W as [W1 W2]. rewrite existsb_In in E by exact W1. eapply IH; eauto.
  - destruct W as [W1 W2]. rewrite existsb_In in E by exact W1. eapply IH; eauto.
Qed.
Lemma wp_mono {A} (p : prog A) : forall (Q R : A -> state -> Prop) s, (forall a s, Q a s -> R a s) -> wp p Q s -> wp p R s.
Proof.
  induction p as [a|k IH|refs k IH|x k IH|x k IH|n k IH|x k IH|x k IH|x i y k IH|x i k IH|x y k IH|k IH|b k IH|b k IH]; intros Q R s HQ W; cbn [wp] in *.
  - auto.
  - destruct W as [W1 W2]. split; [exact W1|]. intros s1 G. eapply IH; eauto.
  - destruct W as [W1 W2]. split; [exact W1|]. intros s1 G. eapply IH; eauto.
  - destruct W as (W1 & W2 & W3). split; [exact W1|]. split; [exact W2|]. intros s1 r G. eapply IH; eauto.
  - eapply IH; eauto.
  - destruct W as [W1 W2]. split; [exact W1|]. eapply IH; eauto.
  - destruct W as [W1 W2]. split; [exact W1|]. intros s1 G. eapply IH; eauto.
  - eapply IH; eauto.
  - destruct W as (l & a & W1 & W2 & W3 & W4). exists l, a. repeat split; auto. eapply IH; eauto.
  - destruct W as (l & a & r & W1 & W2 & W3). exists l, a, r. repeat split; auto. eapply IH; eauto.
  - destruct W as (l & a & W1 & W2 & W3 & W4). exists l, a. repeat split; auto. intros s1 G. eapply IH; eauto.
  - eapply IH; eauto.
  - destruct W as [W1 W2]. split; [exact W1|]. eapply IH; eauto.
  - destruct W as [W1 W2]. split; [exact W1|]. eapply IH; eauto.
Qed.
Lemma wp_bind {A B} (p : prog A) (f : A -> prog B) : forall (Q : B -> state -> Prop) s, wp p (fun a s => wp (f a) Q s) s -> wp (pbind p f) Q s.
Proof.
  induction p as [a|k IH|refs k IH|x k IH|x k IH|n k IH|x k IH|x k IH|x i y k IH|x i k IH|x y k IH|k IH|b k IH|b k IH]; intros Q s W; cbn [wp pbind] in *.
  - auto.
  - destruct W as [W1 W2]. split; [exact W1|]. intros s1 G. eapply IH; eauto.
  - destruct W as [W1 W2]. split; [exact W1|]. intros s1 G. eapply IH; eauto.
  - destruct W as (W1 & W2 & W3). split; [exact W1|]. split; [exact W2|]. intros s1 r G. eapply IH; eauto.
  - eapply IH; eauto.
  - destruct W as [W1 W2]. split; [exact W1|]. eapply IH; eauto.
  - destruct W as [W1 W2]. split; [exact W1|]. intros s1 G. eapply IH; eauto.
  - eapply IH; eauto.
  - destruct W as (l & a & W1 & W2 & W3 & W4). exists l, a. repeat split; auto.
  - destruct W as (l & a & r & W1 & W2 & W3). exists l, a, r. repeat split; auto.
  - destruct W as (l & a & W1 & W2 & W3 & W4). exists l, a. repeat split; auto.
  - eapply IH; eauto.
  - destruct W as [W1 W2]. split; [exact W1|]. eapply IH; eauto.
  - destruct W as [W1 W2]. split; [exact W1|]. eapply IH; eauto.
Qed.

(* ------------------------------------------------------------------ *)
(** * What every step keeps *)

(** [keeps s0 s]: R's bookkeeping and the vectors held in [s0] are the same in [s] (the PROTECT stack apart). *)
Definition held (s : state) (j : nat) (o : obj) : Prop := vreach (st_heap s) (roots s) j /\ st_heap s j = Some o /\ o_kind o = Vec.
Definition keeps_heap (s0 s : state) : Prop :=
  (st_fresh s0 <= st_fresh s)%nat /\ forall j o, held s0 j o -> st_heap s j = Some o.
Definition keeps (s0 s : state) : Prop :=
  st_preserved s = st_preserved s0 /\ st_ext s = st_ext s0 /\ st_blocks s = st_blocks s0 /\ st_bfresh s = st_bfresh s0 /\ keeps_heap s0 s.

Lemma held_mono s0 s j o : keeps_heap s0 s -> incl (roots s0) (roots s) -> held s0 j o -> held s j o.
Proof.
  intros [_ K] I (V & Ho & Hk). assert (V' : vreach (st_heap s) (roots s) j).
  { clear Ho. induction V as [i Hi|i o' j V IH Ho' Hk' Hp]; [apply vre_root; auto|].
    eapply vre_step; [exact IH | apply K; split; [exact V | split; [exact Ho' | exact Hk']] | exact Hk' | exact Hp]. }
  split; [exact V'|]. split; [apply K; split; auto|exact Hk].
Qed.
Lemma keeps_heap_trans a b c : keeps_heap a b -> incl (roots a) (roots b) -> keeps_heap b c -> keeps_heap a c.
Proof.
  intros H1 I H2. split; [destruct H1, H2; lia|]. intros j o Hh. apply H2. eapply held_mono; eauto.
Qed.
Lemma keeps_refl s : keeps s s.
Proof. repeat split; try reflexivity; try lia. intros j o (_ & H & _). exact H. Qed.

Lemma gc_keeps s temps s1 : gc s temps s1 -> keeps s s1 /\ st_pstack s1 = st_pstack s.
Proof.
  intros (h & -> & G1 & G2). cbn. split; [|reflexivity]. repeat split; try reflexivity; try lia.
  intros j o (V & Ho & _). cbn. rewrite G1; [exact Ho|]. eapply reach_incl; [|apply vreach_reach; exact V]. apply incl_appl, incl_refl.
Qed.
Lemma gc_roots s temps s1 : gc s temps s1 -> roots s1 = roots s /\ st_fresh s1 = st_fresh s.
Proof. intros (h & -> & _). split; reflexivity. Qed.
Lemma gc_temps_safe s temps s1 : gc_safe s temps -> gc s temps s1 -> gc_safe s1 temps.
Proof.
  intros H (h & -> & G1 & G2) j Hj. cbn in Hj |- *. change (roots (with_heap s h (st_fresh s))) with (roots s) in Hj.
  pose proof (reach_same _ _ _ _ G1 Hj) as R. rewrite G1 by exact R. apply H. exact R.
Qed.
Lemma gc_inv s temps s1 : inv s -> gc_safe s temps -> gc s temps s1 -> inv s1.
Proof.
  intros [I1 I2] H G. split.
  - pose proof (gc_temps_safe _ _ _ H G) as H1. intros j Hj. rewrite app_nil_r in Hj. apply H1. eapply reach_incl; [|exact Hj]. apply incl_appl, incl_refl.
  - destruct G as (h & -> & G1 & G2). cbn. intros j Hj. destruct (G2 j) as [E|E]; [rewrite E; apply I2; exact Hj | exact E].
Qed.
Lemma safe_closed s temps t : gc_safe s temps -> In t temps -> closed s t.
Proof.
  intros H Ht j Hj. apply H. eapply reach_trans; [|exact Hj]. intros i [<-|[]]. apply re_root. apply in_or_app. right; exact Ht.
Qed.
Lemma evals_keeps s s1 r : inv s -> evals s s1 r -> keeps s s1 /\ st_pstack s1 = st_pstack s /\ inv s1 /\ closed s1 r.
Proof.
  intros I (h & fr & -> & F1 & F2 & K & G). cbn. split; [|split; [reflexivity|split]].
  - repeat split; try reflexivity; try exact F1. intros j o (V & Ho & Hk). cbn. apply K; assumption.
  - split; [|exact F2]. intros j Hj. rewrite app_nil_r in Hj. apply G. eapply reach_incl; [|exact Hj]. apply incl_appl, incl_refl.
  - eapply safe_closed; [exact G | left; reflexivity].
Qed.

(** A new object *)
Lemma upd_same h i o : upd h i o i = o. Proof. unfold upd. rewrite Nat.eqb_refl. reflexivity. Qed.
Lemma upd_other h i o j : j <> i -> upd h i o j = h j.
Proof. unfold upd. intros H. apply Nat.eqb_neq in H. rewrite H. reflexivity. Qed.

Lemma in_refs x l : In (Some x) l <-> In x (refs_of l).
Proof.
  induction l as [|[y|] l IH]; cbn; [tauto| |].
  - rewrite IH. split; [intros [E|H]; [injection E; auto | auto] | intros [->|H]; auto].
  - rewrite IH. split; [intros [E|H]; [discriminate | auto] | auto].
Qed.
(** Writing a reference to something reachable leaves the rest as it was. *)
Lemma reach_upd h rs x o j : (forall y, points_to o y -> reach h rs y) -> reach (upd h x (Some o)) rs j -> reach h rs j.
Proof.
  intros H R. induction R as [i Hi|i o' j R IH Ho Hp]; [apply re_root; assumption|].
  destruct (Nat.eq_dec i x) as [->|N].
  - rewrite upd_same in Ho. injection Ho as <-. apply H; exact Hp.
  - rewrite upd_other in Ho by exact N. eapply re_step; eauto.
Qed.
Lemma new_object_inv s refs : inv s -> gc_safe s (refs_of refs) ->
  inv (set_pstack (new_object s refs) (st_fresh s :: st_pstack s)) /\ closed (new_object s refs) (st_fresh s) /\ inv (new_object s refs).
Proof.
  intros [I1 I2] H. set (x := st_fresh s). set (o := Obj Vec refs []).
  assert (L : forall j, reach (upd (st_heap s) x (Some o)) (x :: roots s) j -> j = x \/ reach (st_heap s) (roots s ++ refs_of refs) j).
  { intros j R. induction R as [i [<-|Hi]|i o' j R IH Ho Hp].
    - left; reflexivity.
    - right. apply re_root. apply in_or_app; left; exact Hi.
    - destruct (Nat.eq_dec i x) as [->|N].
      + rewrite upd_same in Ho. injection Ho as <-. right. destruct Hp as [Hp|[]]. apply re_root, in_or_app; right. apply in_refs; exact Hp.
      + rewrite upd_other in Ho by exact N. destruct IH as [->|IH]; [congruence|]. right. eapply re_step; eauto. }
  assert (A : forall j, reach (upd (st_heap s) x (Some o)) (x :: roots s) j -> upd (st_heap s) x (Some o) j <> None).
  { intros j R. destruct (L j R) as [->|R']; [rewrite upd_same; discriminate|].
    pose proof (H j R') as N. destruct (Nat.eq_dec j x) as [->|Nx]; [rewrite upd_same; discriminate | rewrite upd_other by exact Nx; exact N]. }
  assert (F : forall j, (S x <= j)%nat -> upd (st_heap s) x (Some o) j = None) by (intros j Hj; rewrite upd_other by lia; apply I2; unfold x in Hj; lia).
  split; [split; [|exact F]|split; [|split; [|exact F]]].
  - intros j R. rewrite app_nil_r in R. apply A. exact R.
  - intros j R. apply A. eapply reach_incl; [|exact R]. intros i [<-|[]]. left; reflexivity.
  - intros j R. rewrite app_nil_r in R. apply A. eapply reach_incl; [|exact R]. apply incl_tl, incl_refl.
Qed.

(* ------------------------------------------------------------------ *)
(** * Functions that do not touch the device *)

Definition post (s : state) (r : nat) (s1 : state) : Prop :=
  inv s1 /\ st_pstack s1 = st_pstack s /\ keeps s s1 /\ closed s1 r.
(** [p] is safe when the objects [args] are protected, leaves the stack as it was and returns an object. *)
Definition fspec (p : prog nat) (args : list nat) : Prop := forall s, inv s -> incl args (roots s) -> wp p (post s) s.

(** A function started in [s0] is in [s]; it has protected [ps] and made the vectors in [L], with their lengths. *)
Definition local (s0 s : state) (ps : list nat) (e : nat * nat) : Prop :=
  In (fst e) ps /\ (st_fresh s0 <= fst e)%nat /\ exists l a, st_heap s (fst e) = Some (Obj Vec l a) /\ length l = snd e.
Definition sym (s0 s : state) (ps : list nat) (L : list (nat * nat)) : Prop :=
  inv s0 /\ inv s /\ st_pstack s = ps ++ st_pstack s0 /\ keeps s0 s /\ Forall (local s0 s ps) L.

Lemma sym_roots s0 s ps L : sym s0 s ps L -> roots s = ps ++ roots s0.
Proof. intros (_ & _ & E & (K1 & K2 & _) & _). unfold roots. rewrite E, K1, K2, <- !app_assoc. reflexivity. Qed.
Lemma sym_start s : inv s -> sym s s [] [].
Proof. intros I. split; [exact I|]. split; [exact I|]. split; [reflexivity|]. split; [apply keeps_refl | constructor]. Qed.

Lemma keeps_sym s0 s s1 ps L : sym s0 s ps L -> keeps s s1 -> st_pstack s1 = st_pstack s -> inv s1 -> sym s0 s1 ps L.
Proof.
  intros S K E I1. pose proof (sym_roots _ _ _ _ S) as Hr. destruct S as (I0 & I & P & K0 & HL).
  assert (KH : keeps_heap s s1) by apply K.
  split; [exact I0|]. split; [exact I1|]. split; [rewrite E; exact P|]. split.
  - destruct K as (A1 & A2 & A3 & A4 & _), K0 as (B1 & B2 & B3 & B4 & B5).
    repeat split; try congruence; eapply keeps_heap_trans; try eassumption; rewrite Hr; apply incl_appr, incl_refl.
  - eapply Forall_impl; [|exact HL]. intros [x n] (H1 & H2 & l & a & H3 & H4). cbn [fst snd] in *.
    split; [exact H1|]. split; [exact H2|]. exists l, a. split; [|exact H4]. apply KH. split; [|split; [exact H3|reflexivity]].
    apply vre_root. rewrite Hr. apply in_or_app; left; exact H1.
Qed.
(** protecting what is there *)
Lemma sym_protect s0 s ps L r : sym s0 s ps L -> closed s r -> sym s0 (set_pstack s (r :: st_pstack s)) (r :: ps) L.
Proof.
  intros (I0 & [I1 I2] & P & K0 & HL) C. split; [exact I0|]. split; [|split; [cbn; rewrite P; reflexivity|]; split].
  - split; [|exact I2]. intros j R. rewrite app_nil_r in R. change (reach (st_heap s) (r :: roots s) j) in R.
    change (r :: roots s) with ([r] ++ roots s) in R. apply reach_app in R. destruct R as [R|R]; [exact (C j R)|].
    apply (proj1 (safe_nil s) I1). exact R.
  - exact K0.
  - eapply Forall_impl; [|exact HL]. intros [x n] (H1 & H). split; [right; exact H1 | exact H].
Qed.

Section Rules.
Context {B : Type}.
Implicit Types (Q : B -> state -> Prop).

Lemma r_alloc s0 s ps L refs (k : nat -> prog B) Q : sym s0 s ps L -> incl (refs_of refs) (ps ++ roots s0) ->
  (forall x s1, sym s0 s1 (x :: ps) ((x, length refs) :: L) -> st_heap s1 x = Some (Obj Vec refs []) -> wp (k x) Q s1) ->
  wp (x <- alloc refs;; protect x;; k x) Q s.
Proof.
  intros S Hin HK. cbn [pbind alloc protect wp].
  pose proof S as (I0 & I & P & K0 & HL). assert (G0 : gc_safe s (refs_of refs)).
  { apply safe_temps; [apply I|]. intros t Ht. apply root_closed; [apply I|]. rewrite (sym_roots _ _ _ _ S). apply Hin; exact Ht. }
  split; [exact G0|]. intros s1 G. pose proof (gc_keeps _ _ _ G) as [K1 P1]. pose proof (gc_inv _ _ _ I G0 G) as I1.
  pose proof (keeps_sym _ _ _ _ _ S K1 P1 I1) as S1. pose proof (gc_temps_safe _ _ _ G0 G) as G1.
  destruct (new_object_inv s1 refs I1 G1) as (N1 & N2 & N3).
  apply HK.
  - pose proof S1 as (_ & _ & P2 & K2 & HL1). split; [exact I0|]. split; [exact N1|]. split; [cbn; rewrite P2; reflexivity|].
    assert (LT : (st_fresh s0 <= st_fresh s1)%nat) by (destruct K2 as (_ & _ & _ & _ & F & _); exact F).
    split.
    + destruct K2 as (B1 & B2 & B3 & B4 & B5 & B6). repeat split; try assumption; cbn [st_fresh with_heap set_pstack new_object]; [lia|].
      intros j o Hh. cbn. rewrite upd_other; [apply B6; exact Hh|]. intros ->.
      pose proof (B6 _ _ Hh) as E. rewrite (proj2 I1) in E by lia. discriminate.
    + constructor.
      * split; [left; reflexivity|]. split; [exact LT|]. exists refs, []. cbn. split; [apply upd_same | reflexivity].
      * eapply Forall_impl; [|exact HL1]. intros [x n] (H1 & H2 & l & a & H3 & H4). cbn [fst snd] in *.
        split; [right; exact H1|]. split; [exact H2|]. exists l, a. split; [|exact H4]. cbn. rewrite upd_other; [exact H3|].
        intros ->. rewrite (proj2 I1) in H3 by lia. discriminate.
  - cbn. apply upd_same.
Qed.
Lemma r_install s0 s ps L (k : prog B) Q : sym s0 s ps L -> (forall s1, sym s0 s1 ps L -> wp k Q s1) -> wp (install;; k) Q s.
Proof.
  intros S HK. cbn [pbind install wp]. pose proof S as (I0 & I & P & K0 & HL).
  split; [apply I|]. intros s1 G. apply HK. pose proof (gc_keeps _ _ _ G) as [K1 P1].
  eapply keeps_sym; eauto. eapply gc_inv; [exact I | apply I | exact G].
Qed.
Lemma r_call p args s0 s ps L (k : nat -> prog B) Q : fspec p args -> sym s0 s ps L -> incl args (ps ++ roots s0) ->
  (forall r s1, sym s0 s1 (r :: ps) L -> wp (k r) Q s1) -> wp (r <- p;; protect r;; k r) Q s.
Proof.
  intros F S Hin HK. apply wp_bind. eapply wp_mono; [|apply F; [apply S|rewrite (sym_roots _ _ _ _ S); exact Hin]].
  intros r s1 (I1 & P1 & K1 & C1). cbn [pbind protect wp]. apply HK. apply sym_protect; [|exact C1]. eapply keeps_sym; eauto.
Qed.
Lemma set_slot_length {A} (l : list A) i x : (i < length l)%nat -> length (set_slot l i x) = length l.
Proof. intros H. unfold set_slot. rewrite app_length. cbn [length]. rewrite firstn_length, skipn_length. lia. Qed.
Lemma set_slot_in {A} (l : list A) i x y : In y (set_slot l i x) -> y = x \/ In y l.
Proof.
  unfold set_slot. intros H. apply in_app_or in H. destruct H as [H|[->|H]]; [right|left; reflexivity|right].
  - rewrite <- (firstn_skipn i l). apply in_or_app; left; exact H.
  - rewrite <- (firstn_skipn (S i) l). apply in_or_app; right; exact H.
Qed.
(** Writing a slot of a vector of our own *)
Lemma sym_write s0 s ps L x n l a i y : sym s0 s ps L -> In (x, n) L -> reach (st_heap s) (roots s) y ->
  st_heap s x = Some (Obj Vec l a) -> (i < length l)%nat -> sym s0 (set_object s x (Obj Vec (set_slot l i (Some y)) a)) ps L.
Proof.
  intros S Hx Hy E Hi. pose proof (sym_roots _ _ _ _ S) as Hr. destruct S as (I0 & [I1 I2] & P & K0 & HL).
  rewrite Forall_forall in HL. destruct (HL _ Hx) as (X1 & X2 & _). cbn [fst snd] in X1, X2.
  assert (Rx : reach (st_heap s) (roots s) x) by (apply re_root; rewrite Hr; apply in_or_app; left; exact X1).
  split; [exact I0|]. split; [|split; [exact P|]; split].
  - split; cbn.
    + intros j R. rewrite app_nil_r in R. cbn in R. change (reach (upd (st_heap s) x (Some (Obj Vec (set_slot l i (Some y)) a))) (roots s) j) in R.
      apply reach_upd in R.
      * cbn. destruct (Nat.eq_dec j x) as [->|N]; [rewrite upd_same; discriminate|]. rewrite upd_other by exact N. apply (proj1 (safe_nil s) I1); exact R.
      * intros z [Hz|Hz]; cbn in Hz.
        -- apply set_slot_in in Hz. destruct Hz as [Hz|Hz].
           ++ injection Hz as ->. exact Hy.
           ++ eapply re_step; [exact Rx | exact E | left; exact Hz].
        -- eapply re_step; [exact Rx | exact E | right; exact Hz].
    + intros j Hj. rewrite upd_other; [apply I2; exact Hj|]. intros ->. rewrite I2 in E by exact Hj. discriminate.
  - destruct K0 as (B1 & B2 & B3 & B4 & B5 & B6). repeat split; try assumption. intros j o Hh. cbn. rewrite upd_other; [apply B6; exact Hh|].
    intros ->. destruct Hh as (_ & Hh & _). rewrite (proj2 I0) in Hh by exact X2. discriminate.
  - apply Forall_forall. intros [z m] Hz. destruct (HL _ Hz) as (Z1 & Z2 & lz & az & Z3 & Z4). cbn [fst snd] in *.
    split; [exact Z1|]. split; [exact Z2|]. cbn. destruct (Nat.eq_dec z x) as [->|N].
    + exists (set_slot l i (Some y)), a. rewrite upd_same. split; [reflexivity|]. rewrite E in Z3. injection Z3 as <- <-.
      rewrite set_slot_length by exact Hi. exact Z4.
    + exists lz, az. rewrite upd_other by exact N. split; assumption.
Qed.
Lemma root_live s0 s ps L y : sym s0 s ps L -> In y (ps ++ roots s0) -> st_heap s y <> None.
Proof.
  intros S Hy. pose proof (sym_roots _ _ _ _ S) as Hr. destruct S as (_ & [I1 _] & _). apply (proj1 (safe_nil s) I1). apply re_root. rewrite Hr; exact Hy.
Qed.
Lemma r_set s0 s ps L x n i y (k : prog B) Q : sym s0 s ps L -> In (x, n) L -> (i < n)%nat -> In y (ps ++ roots s0) ->
  (forall s1, sym s0 s1 ps L -> wp k Q s1) -> wp (set_ref x i y;; k) Q s.
Proof.
  intros S Hx Hi Hy HK. cbn [pbind set_ref wp]. pose proof S as (_ & _ & _ & _ & HL). rewrite Forall_forall in HL.
  destruct (HL _ Hx) as (X1 & X2 & l & a & X3 & X4). cbn [fst snd] in *. exists l, a. split; [exact X3|].
  split; [eapply root_live; eauto|]. split; [lia|]. apply HK. eapply sym_write; eauto; [|lia]. apply re_root. rewrite (sym_roots _ _ _ _ S). exact Hy.
Qed.
(** the same, with the contents *)
Lemma r_set_exact s0 s ps L x n l a i y (k : prog B) Q : sym s0 s ps L -> In (x, n) L -> st_heap s x = Some (Obj Vec l a) ->
  (i < length l)%nat -> In y (ps ++ roots s0) ->
  (forall s1, sym s0 s1 ps L -> st_heap s1 x = Some (Obj Vec (set_slot l i (Some y)) a) -> wp k Q s1) -> wp (set_ref x i y;; k) Q s.
Proof.
  intros S Hx E Hi Hy HK. cbn [pbind set_ref wp]. exists l, a. split; [exact E|].
  split; [eapply root_live; eauto|]. split; [exact Hi|]. apply HK; [|cbn; apply upd_same]. eapply sym_write; eauto.
  apply re_root. rewrite (sym_roots _ _ _ _ S). exact Hy.
Qed.
Lemma r_set_args s0 ps L x n args : In (x, n) L -> forall i s (k : prog B) Q, sym s0 s ps L -> (i + length args <= n)%nat ->
  incl args (ps ++ roots s0) -> (forall s1, sym s0 s1 ps L -> wp k Q s1) -> wp (set_args x i args;; k) Q s.
Proof.
  intros Hx. induction args as [|y args IH]; intros i s k Q S Hi Hin HK; cbn [set_args]; [apply HK; exact S|].
  cbn [length] in Hi. cbn [pbind set_ref wp install]. pose proof S as (_ & _ & _ & _ & HL). rewrite Forall_forall in HL.
  destruct (HL _ Hx) as (X1 & X2 & l & a & X3 & X4). cbn [fst snd] in *. exists l, a. split; [exact X3|].
  split; [eapply root_live; [exact S | apply Hin; left; reflexivity]|]. split; [lia|].
  assert (S1 : sym s0 (set_object s x (Obj Vec (set_slot l i (Some y)) a)) ps L) 
    by (eapply sym_write; eauto; [apply re_root; rewrite (sym_roots _ _ _ _ S); apply Hin; left; reflexivity | lia]).
  apply (r_install s0 _ ps L (set_args x (Datatypes.S i) args;; k) Q S1). intros s2 S2. apply IH; [exact S2 | lia | intros z Hz; apply Hin; right; exact Hz | exact HK].
Qed.
Lemma r_use s0 s ps L b (k : prog B) Q : sym s0 s ps L -> In b (st_blocks s0) -> (forall s1, sym s0 s1 ps L -> wp k Q s1) -> wp (use_block b;; k) Q s.
Proof.
  intros S Hb HK. cbn [pbind use_block wp]. split; [|apply HK; exact S]. destruct S as (_ & _ & _ & (_ & _ & E & _) & _). rewrite E. exact Hb.
Qed.
End Rules.

Lemma closed_same s s1 r : st_heap s1 = st_heap s -> closed s r -> closed s1 r.
Proof. intros E. unfold closed. rewrite E. exact (fun H => H). Qed.
Lemma eval_spec x : fspec (eval x) [x].
Proof.
  intros s I Hin. cbn [eval wp]. split; [apply I|]. split.
  - intros s1 G. apply root_closed; [eapply gc_inv; [exact I | apply I | exact G]|]. rewrite (proj1 (gc_roots _ _ _ G)). apply Hin; left; reflexivity.
  - intros s1 r E. destruct (evals_keeps _ _ _ I E) as (K & P & I1 & C). repeat split; try assumption; try apply I1; try apply K.
Qed.
Lemma pop_inv s0 s ps L : sym s0 s ps L -> inv (set_pstack s (st_pstack s0)) /\ keeps s0 (set_pstack s (st_pstack s0)).
Proof.
  intros S. pose proof (sym_roots _ _ _ _ S) as Hr. destruct S as (I0 & [I1 I2] & P & K0 & HL). split.
  - split; [|exact I2]. intros j R. rewrite app_nil_r in R. cbn. apply (proj1 (safe_nil s) I1). eapply reach_incl; [|exact R].
    unfold roots. cbn. rewrite P. intros z Hz. apply in_app_or in Hz. rewrite !in_app_iff. destruct Hz as [Hz|Hz]; [auto|]. apply in_app_or in Hz. tauto.
  - destruct K0 as (B1 & B2 & B3 & B4 & B5 & B6). repeat split; assumption.
Qed.
(** out = p(..); UNPROTECT(n); return out *)
Lemma r_return p args s0 s ps L n : fspec p args -> sym s0 s ps L -> incl args (ps ++ roots s0) -> n = length ps ->
  wp (out <- p;; unprotect n;; Ret out) (post s0) s.
Proof.
  intros F S Hin ->. apply wp_bind. eapply wp_mono; [|apply F; [apply S|rewrite (sym_roots _ _ _ _ S); exact Hin]].
  intros r s1 (I1 & P1 & K1 & C1). cbn [pbind unprotect wp]. pose proof (keeps_sym _ _ _ _ _ S K1 P1 I1) as S1.
  pose proof S1 as (_ & _ & P2 & _ & _). rewrite P2. rewrite app_length. split; [lia|].
  rewrite skipn_app, skipn_all, Nat.sub_diag. cbn [skipn app].
  destruct (pop_inv _ _ _ _ S1) as [J1 J2]. split; [exact J1|]. split; [reflexivity|]. split; [exact J2|].
  eapply closed_same; [|exact C1]. reflexivity.
Qed.

Ltac here := first
  [ apply in_or_app; left; cbn [In]; solve [auto 30]
  | apply in_or_app; right; match goal with H : incl _ (roots _) |- _ => apply H; cbn [In]; solve [auto 30] end
  | apply in_or_app; right; solve [auto 30] ].
Ltac each H := cbn [In refs_of nils repeat] in H; repeat (destruct H as [H|H]; [subst; here|]); try contradiction.
Ltac there := let x := fresh in let H := fresh in intros x H; each H.
Ltac inL := cbn [In]; auto 30.
Ltac step :=
  match goal with
  | S : sym ?s0 ?s ?ps ?L |- wp (pbind (alloc ?refs) _) _ ?s =>
      let x := fresh "x" in let s1 := fresh "s" in let S1 := fresh "S" in let E := fresh "E" in
      eapply (r_alloc s0 s ps L refs); [exact S | there | intros x s1 S1 E; clear S; try clear E; cbn [length nils repeat] in S1]
  | S : sym ?s0 ?s ?ps ?L |- wp (pbind install _) _ ?s =>
      let s1 := fresh "s" in let S1 := fresh "S" in apply (r_install s0 s ps L); [exact S | intros s1 S1; clear S]
  | S : sym ?s0 ?s ?ps ?L |- wp (pbind (set_ref ?x ?i ?y) _) _ ?s =>
      let s1 := fresh "s" in let S1 := fresh "S" in
      eapply (r_set s0 s ps L x); [exact S | inL | lia | here | intros s1 S1; clear S]
  | S : sym ?s0 ?s ?ps ?L |- wp (pbind (set_args ?x ?i ?args) _) _ ?s =>
      let s1 := fresh "s" in let S1 := fresh "S" in
      eapply (r_set_args s0 ps L x); [inL | exact S | cbn [length]; lia | there | intros s1 S1; clear S]
  | S : sym ?s0 ?s ?ps ?L |- wp (pbind (use_block ?b) _) _ ?s =>
      let s1 := fresh "s" in let S1 := fresh "S" in
      apply (r_use s0 s ps L); [exact S | auto | intros s1 S1; clear S]
  end.
Ltac call F := match goal with
  | S : sym ?s0 ?s ?ps ?L |- _ => let x := fresh "r" in let s1 := fresh "s" in let S1 := fresh "S" in
      eapply (r_call _ _ s0 s ps L _ _ F); [exact S | there | intros x s1 S1; clear S]
  end.
Ltac finish F := match goal with S : sym ?s0 ?s ?ps ?L |- _ => eapply (r_return _ _ s0 s ps L _ F); [exact S | there | reflexivity] end.

Lemma get_namespace_spec : fspec get_namespace [].
Proof.
  intros s I _. pose proof (sym_start s I) as S. unfold get_namespace. step. step. step. finish (eval_spec x0).
Qed.
Lemma text_grob_spec l x y h v g : fspec (text_grob l x y h v g) [l; x; y; h; v; g].
Proof.
  intros s I Hin. pose proof (sym_start s I) as S. unfold text_grob. call get_namespace_spec. step. call (eval_spec r). do 3 step. finish (eval_spec x0).
Qed.
Lemma rect_grob_spec x y w h hj vj g : fspec (rect_grob x y w h hj vj g) [x; y; w; h; hj; vj; g].
Proof.
  intros s I Hin. pose proof (sym_start s I) as S. unfold rect_grob. call get_namespace_spec. step. call (eval_spec r). do 3 step. finish (eval_spec x0).
Qed.
Lemma lines_grob_spec x y g : fspec (lines_grob x y g) [x; y; g].
Proof.
  intros s I Hin. pose proof (sym_start s I) as S. unfold lines_grob. call get_namespace_spec. step. call (eval_spec r). do 3 step. finish (eval_spec x0).
Qed.
Lemma unit_in_spec x : fspec (unit_in x) [x].
Proof.
  intros s I Hin. pose proof (sym_start s I) as S. unfold unit_in. call get_namespace_spec. step. call (eval_spec r). do 3 step. step. do 2 step. finish (eval_spec x0).
Qed.
Lemma gpar_empty_spec : fspec gpar_empty [].
Proof.
  intros s I _. pose proof (sym_start s I) as S. unfold gpar_empty. call get_namespace_spec. step. call (eval_spec r). step. finish (eval_spec x).
Qed.
Lemma gpar_gcontext_spec : fspec gpar_gcontext [].
Proof.
  intros s I _. pose proof (sym_start s I) as S. unfold gpar_gcontext. do 9 step. call get_namespace_spec. step. call (eval_spec r). do 3 step. finish (eval_spec x8).
Qed.

(* ------------------------------------------------------------------ *)
(** * The device *)

Lemma refs_nils n : refs_of (nils n) = [].
Proof. induction n; [reflexivity|]. exact IHn. Qed.
Lemma nils_length n : length (nils n) = n. Proof. apply repeat_length. Qed.

(** The device holds [gs]; [P] and [B] is what else is preserved and allocated. *)
Definition dev (P Bs : list nat) (d : rdev) (gs : list nat) (s : state) : Prop :=
  inv s /\ st_preserved s = rd_grobs d :: P /\ st_blocks s = rd_block d :: Bs /\
  st_heap s (rd_grobs d) = Some (Obj Vec (map Some gs ++ nils (rd_cap d - rd_size d)) []) /\
  rd_size d = length gs /\ (rd_size d <= rd_cap d)%nat /\ (0 < rd_cap d)%nat.

Lemma held_root s x o : In x (roots s) -> st_heap s x = Some o -> o_kind o = Vec -> held s x o.
Proof. intros H1 H2 H3. split; [apply vre_root; exact H1 | auto]. Qed.
Lemma in_preserved s x : In x (st_preserved s) -> In x (roots s).
Proof. intros H. apply in_or_app; right. apply in_or_app; left; exact H. Qed.
Lemma in_pstack s x : In x (st_pstack s) -> In x (roots s).
Proof. intros H. apply in_or_app; left; exact H. Qed.

Lemma dev_sym P Bs d gs s0 s ps L : dev P Bs d gs s0 -> sym s0 s ps L -> dev P Bs d gs s.
Proof.
  intros (D1 & D2 & D3 & D4 & D5) (_ & I & _ & (K1 & _ & K3 & _ & _ & K5) & _).
  split; [exact I|]. split; [congruence|]. split; [congruence|]. split; [|exact D5].
  apply K5. apply held_root; [|exact D4|reflexivity]. apply in_preserved. rewrite D2. left; reflexivity.
Qed.
Lemma inv_pop s ps : inv s -> incl ps (st_pstack s) -> inv (set_pstack s ps).
Proof.
  intros [I1 I2] H. split; [|exact I2]. intros j R. rewrite app_nil_r in R. cbn in *. apply (proj1 (safe_nil s) I1). eapply reach_incl; [|exact R].
  intros x Hx. unfold roots in *. cbn in Hx. apply in_app_or in Hx. apply in_or_app. destruct Hx as [Hx|Hx]; [left; auto | right; exact Hx].
Qed.
Lemma inv_push s x : inv s -> closed s x -> inv (set_pstack s (x :: st_pstack s)).
Proof.
  intros [I1 I2] C. split; [|exact I2]. intros j R. rewrite app_nil_r in R. change (reach (st_heap s) ([x] ++ roots s) j) in R.
  apply reach_app in R. destruct R as [R|R]; [exact (C j R) | apply (proj1 (safe_nil s) I1); exact R].
Qed.
Lemma inv_released s P : inv s -> incl P (st_preserved s) -> inv (set_preserved s P).
Proof.
  intros [I1 I2] H. split; [|exact I2]. intros j R. rewrite app_nil_r in R. cbn in *. apply (proj1 (safe_nil s) I1). eapply reach_incl; [|exact R].
  intros x Hx. unfold roots in *. cbn in Hx. rewrite !in_app_iff in *. intuition.
Qed.

(** Copying the grobs *)
Lemma set_slot_next gs m i x : nth_error gs i = Some x -> (length gs <= m)%nat ->
  set_slot (map Some (firstn i gs) ++ nils (m - i)) i (Some x) = map Some (firstn (S i) gs) ++ nils (m - S i).
Proof.
  intros H Hm. assert (Hi : (i < length gs)%nat) by (apply nth_error_Some; congruence).
  assert (Li : length (map Some (firstn i gs)) = i) by (rewrite map_length, firstn_length; lia).
  assert (F : firstn (S i) gs = firstn i gs ++ [x]).
  { clear - H. revert i H. induction gs as [|g gs IH]; intros [|i] H; cbn in H; [discriminate|discriminate|injection H as ->; reflexivity|].
    cbn [firstn app]. f_equal. apply IH. exact H. }
  rewrite F. clear F.
  unfold set_slot. rewrite firstn_app, skipn_app, Li.
  rewrite firstn_all2 by lia. rewrite skipn_all2 by lia. replace (i - i)%nat with 0%nat by lia. replace (S i - i)%nat with 1%nat by lia.
  replace (m - i)%nat with (S (m - S i)) by lia. cbn [firstn app nils repeat skipn]. rewrite app_nil_r.
  rewrite map_app, <- app_assoc. reflexivity.
Qed.
Lemma r_copy {B} s0 ps L new old m gs rest : In (new, m) L -> In old (roots s0) -> (length gs <= m)%nat ->
  st_heap s0 old = Some (Obj Vec (map Some gs ++ rest) []) ->
  forall n i s (k : prog B) Q, sym s0 s ps L -> (i + n = length gs)%nat ->
    st_heap s new = Some (Obj Vec (map Some (firstn i gs) ++ nils (m - i)) []) ->
    (forall s1, sym s0 s1 ps L -> st_heap s1 new = Some (Obj Vec (map Some gs ++ nils (m - length gs)) []) -> wp k Q s1) ->
    wp (copy_slots new old i n;; k) Q s.
Proof.
  intros Hn Ho Hm Eo. induction n as [|n IH]; intros i s k Q S Hi En HK; cbn [copy_slots].
  - apply HK; [exact S|]. rewrite En. replace i with (length gs) by lia. rewrite firstn_all. reflexivity.
  - cbn [pbind get_ref wp]. assert (Es : st_heap s old = Some (Obj Vec (map Some gs ++ rest) [])).
    { destruct S as (_ & _ & _ & (_ & _ & _ & _ & _ & K) & _). apply K. apply held_root; [exact Ho | exact Eo | reflexivity]. }
    destruct (nth_error gs i) as [x|] eqn:Ex; [|apply nth_error_None in Ex; lia].
    assert (Ex' : nth_error (map Some gs ++ rest) i = Some (Some x)).
    { rewrite nth_error_app1 by (rewrite map_length; lia). rewrite nth_error_map, Ex. reflexivity. }
    exists (map Some gs ++ rest), [], (Some x). split; [exact Es|]. split; [exact Ex'|]. cbn [pbind set_ref wp].
    eexists _, _. split; [exact En|].
    assert (Rx : reach (st_heap s) (roots s) x).
    { eapply re_step; [apply re_root; rewrite (sym_roots _ _ _ _ S); apply in_or_app; right; exact Ho | exact Es | left; cbn; eapply nth_error_In; exact Ex']. }
    assert (Ll : length (map Some (firstn i gs) ++ nils (m - i)) = m) by (rewrite app_length, map_length, firstn_length, nils_length; lia).
    split; [|split; [rewrite Ll; lia|]].
    + destruct S as (_ & [I1 _] & _). apply (proj1 (safe_nil s) I1). exact Rx.
    + assert (S1 : sym s0 (set_object s new (Obj Vec (set_slot (map Some (firstn i gs) ++ nils (m - i)) i (Some x)) [])) ps L)
        by (eapply sym_write; eauto; rewrite Ll; lia).
      apply (IH (Datatypes.S i)); [exact S1 | lia | cbn; rewrite upd_same; f_equal; f_equal; apply set_slot_next; assumption | exact HK].
Qed.

(** [rdev_new] *)
Lemma rdev_new_spec s : inv s -> wp rdev_new (fun d s1 => dev (st_preserved s) (st_blocks s) d [] s1 /\ rd_bb d = false /\
  st_pstack s1 = st_pstack s /\ st_ext s1 = st_ext s) s.
Proof.
  intros I. unfold rdev_new. cbn [pbind new_block wp]. set (s' := set_blocks s _ _).
  assert (I' : inv s') by exact I. pose proof (sym_start s' I') as S. step; [left; reflexivity|].
  eapply r_alloc; [exact S0 | rewrite refs_nils; intros ? [] | intros x s1 S1 E; clear S0].
  cbn [pbind preserve unprotect use_block wp].
  pose proof S1 as (_ & I1 & P1 & (K1 & K2 & K3 & _) & _).
  assert (Rx : In x (roots s1)) by (apply in_pstack; rewrite P1; left; reflexivity).
  assert (G : gc_safe s1 [x]) by (apply safe_temps; [apply I1 | intros t [<-|[]]; apply root_closed; [apply I1 | exact Rx]]).
  split; [exact G|]. intros s2 Hgc. pose proof (gc_inv _ _ _ I1 G Hgc) as I2. destruct (gc_keeps _ _ _ Hgc) as [(A1 & A2 & A3 & _ & _ & A5) A6].
  cbn [set_preserved st_pstack]. rewrite A6, P1. cbn [length skipn app]. split; [lia|]. split; [cbn; rewrite A3, K3; left; reflexivity|].
  split; [|split; [reflexivity|]; split; [reflexivity | cbn; rewrite A2, K2; reflexivity]].
  assert (Ex : st_heap s2 x = Some (Obj Vec (nils 5) [])) by (apply A5; apply held_root; [exact Rx | exact E | reflexivity]).
  split; [|split; [cbn; rewrite A1, K1; reflexivity|]; split; [cbn; rewrite A3, K3; reflexivity|]; split; [exact Ex|cbn; lia]].
  destruct I2 as [J1 J2]. split; [|exact J2]. intros j R. rewrite app_nil_r in R. cbn in *. apply (proj1 (safe_nil s2) J1).
  eapply reach_incl; [|exact R]. unfold roots. cbn. rewrite A6, P1. intros z Hz. rewrite !in_app_iff in *. cbn in *. rewrite ?in_app_iff in *. intuition.
Qed.

(** [rdev_add_SEXP] *)
Lemma write_inv s x l a i y : inv s -> In x (roots s) -> st_heap s x = Some (Obj Vec l a) -> (i < length l)%nat -> In y (roots s) ->
  inv (set_object s x (Obj Vec (set_slot l i (Some y)) a)).
Proof.
  intros [I1 I2] Hx E Hi Hy. assert (Rx : reach (st_heap s) (roots s) x) by (apply re_root; exact Hx). split; cbn.
  - intros j R. rewrite app_nil_r in R. cbn in R. change (reach (upd (st_heap s) x (Some (Obj Vec (set_slot l i (Some y)) a))) (roots s) j) in R.
    apply reach_upd in R.
    + cbn. destruct (Nat.eq_dec j x) as [->|N]; [rewrite upd_same; discriminate|]. rewrite upd_other by exact N. apply (proj1 (safe_nil s) I1); exact R.
    + intros z [Hz|Hz]; cbn in Hz.
      * apply set_slot_in in Hz. destruct Hz as [Hz|Hz]; [injection Hz as ->; apply re_root; exact Hy | eapply re_step; [exact Rx | exact E | left; exact Hz]].
      * eapply re_step; [exact Rx | exact E | right; exact Hz].
  - intros j Hj. rewrite upd_other; [apply I2; exact Hj|]. intros ->. rewrite I2 in E by exact Hj. discriminate.
Qed.
Definition dpost (P Bs : list nat) (s : state) (d : rdev) (gs : list nat) (d' : rdev) (s1 : state) : Prop :=
  dev P Bs d' gs s1 /\ rd_block d' = rd_block d /\ rd_bb d' = rd_bb d /\ st_pstack s1 = st_pstack s /\ st_ext s1 = st_ext s.
Lemma grow_spec P Bs d gs s : dev P Bs d gs s ->
  wp (rdev_grow_capacity d) (fun d' s1 => dpost P Bs s d gs d' s1 /\ (rd_size d' < rd_cap d')%nat) s.
Proof.
  intros D. pose proof D as (I & D2 & D3 & D4 & D5 & D6 & D7). unfold rdev_grow_capacity. pose proof (sym_start s I) as S.
  eapply r_use; [exact S | rewrite D3; left; reflexivity | intros s1 S1; clear S].
  eapply r_alloc; [exact S1 | rewrite refs_nils; intros ? [] | intros new s2 S2 E2; clear S1]. rewrite nils_length in S2.
  eapply (r_copy s [new] [(new, (2 * rd_cap d)%nat)] new (rd_grobs d) _ gs); [left; reflexivity | apply in_preserved; rewrite D2; left; reflexivity | lia | exact D4 | exact S2 | cbn; lia | cbn [firstn map app]; rewrite Nat.sub_0_r; exact E2 |].
  intros s3 S3 E3. clear S2 E2. cbn [pbind release preserve use_block unprotect wp].
  pose proof S3 as (_ & I3 & P3 & (K1 & K2 & K3 & _) & _).
  assert (P3' : remove_one (rd_grobs d) (st_preserved s3) = P) by (rewrite K1, D2; cbn; rewrite Nat.eqb_refl; reflexivity).
  rewrite P3'. set (s4 := set_preserved s3 P).
  assert (I4 : inv s4) by (apply inv_released; [exact I3 | rewrite K1, D2; apply incl_tl, incl_refl]).
  assert (R4 : In new (roots s4)) by (apply in_pstack; cbn; rewrite P3; left; reflexivity).
  assert (G : gc_safe s4 [new]) by (apply safe_temps; [apply I4 | intros t [<-|[]]; apply root_closed; [apply I4 | exact R4]]).
  split; [exact G|]. intros s5 Hgc. pose proof (gc_inv _ _ _ I4 G Hgc) as I5. destruct (gc_keeps _ _ _ Hgc) as [(A1 & A2 & A3 & _ & _ & A5) A6].
  assert (E5 : st_heap s5 new = Some (Obj Vec (map Some gs ++ nils (2 * rd_cap d - length gs)) [])) by (apply A5; apply held_root; [exact R4 | exact E3 | reflexivity]).
  cbn in A1, A2, A3, A6. cbn [set_preserved st_pstack st_blocks]. rewrite A6, P3, A3, K3, D3. cbn [length skipn app].
  split; [left; reflexivity|]. split; [lia|]. split; [|cbn; lia].
  split; [|split; [reflexivity|]; split; [reflexivity|]; split; [reflexivity | cbn; congruence]].
  split; [|split; [cbn; rewrite A1; reflexivity|]; split; [cbn; congruence|]; split; [cbn [rd_grobs rd_cap rd_size]; rewrite D5; exact E5|cbn [rd_size rd_cap]; lia]].
  destruct I5 as [J1 J2]. split; [|exact J2]. intros j R. rewrite app_nil_r in R. cbn in *. apply (proj1 (safe_nil s5) J1).
  eapply reach_incl; [|exact R]. unfold roots. cbn. rewrite A6, P3. intros z Hz. rewrite !in_app_iff in *. cbn in *. rewrite ?in_app_iff in *. intuition.
Qed.
Lemma dpost_refl P Bs s d gs : dev P Bs d gs s -> dpost P Bs s d gs d s.
Proof. intros D. repeat split; try exact D; try apply D. Qed.
Lemma add_spec P Bs d gs s x : dev P Bs d gs s -> In x (st_pstack s) ->
  wp (rdev_add_SEXP d x) (dpost P Bs s d (gs ++ [x])) s.
Proof.
  intros D Hx. unfold rdev_add_SEXP. cbn [pbind use_block wp]. split; [destruct D as (_ & _ & -> & _); left; reflexivity|].
  apply wp_bind. eapply wp_mono with (Q := fun d' s1 => dpost P Bs s d gs d' s1 /\ (rd_size d' < rd_cap d')%nat).
  - intros d' s1 (((I & D2 & D3 & D4 & D5 & D6 & D7) & B1 & B2 & P1 & X1) & LT). cbn [pbind set_ref wp].
    assert (Rg : In (rd_grobs d') (roots s1)) by (apply in_preserved; rewrite D2; left; reflexivity).
    assert (Rx : In x (roots s1)) by (apply in_pstack; rewrite P1; exact Hx).
    assert (Ll : length (map Some gs ++ nils (rd_cap d' - rd_size d')) = rd_cap d') by (rewrite app_length, map_length, nils_length; lia).
    eexists _, _. split; [exact D4|]. split; [apply (proj1 (safe_nil s1) (proj1 I)); apply re_root; exact Rx|]. split; [rewrite Ll; exact LT|].
    split; [|cbn; auto]. split; [apply write_inv; auto; rewrite Ll; exact LT|]. split; [exact D2|]. split; [exact D3|]. split; [|cbn; rewrite app_length; cbn; lia].
    cbn. rewrite upd_same. f_equal. f_equal.
    rewrite D5 in *. rewrite map_app, <- app_assoc. cbn [map app].
    unfold set_slot. rewrite firstn_app, skipn_app, map_length, Nat.sub_diag. rewrite firstn_all2 by (rewrite map_length; lia).
    rewrite skipn_all2 by (rewrite map_length; lia). replace (S (length gs) - length gs)%nat with 1%nat by lia.
    replace (rd_cap d' - length gs)%nat with (S (rd_cap d' - S (length gs))) by lia. cbn [firstn nils repeat skipn app]. rewrite app_nil_r. reflexivity.
  - destruct (Nat.eqb (rd_size d) (rd_cap d)) eqn:Eq; [apply grow_spec; exact D|]. cbn [wp]. split; [apply dpost_refl; exact D|].
    apply Nat.eqb_neq in Eq. destruct D as (_ & _ & _ & _ & _ & D6 & _). lia.
Qed.

(** The end of the drawing functions *)
Lemma draw_end P Bs d gs s0 s ps L x n : dev P Bs d gs s0 -> sym s0 s (x :: ps) L -> n = length (x :: ps) ->
  wp (d <- rdev_add_SEXP d x;; unprotect n;; Ret (d, x)) (fun r s1 => dpost P Bs s0 d (gs ++ [snd r]) (fst r) s1) s.
Proof.
  intros D S ->. apply wp_bind. pose proof S as (_ & _ & PS & (_ & K2 & _) & _).
  eapply wp_mono; [|apply (add_spec P Bs d gs s x); [eapply dev_sym; eauto | rewrite PS; left; reflexivity]].
  intros d' s1 (D1 & B1 & B2 & P1 & X1). cbn [pbind unprotect wp]. rewrite P1, PS, app_length. split; [lia|].
  rewrite skipn_app, skipn_all, Nat.sub_diag. cbn [skipn app fst snd].
  split; [|split; [exact B1|]; split; [exact B2|]; split; [reflexivity | cbn; congruence]].
  destruct D1 as (I1 & D1). split; [|exact D1]. apply inv_pop; [exact I1|]. rewrite P1, PS. apply incl_appr, incl_refl.
Qed.
Lemma dev_block P Bs d gs s : dev P Bs d gs s -> In (rd_block d) (st_blocks s).
Proof. intros (_ & _ & -> & _). left; reflexivity. Qed.
Ltac draw := match goal with D : dev _ _ _ _ _, S : sym ?s0 ?s _ _ |- _ => eapply draw_end; [exact D | exact S | reflexivity] end.

Lemma draw_text_spec P Bs d gs s : dev P Bs d gs s -> wp (rdev_draw_text d) (fun r s1 => dpost P Bs s d (gs ++ [snd r]) (fst r) s1) s.
Proof.
  intros D. pose proof (dev_block _ _ _ _ _ D) as HB. pose proof (sym_start s (proj1 D)) as S. unfold rdev_draw_text.
  step. step. call (unit_in_spec x0). step. step. call (unit_in_spec x1). step. step. call gpar_gcontext_spec. call (text_grob_spec x r r0 x2 x3 r1). draw.
Qed.
Lemma draw_rect_spec P Bs d gs s : dev P Bs d gs s -> wp (rdev_draw_rect d) (fun r s1 => dpost P Bs s d (gs ++ [snd r]) (fst r) s1) s.
Proof.
  intros D. pose proof (dev_block _ _ _ _ _ D) as HB. pose proof (sym_start s (proj1 D)) as S. unfold rdev_draw_rect.
  step. call (unit_in_spec x). step. step. call (unit_in_spec x0). step. call (unit_in_spec x1). step. call (unit_in_spec x2). step. step.
  call gpar_gcontext_spec. call (rect_grob_spec r r0 r1 r2 x3 x4 r3). draw.
Qed.
Lemma draw_line_spec P Bs d gs s : dev P Bs d gs s -> wp (rdev_draw_line d) (fun r s1 => dpost P Bs s d (gs ++ [snd r]) (fst r) s1) s.
Proof.
  intros D. pose proof (dev_block _ _ _ _ _ D) as HB. pose proof (sym_start s (proj1 D)) as S. unfold rdev_draw_line.
  step. step. step. call (unit_in_spec x). call (unit_in_spec x0). call gpar_gcontext_spec. call (lines_grob_spec r r0 r1). draw.
Qed.

(* ------------------------------------------------------------------ *)
(** * Rendering *)

Definition spost (P Bs : list nat) (s : state) (d : rdev) (gs : list nat) (bb : bool) (r : rdev * list nat) (s1 : state) : Prop :=
  dev P Bs (fst r) (gs ++ snd r) s1 /\ rd_bb (fst r) = orb (rd_bb d) bb /\ st_pstack s1 = st_pstack s /\ st_ext s1 = st_ext s.
Lemma serve_spec P Bs d gs s q : dev P Bs d gs s ->
  wp (serve d q) (fun r s1 => spost P Bs s d gs (is_bbox q) r s1 /\ length (snd r) = length (filter is_draw [q])) s.
Proof.
  intros D. destruct q; cbn [serve is_bbox].
  - apply wp_bind. eapply wp_mono; [|apply draw_text_spec; exact D]. intros r s1 (D1 & _ & B & P1 & X1). cbn [wp]. split; [|reflexivity]. split; [exact D1|]. rewrite orb_false_r. auto.
  - apply wp_bind. eapply wp_mono; [|apply draw_rect_spec; exact D]. intros r s1 (D1 & _ & B & P1 & X1). cbn [wp]. split; [|reflexivity]. split; [exact D1|]. rewrite orb_false_r. auto.
  - apply wp_bind. eapply wp_mono; [|apply draw_line_spec; exact D]. intros r s1 (D1 & _ & B & P1 & X1). cbn [wp]. split; [|reflexivity]. split; [exact D1|]. rewrite orb_false_r. auto.
  - unfold rdev_record_bbox. cbn [pbind use_block wp]. split; [eapply dev_block; exact D|]. split; [|reflexivity]. split; [cbn [fst snd]; rewrite app_nil_r; exact D|]. cbn. rewrite orb_true_r. auto.
  - unfold rdev_string_metrics. pose proof (sym_start s (proj1 D)) as S. step. cbn [wp]. split; [|reflexivity]. split; [cbn [fst snd]; rewrite app_nil_r; eapply dev_sym; eauto|].
    cbn [fst]. rewrite orb_false_r. destruct S0 as (_ & _ & P0 & (_ & X0 & _) & _). auto.
Qed.
Lemma serve_all_spec P Bs qs : forall d gs s, dev P Bs d gs s ->
  wp (serve_all d qs) (fun r s1 => spost P Bs s d gs (existsb is_bbox qs) r s1 /\ length (snd r) = length (filter is_draw qs)) s.
Proof.
  induction qs as [|q qs IH]; intros d gs s D; cbn [serve_all existsb].
  - cbn [wp]. split; [|reflexivity]. split; [cbn [fst snd]; rewrite app_nil_r; exact D|]. rewrite orb_false_r. auto.
  - apply wp_bind. eapply wp_mono; [|apply serve_spec; exact D]. intros r s1 ((D1 & B1 & P1 & X1) & L1). apply wp_bind.
    eapply wp_mono; [|apply IH; exact D1]. intros r' s2 ((D2 & B2 & P2 & X2) & L2). cbn [wp].
    split; [|cbn [snd]; change (q :: qs) with ([q] ++ qs); rewrite filter_app, !app_length; congruence].
    split; [cbn [fst snd]; rewrite app_assoc; exact D2|].
    cbn [fst]. rewrite B2, B1, orb_assoc. split; [reflexivity|]. split; congruence.
Qed.

(** Attributes *)
Lemma attr_inv s x y l a s1 : inv s -> In x (roots s) -> In y (roots s) -> st_heap s x = Some (Obj Vec l a) ->
  gc_safe s [x; y] /\ (gc s [x; y] s1 -> inv (set_object s1 x (Obj Vec l (a ++ [y]))) /\ keeps s s1 /\ st_pstack s1 = st_pstack s /\ st_heap s1 x = Some (Obj Vec l a)).
Proof.
  intros I Hx Hy E. assert (G : gc_safe s [x; y]) by (apply safe_temps; [apply I | intros t [<-|[<-|[]]]; apply root_closed; auto; apply I]).
  split; [exact G|]. intros Hgc. pose proof (gc_inv _ _ _ I G Hgc) as I1. destruct (gc_keeps _ _ _ Hgc) as [K P]. destruct (gc_roots _ _ _ Hgc) as [R _].
  assert (E1 : st_heap s1 x = Some (Obj Vec l a)) by (apply K; apply held_root; [exact Hx | exact E | reflexivity]).
  split; [|auto]. clear E. rewrite <- R in Hx, Hy. destruct I1 as [I1 I2]. split; cbn.
  - intros j Rj. rewrite app_nil_r in Rj. cbn in Rj. change (reach (upd (st_heap s1) x (Some (Obj Vec l (a ++ [y])))) (roots s1) j) in Rj.
    apply reach_upd in Rj.
    + cbn. destruct (Nat.eq_dec j x) as [->|N]; [rewrite upd_same; discriminate|]. rewrite upd_other by exact N. apply (proj1 (safe_nil s1) I1); exact Rj.
    + intros z [Hz|Hz]; cbn in Hz; [eapply re_step; [apply re_root; exact Hx | exact E1 | left; exact Hz]|].
      apply in_app_or in Hz. destruct Hz as [Hz|[<-|[]]]; [eapply re_step; [apply re_root; exact Hx | exact E1 | right; exact Hz] | apply re_root; exact Hy].
  - intros j Hj. rewrite upd_other; [apply I2; exact Hj|]. intros ->. rewrite I2 in E1 by exact Hj. discriminate.
Qed.

Lemma kept s0 s ps L x o : sym s0 s ps L -> held s0 x o -> st_heap s x = Some o.
Proof. intros (_ & _ & _ & (_ & _ & _ & _ & _ & K) & _) H. apply K; exact H. Qed.

(** classgets, free, UNPROTECT, return *)
Lemma release_end P Bs b new gs l (bb : bool) s ps : inv s -> st_pstack s = new :: ps -> st_preserved s = P -> st_blocks s = b :: Bs ->
  st_heap s new = Some (Obj Vec (map Some gs) l) ->
  (if bb then exists box x0 y0 x1 y1, l = [box] /\ st_heap s box = Some (Obj Vec [Some x0; Some y0; Some x1; Some y1] []) else l = []) ->
  wp (cl <- alloc [];; protect cl;; set_attr new cl;; free_block b;; unprotect 2;; Ret new)
     (fun r s1 => r = new /\ inv s1 /\ closed s1 new /\ grob_list s1 new gs bb /\ st_preserved s1 = P /\ st_blocks s1 = Bs /\ st_pstack s1 = ps /\ st_ext s1 = st_ext s) s.
Proof.
  intros I P0 P1 P2 E HL. pose proof (sym_start s I) as S. step. rename S0 into S1. rename s0 into s1.
  assert (Rn : In new (roots s)) by (apply in_pstack; rewrite P0; left; reflexivity).
  assert (En : st_heap s1 new = Some (Obj Vec (map Some gs) l)) by (eapply kept; [exact S1 | apply held_root; [exact Rn | exact E | reflexivity]]).
  assert (EB : forall box o, In box l -> st_heap s box = Some o -> o_kind o = Vec -> st_heap s1 box = Some o /\ held s1 box o).
  { intros box o Hb Ho Hk. assert (H : held s box o).
    { split; [|auto]. eapply vre_step; [apply vre_root; exact Rn | exact E | reflexivity | right; exact Hb]. }
    split; [eapply kept; [exact S1 | exact H]|]. eapply held_mono; [apply S1 | | exact H]. rewrite (sym_roots _ _ _ _ S1). apply incl_appr, incl_refl. }
  pose proof S1 as (_ & I1 & Q1 & (K1 & K2 & K3 & K4 & K5) & _). cbn [app] in Q1.
  assert (Rn1 : In new (roots s1)) by (apply in_pstack; rewrite Q1, P0; right; left; reflexivity).
  assert (Rx1 : In x (roots s1)) by (apply in_pstack; rewrite Q1; left; reflexivity).
  cbn [pbind set_attr free_block unprotect wp].
  exists (map Some gs), l. split; [exact En|]. split; [apply (proj1 (safe_nil s1) (proj1 I1)); apply re_root; exact Rx1|].
  split; [eapply attr_inv; eauto; exact s1|]. intros s2 Hgc. destruct (attr_inv s1 new x _ _ s2 I1 Rn1 Rx1 En) as [_ A]. destruct (A Hgc) as (I2 & (C1 & C2 & C3 & _ & _ & C5) & C6 & E2).
  cbn [set_object with_heap st_blocks st_pstack set_blocks]. rewrite C3, K3, P2, C6, Q1, P0. cbn [length skipn remove_one]. rewrite Nat.eqb_refl.
  split; [left; reflexivity|]. split; [lia|]. split; [reflexivity|].
  assert (J : inv (set_pstack (set_blocks (set_object s2 new (Obj Vec (map Some gs) (l ++ [x]))) Bs (st_bfresh s2)) ps)).
  { apply inv_pop; [exact I2|]. cbn. rewrite C6, Q1, P0. apply incl_tl, incl_tl, incl_refl. }
  split; [exact J|]. split.
  - apply (closed_same (set_object s2 new (Obj Vec (map Some gs) (l ++ [x])))); [reflexivity|]. apply root_closed; [apply I2|].
    apply in_pstack. cbn. rewrite C6, Q1, P0. right; left; reflexivity.
  - split; [|cbn; repeat split; congruence]. destruct bb; cbn [grob_list].
    + destruct HL as (box & x0 & y0 & x1 & y1 & -> & Hb). exists box, x, x0, y0, x1, y1. cbn. rewrite upd_same. split; [reflexivity|].
      destruct (EB box _ (or_introl eq_refl) Hb eq_refl) as [Hb1 Hb2].
      destruct (Nat.eq_dec box new) as [->|N].
      * exfalso. rewrite E in Hb. injection Hb as Hb. discriminate.
      * rewrite upd_other by exact N. apply C5. exact Hb2.
    + subst l. exists x. cbn. apply upd_same.
Qed.

Definition released (P Bs : list nat) (s : state) (gs : list nat) (bb : bool) (r : nat) (s1 : state) : Prop :=
  inv s1 /\ closed s1 r /\ grob_list s1 r gs bb /\ st_preserved s1 = P /\ st_blocks s1 = Bs /\ st_pstack s1 = st_pstack s /\ st_ext s1 = st_ext s.
Lemma release_spec P Bs d gs s : dev P Bs d gs s -> wp (rdev_release d) (released P Bs s gs (rd_bb d)) s.
Proof.
  intros D. pose proof D as (I & D2 & D3 & D4 & D5 & D6 & D7). unfold rdev_release. pose proof (sym_start s I) as S.
  eapply r_use; [exact S | rewrite D3; left; reflexivity | intros s1 S1; clear S].
  eapply r_alloc; [exact S1 | rewrite refs_nils; intros ? [] | intros new s2 S2 E2; clear S1]. rewrite nils_length in S2.
  eapply (r_copy s [new] [(new, rd_size d)] new (rd_grobs d) _ gs); [left; reflexivity | apply in_preserved; rewrite D2; left; reflexivity | lia | exact D4 | exact S2 | cbn; lia | cbn [firstn map app]; rewrite Nat.sub_0_r; exact E2 |].
  intros s3 S3 E3. clear S2 E2. rewrite D5, Nat.sub_diag in E3. cbn [nils repeat] in E3. rewrite app_nil_r in E3.
  cbn [pbind release use_block wp].
  pose proof S3 as (_ & I3 & P3 & (K1 & K2 & K3 & _) & _).
  assert (P3' : remove_one (rd_grobs d) (st_preserved s3) = P) by (rewrite K1, D2; cbn; rewrite Nat.eqb_refl; reflexivity).
  rewrite P3'. set (s4 := set_preserved s3 P).
  assert (I4 : inv s4) by (apply inv_released; [exact I3 | rewrite K1, D2; apply incl_tl, incl_refl]).
  assert (Rn : In new (roots s4)) by (apply in_pstack; cbn; rewrite P3; left; reflexivity).
  split; [cbn; rewrite K3, D3; left; reflexivity|]. destruct (rd_bb d).
  - apply wp_bind. pose proof (sym_start s4 I4) as S. step. step. step. step.
    match goal with S : sym s4 _ _ _ |- _ => eapply r_alloc; [exact S | rewrite refs_nils; intros ? [] | intros box sb S5 E5; clear S]; cbn [nils repeat length] in S5, E5 end.
    do 4 (match goal with S : sym s4 ?st _ _, E : st_heap ?st box = _ |- _ =>
      eapply r_set_exact; [exact S | left; reflexivity | exact E | cbn; lia | here |];
      let st' := fresh "s" in let S' := fresh "S" in let E' := fresh "E" in intros st' S' E'; clear S E; rename S' into S5; rename E' into E5; cbn in E5 end).
    match type of E5 with st_heap ?st _ = _ => rename st into sf end.
    repeat match goal with st : state |- _ => match st with s => fail 1 | s3 => fail 1 | s4 => fail 1 | sf => fail 1 | _ => clear st end end.
    rename sf into s6.
    assert (I6 : inv s6) by apply S5. assert (R6 : roots s6 = [box; x2; x1; x0; x] ++ roots s4) by exact (sym_roots _ _ _ _ S5).
    assert (N6 : st_heap s6 new = Some (Obj Vec (map Some gs) [])) by (eapply kept; [exact S5 | apply held_root; [exact Rn | exact E3 | reflexivity]]).
    cbn [pbind install set_attr unprotect wp]. split; [apply I6|]. intros s7 Hgc. pose proof (gc_inv _ _ _ I6 (proj1 I6) Hgc) as I7.
    destruct (gc_keeps _ _ _ Hgc) as [K7 P7]. pose proof (keeps_sym _ _ _ _ _ S5 K7 P7 I7) as S7.
    assert (R7 : roots s7 = [box; x2; x1; x0; x] ++ roots s4) by exact (sym_roots _ _ _ _ S7).
    assert (E7 : st_heap s7 box = Some (Obj Vec [Some x; Some x0; Some x1; Some x2] [])).
    { apply K7. apply held_root; [rewrite R6; left; reflexivity | exact E5 | reflexivity]. }
    assert (N7 : st_heap s7 new = Some (Obj Vec (map Some gs) [])).
    { apply K7. apply held_root; [rewrite R6; apply in_or_app; right; exact Rn | exact N6 | reflexivity]. }
    assert (RB : In box (roots s7)) by (rewrite R7; left; reflexivity).
    assert (RN : In new (roots s7)) by (rewrite R7; apply in_or_app; right; exact Rn).
    exists (map Some gs), []. split; [exact N7|]. split; [rewrite E7; discriminate|].
    split; [eapply attr_inv; eauto; exact s7|]. intros s8 Hgc8. destruct (attr_inv s7 new box _ _ s8 I7 RN RB N7) as [_ A]. destruct (A Hgc8) as (I8 & (C1 & C2 & C3 & _ & _ & C5) & C6 & E8).
    pose proof S7 as (_ & _ & Q7 & (F1 & F2 & F3 & _) & _).
    assert (Q8 : st_pstack s8 = [box; x2; x1; x0; x] ++ new :: st_pstack s) by (rewrite C6, Q7; cbn; rewrite P3; reflexivity).
    cbn [set_object with_heap st_pstack app]. rewrite Q8. cbn [app length skipn]. split; [lia|].
    assert (B8 : st_heap s8 box = Some (Obj Vec [Some x; Some x0; Some x1; Some x2] [])) by (apply C5; apply held_root; [exact RB | exact E7 | reflexivity]).
    assert (NB : box <> new).
    { intros ->. pose proof S7 as (_ & _ & _ & _ & HL). inversion HL as [|? ? (_ & LF & _) _]. cbn [fst] in LF.
      pose proof (proj2 I4 _ LF) as N. cbn in N. rewrite E3 in N. discriminate. }
    eapply wp_mono; [|eapply (release_end P Bs _ new gs [box] true _ (st_pstack s))].
    + intros r s9 (-> & H1 & H2 & H3 & H4 & H5 & H6 & H7). repeat split; try assumption; try apply H1. rewrite H7. cbn. rewrite C2, F2. cbn. exact K2.
    + apply inv_pop; [exact I8|]. cbn. rewrite Q8. intros z Hz. cbn. auto 10.
    + reflexivity.
    + cbn. rewrite C1, F1. reflexivity.
    + cbn. rewrite C3, F3. cbn. rewrite K3, D3. reflexivity.
    + cbn. rewrite upd_same. reflexivity.
    + exists box, x, x0, x1, x2. split; [reflexivity|]. cbn. rewrite upd_other by exact NB. exact B8.
  - cbn [pbind]. eapply wp_mono; [|eapply (release_end P Bs _ new gs [] false s4 (st_pstack s)); [exact I4 | cbn; rewrite P3; reflexivity | reflexivity | cbn; rewrite K3, D3; reflexivity | exact E3 | reflexivity]].
    intros r s5 (-> & H1 & H2 & H3 & H4 & H5 & H6 & H7). repeat split; try assumption; try apply H1. rewrite H7. cbn. exact K2.
Qed.

Lemma render_spec qs s : inv s -> wp (C_render_markdown qs) 
  (fun r s1 => returned s (fst r) (snd r) (existsb is_bbox qs) s1 /\ length (snd r) = length (filter is_draw qs)) s.
Proof.
  intros I. unfold C_render_markdown. apply wp_bind. eapply wp_mono; [|apply rdev_new_spec; exact I]. intros d s1 (D1 & B1 & P1 & X1).
  pose proof (sym_start s1 (proj1 D1)) as S. step. step. match goal with H : sym s1 ?st _ _ |- _ => rename H into S2; rename st into s3 end.
  assert (D3 : dev (st_preserved s) (st_blocks s) d [] s3) by (eapply dev_sym; eauto).
  apply wp_bind. eapply wp_mono; [|apply serve_all_spec; exact D3]. intros r s4 ((D4 & B4 & P4 & X4) & HL).
  apply wp_bind. eapply wp_mono; [|apply release_spec; exact D4]. intros out s5 (H1 & H2 & H3 & H4 & H5 & H6 & H7).
  destruct S2 as (_ & _ & Q & (_ & Y & _) & _). cbn [app] in Q.
  cbn [wp]. split; [|exact HL]. split; [exact H1|]. split; [exact H2|]. cbn [fst snd]. cbn [app] in H3. rewrite B4, B1 in H3. repeat split; try assumption; congruence.
Qed.
Lemma add_tests_spec P Bs n : forall d gs s, dev P Bs d gs s ->
  wp (add_tests d n) (fun r s1 => spost P Bs s d gs false r s1 /\ length (snd r) = n) s.
Proof.
  induction n as [|n IH]; intros d gs s D; cbn [add_tests].
  - cbn [wp]. split; [split; [cbn [fst snd]; rewrite app_nil_r; exact D|]; rewrite orb_false_r; auto | reflexivity].
  - pose proof (sym_start s (proj1 D)) as S. step. pose proof S0 as (_ & _ & PS & (_ & K2 & _) & _). cbn [app] in PS.
    apply wp_bind. eapply wp_mono; [|apply (add_spec P Bs d gs s0 x); [eapply dev_sym; eauto | rewrite PS; left; reflexivity]].
    intros d' s1 (D1 & B1 & B2 & P1 & X1). cbn [pbind unprotect wp]. rewrite P1, PS. cbn [length skipn]. split; [lia|].
    apply wp_bind. eapply wp_mono; [|apply (IH d' (gs ++ [x]))].
    + intros r s2 ((D2 & B3 & P2 & X2) & HL). cbn [wp]. split; [|cbn [snd length]; congruence]. split; [cbn [fst snd]; rewrite <- app_assoc in D2; exact D2|].
      cbn [fst]. rewrite B3, B2. split; [reflexivity|]. split; [rewrite P2; reflexivity | rewrite X2; cbn; congruence].
    + destruct D1 as (I1 & D1). split; [|exact D1]. apply inv_pop; [exact I1|]. rewrite P1, PS. apply incl_tl, incl_refl.
Qed.
Lemma test_spec n s : inv s -> wp (test_rdev_new_release n) (fun r s1 => returned s (fst r) (snd r) false s1 /\ length (snd r) = n) s.
Proof.
  intros I. unfold test_rdev_new_release. apply wp_bind. eapply wp_mono; [|apply rdev_new_spec; exact I]. intros d s1 (D1 & B1 & P1 & X1).
  apply wp_bind. eapply wp_mono; [|apply add_tests_spec; exact D1]. intros r s4 ((D4 & B4 & P4 & X4) & HL).
  apply wp_bind. eapply wp_mono; [|apply release_spec; exact D4]. intros out s5 (H1 & H2 & H3 & H4 & H5 & H6 & H7).
  cbn [wp fst snd]. split; [|exact HL]. split; [exact H1|]. split; [exact H2|]. cbn [app] in H3. rewrite B4, B1 in H3. repeat split; try assumption; congruence.
Qed.

(* ------------------------------------------------------------------ *)
(** * C_md_to_html *)

Lemma md_loop_spec out ps n : forall done s, inv s -> st_pstack s = out :: ps -> st_heap s out = Some (Obj Vec (map Some done ++ nils n) []) ->
  wp (md_loop out (length done) n) (fun l s1 => inv s1 /\ st_heap s1 out = Some (Obj Vec (map Some (done ++ l)) []) /\ length l = n /\
    st_pstack s1 = st_pstack s /\ st_preserved s1 = st_preserved s /\ st_blocks s1 = st_blocks s /\ st_ext s1 = st_ext s) s.
Proof.
  induction n as [|n IH]; intros done s I Ps E; cbn [md_loop].
  - cbn [wp]. rewrite app_nil_r. cbn [nils repeat] in E. rewrite app_nil_r in E. auto 10.
  - pose proof (sym_start s I) as S. step. rename s0 into s1. rename S0 into S1. pose proof S1 as (_ & I1 & Q1 & (A1 & A2 & A3 & A4 & _) & _). cbn [app] in Q1.
    assert (Ro : In out (roots s)) by (apply in_pstack; rewrite Ps; left; reflexivity).
    assert (E1 : st_heap s1 out = Some (Obj Vec (map Some done ++ nils (Datatypes.S n)) [])) by (eapply kept; [exact S1 | apply held_root; [exact Ro | exact E | reflexivity]]).
    cbn [pbind new_block wp]. set (s2 := set_blocks s1 _ _). assert (I2 : inv s2) by exact I1.
    pose proof (sym_start s2 I2) as S2. step; [left; reflexivity|]. step.
    match goal with S : sym s2 ?st [x] _ |- _ => rename st into s3; rename S into S3 end.
    pose proof S3 as (_ & I3 & Q3 & (B1 & B2 & B3 & B4 & _) & _). cbn [app] in Q3.
    assert (Ro2 : In out (roots s2)) by (apply in_pstack; cbn; rewrite Q1, Ps; left; reflexivity).
    assert (E3 : st_heap s3 out = Some (Obj Vec (map Some done ++ nils (Datatypes.S n)) [])) by (eapply kept; [exact S3 | apply held_root; [exact Ro2 | exact E1 | reflexivity]]).
    cbn [pbind free_block set_ref unprotect wp]. rewrite B3. cbn [s2 set_blocks st_blocks]. split; [left; reflexivity|].
    exists (map Some done ++ nils (Datatypes.S n)), []. split; [exact E3|].
    assert (Rx : In x (roots s3)) by (apply in_pstack; rewrite Q3; left; reflexivity).
    split; [apply (proj1 (safe_nil s3) (proj1 I3)); apply re_root; exact Rx|].
    assert (LT : (length done < length (map Some done ++ nils (Datatypes.S n)))%nat) by (rewrite app_length, map_length, nils_length; lia).
    split; [exact LT|]. cbn [set_object with_heap st_pstack set_blocks]. rewrite Q3. cbn [length skipn]. split; [lia|].
    replace (Datatypes.S (length done)) with (length (done ++ [x])) by (rewrite app_length; cbn; lia).
    apply wp_bind. eapply wp_mono; [|apply (IH (done ++ [x]))].
    + intros l s4 (H1 & H2 & H3 & H4 & H5 & H6 & H7). cbn [wp]. split; [exact H1|]. split; [rewrite H2, <- app_assoc; reflexivity|].
      split; [cbn; lia|]. cbn in H4, H5, H6, H7. rewrite H4, H5, H6, H7. cbn [remove_one]. unfold s2. cbn. rewrite Nat.eqb_refl.
      repeat split; try assumption; try (rewrite B1; exact A1); try (rewrite B2; exact A2).
    + apply inv_pop; [|cbn; rewrite Q3; apply incl_tl, incl_refl].
      change (inv (set_object s3 out (Obj Vec (set_slot (map Some done ++ nils (Datatypes.S n)) (length done) (Some x)) []))).
      apply write_inv; auto. apply in_pstack. rewrite Q3. cbn. rewrite Q1, Ps. right; left; reflexivity.
    + cbn. rewrite Q1. exact Ps.
    + cbn. rewrite upd_same. f_equal. f_equal. rewrite map_app, <- app_assoc. cbn [map app].
      unfold set_slot. rewrite firstn_app, skipn_app, map_length, Nat.sub_diag. rewrite firstn_all2 by (rewrite map_length; lia).
      rewrite skipn_all2 by (rewrite map_length; lia). replace (Datatypes.S (length done) - length done)%nat with 1%nat by lia.
      cbn [firstn nils repeat skipn app]. rewrite app_nil_r. reflexivity.
Qed.
Lemma md_spec n s : inv s -> wp (C_md_to_html n) (fun r s1 => inv s1 /\ closed s1 (fst r) /\ st_heap s1 (fst r) = Some (Obj Vec (map Some (snd r)) []) /\
    length (snd r) = n /\ st_pstack s1 = st_pstack s /\ st_preserved s1 = st_preserved s /\ st_blocks s1 = st_blocks s /\ st_ext s1 = st_ext s) s.
Proof.
  intros I. unfold C_md_to_html. pose proof (sym_start s I) as S.
  eapply r_alloc; [exact S | rewrite refs_nils; intros ? [] | intros out s1 S1 E1; clear S].
  pose proof S1 as (_ & I1 & Q1 & (A1 & A2 & A3 & _) & _). cbn [app] in Q1.
  apply wp_bind. eapply wp_mono; [|apply (md_loop_spec out (st_pstack s) n []); [exact I1 | exact Q1 | exact E1]].
  intros l s2 (H1 & H2 & H3 & H4 & H5 & H6 & H7). cbn [pbind unprotect wp]. rewrite H4, Q1. cbn [length skipn fst snd]. split; [lia|].
  split; [apply inv_pop; [exact H1 | rewrite H4, Q1; apply incl_tl, incl_refl]|].
  split; [apply (closed_same s2); [reflexivity|]; apply root_closed; [apply H1 | apply in_pstack; rewrite H4, Q1; left; reflexivity]|].
  cbn. repeat split; try assumption; congruence.
Qed.

(* ------------------------------------------------------------------ *)
(** * Some execution returns *)

Lemma gc_id s temps : gc s temps s.
Proof. exists (st_heap s). split; [destruct s; reflexivity|]. split; auto. Qed.
(** Programs that cannot fault have an execution that returns: no collection, and every evaluation gives [g]. *)
Lemma wp_runs {A} (p : prog A) g : forall Q s, wp p Q s -> (forall j, (st_fresh s <= j)%nat -> st_heap s j = None) -> In g (st_ext s) ->
  exists a s1, exec p s (Returns a s1) /\ Q a s1.
Proof.
  induction p as [a|k IH|refs k IH|x k IH|x k IH|n k IH|x k IH|x k IH|x i y k IH|x i k IH|x y k IH|k IH|b k IH|b k IH]; intros Q s W F G; cbn [wp exec] in *.
  - exists a, s. auto.
  - destruct W as [W1 W2]. destruct (IH Q s (W2 s (gc_id _ _)) F G) as (a & s1 & E & HQ). exists a, s1. split; [|exact HQ]. right; right. exists s. split; [apply gc_id | exact E].
  - destruct W as [W1 W2]. edestruct (IH (st_fresh s) Q (new_object s refs)) as (a & s1 & E & HQ); [apply (W2 s (gc_id _ _)) | | exact G |].
    + cbn. intros j Hj. rewrite upd_other by lia. apply F. lia.
    + exists a, s1. split; [|exact HQ]. right; right. exists s. split; [apply gc_id | exact E].
  - destruct W as (W1 & W2 & W3). assert (Ev : evals s s g).
    { exists (st_heap s), (st_fresh s). split; [destruct s; reflexivity|]. split; [lia|]. split; [exact F|]. split; [auto|].
      apply safe_temps; [exact W1|]. intros t [<-|[]]. apply root_closed; [exact W1|]. apply in_or_app; right. apply in_or_app; right; exact G. }
    destruct (IH g Q s (W3 s g Ev) F G) as (a & s1 & E & HQ). exists a, s1. split; [|exact HQ]. right; right; right. exists s, g. split; [exact Ev | exact E].
  - apply IH; auto.
  - destruct W as [W1 W2]. rewrite (proj2 (Nat.leb_le _ _) W1). apply IH; auto.
  - destruct W as [W1 W2]. edestruct (IH Q (set_preserved s (x :: st_preserved s))) as (a & s1 & E & HQ); [apply (W2 s (gc_id _ _)) | exact F | exact G |].
    exists a, s1. split; [|exact HQ]. right; right. exists s. split; [apply gc_id | exact E].
  - apply IH; auto.
  - destruct W as (l & a & W1 & W2 & W3 & W4). rewrite W1. destruct (st_heap s y) eqn:Ey; [|congruence].
    rewrite (proj2 (Nat.ltb_lt _ _) W3). apply IH; auto. cbn. intros j Hj. rewrite upd_other; [apply F; exact Hj|]. intros ->. rewrite F in W1 by exact Hj. discriminate.
  - destruct W as (l & a & r & W1 & W2 & W3). rewrite W1, W2. apply IH; auto.
  - destruct W as (l & a & W1 & W2 & W3 & W4). rewrite W1. destruct (st_heap s y) eqn:Ey; [|congruence].
    edestruct (IH Q (set_object s x (Obj Vec l (a ++ [y])))) as (r & s1 & E & HQ); [apply (W4 s (gc_id _ _)) | | exact G |].
    + cbn. intros j Hj. rewrite upd_other; [apply F; exact Hj|]. intros ->. rewrite F in W1 by exact Hj. discriminate.
    + exists r, s1. split; [|exact HQ]. right; right. exists s. split; [apply gc_id | exact E].
  - edestruct (IH (st_bfresh s) Q) as (a & s1 & E & HQ); [exact W | exact F | exact G |]. exists a, s1. auto.
  - destruct W as [W1 W2]. rewrite existsb_In by exact W1. apply IH; auto.
  - destruct W as [W1 W2]. rewrite existsb_In by exact W1. apply IH; auto.
Qed.

(* ------------------------------------------------------------------ *)
(** * What stays behind after an error *)

(** Only the preserved objects [P] and the blocks [B] are followed; [E] is to hold at every error. *)
Fixpoint bk {A} (p : prog A) (Q : A -> list nat -> list nat -> Prop) (E : list nat -> list nat -> Prop) (P B : list nat) : Prop :=
  match p with
  | Ret a => Q a P B
  | Install k => E P B /\ bk k Q E P B
  | Alloc _ k => E P B /\ forall x, bk (k x) Q E P B
  | Evaluate _ k => E P B /\ forall x, bk (k x) Q E P B
  | Protect _ k => bk k Q E P B
  | Unprotect _ k => bk k Q E P B
  | Preserve x k => E P B /\ bk k Q E (x :: P) B
  | Release x k => bk k Q E (remove_one x P) B
  | SetRef _ _ _ k => bk k Q E P B
  | GetRef _ _ k => forall r, bk (k r) Q E P B
  | SetAttr _ _ k => E P B /\ bk k Q E P B
  | NewBlock k => E P B /\ forall b, bk (k b) Q E P (b :: B)
  | UseBlock _ k => bk k Q E P B
  | FreeBlock b k => bk k Q E P (remove_one b B)
  end.
Lemma gc_lists s temps s1 : gc s temps s1 -> st_preserved s1 = st_preserved s /\ st_blocks s1 = st_blocks s.
Proof. intros (h & -> & _). auto. Qed.
Theorem bk_sound {A} (p : prog A) : forall Q E s e, bk p Q E (st_preserved s) (st_blocks s) -> exec p s e ->
  match e with Returns a s1 => Q a (st_preserved s1) (st_blocks s1) | Faults => True | Errors s1 => E (st_preserved s1) (st_blocks s1) end.
Proof.
  induction p as [a|k IH|refs k IH|x k IH|x k IH|n k IH|x k IH|x k IH|x i y k IH|x i k IH|x y k IH|k IH|b k IH|b k IH]; intros Q E s e W X; cbn [bk exec] in *.
  - subst e. exact W.
  - destruct W as [W1 W2]. destruct X as [[_ ->]|[->|(s1 & G & X)]]; [exact I | exact W1|]. apply gc_lists in G as [G1 G2]. apply (IH Q E s1 e); [rewrite G1, G2; exact W2 | exact X].
  - destruct W as [W1 W2]. destruct X as [[_ ->]|[->|(s1 & G & X)]]; [exact I | exact W1|]. apply gc_lists in G as [G1 G2].
    apply (IH _ Q E _ e) in X; [exact X | cbn; rewrite G1, G2; apply W2].
  - destruct W as [W1 W2]. destruct X as [[_ ->]|[(s1 & j & _ & _ & _ & ->)|[->|(s1 & r & (h & fr & -> & _) & X)]]]; [exact I | exact I | exact W1|].
    apply (IH r Q E _ e) in X; [exact X | apply W2].
  - eapply IH; [|exact X]. exact W.
  - destruct (Nat.leb n (length (st_pstack s))); [eapply IH; [|exact X]; exact W | subst e; exact I].
  - destruct W as [W1 W2]. destruct X as [[_ ->]|[->|(s1 & G & X)]]; [exact I | exact W1|]. apply gc_lists in G as [G1 G2].
    eapply IH; [|exact X]. cbn. rewrite G1, G2. exact W2.
  - eapply IH; [|exact X]. exact W.
  - destruct (st_heap s x) as [[[|] l a]|]; try (subst e; exact I). destruct (st_heap s y); [|subst e; exact I].
    destruct (Nat.ltb i (length l)); [eapply IH; [|exact X]; exact W | subst e; exact I].
  - destruct (st_heap s x) as [[[|] l a]|]; try (subst e; exact I). destruct (nth_error l i); [|subst e; exact I]. eapply IH; [|exact X]. apply W.
  - destruct W as [W1 W2]. destruct (st_heap s x) as [[[|] l a]|]; try (subst e; exact I). destruct (st_heap s y); [|subst e; exact I].
    destruct X as [[_ ->]|[->|(s1 & G & X)]]; [exact I | exact W1|]. apply gc_lists in G as [G1 G2]. eapply IH; [|exact X]. cbn. rewrite G1, G2. exact W2.
  - destruct W as [W1 W2]. destruct X as [->|X]; [exact W1|]. apply (IH _ Q E _ e) in X; [exact X|]. apply W2.
  - destruct (existsb (Nat.eqb b) (st_blocks s)); [eapply IH; [|exact X]; exact W | subst e; exact I].
  - destruct (existsb (Nat.eqb b) (st_blocks s)); [eapply IH; [|exact X]; exact W | subst e; exact I].
Qed.
Lemma bk_mono {A} (p : prog A) : forall (Q R : A -> list nat -> list nat -> Prop) E P B, (forall a P B, Q a P B -> R a P B) -> bk p Q E P B -> bk p R E P B.
Proof. induction p; intros Q R E P B HQ W; cbn [bk] in *; try (destruct W); eauto. Qed.
Lemma bk_bind {A C} (p : prog A) (f : A -> prog C) : forall Q E P B, bk p (fun a P B => bk (f a) Q E P B) E P B -> bk (pbind p f) Q E P B.
Proof. induction p; intros Q E P B W; cbn [bk pbind] in *; try (destruct W); eauto. Qed.
(** Programs that change neither *)
Fixpoint quiet {A} (p : prog A) : Prop :=
  match p with
  | Ret _ => True
  | Install k | Protect _ k | Unprotect _ k | SetRef _ _ _ k | SetAttr _ _ k | UseBlock _ k => quiet k
  | Alloc _ k | Evaluate _ k => forall x, quiet (k x)
  | GetRef _ _ k => forall x, quiet (k x)
  | Preserve _ _ | Release _ _ | NewBlock _ | FreeBlock _ _ => False
  end.
Lemma quiet_bk {A} (p : prog A) : quiet p -> forall (Q : A -> list nat -> list nat -> Prop) (E : list nat -> list nat -> Prop) P B, E P B -> (forall a, Q a P B) -> bk p Q E P B.
Proof. induction p; intros H0 Q E P B HE HQ; cbn [quiet bk] in *; try contradiction; auto; try (split; [exact HE|]); intros; eauto. Qed.
Lemma quiet_bind {A C} (p : prog A) (f : A -> prog C) : quiet p -> (forall a, quiet (f a)) -> quiet (pbind p f).
Proof. induction p; cbn [quiet pbind]; auto; contradiction. Qed.
Lemma quiet_set_args c args : forall i, quiet (set_args c i args).
Proof. induction args as [|x args IH]; intros i; cbn; auto. Qed.
Lemma quiet_copy new old n : forall i, quiet (copy_slots new old i n).
Proof. induction n as [|n IH]; intros i; cbn [copy_slots]; [exact I|]. cbn. intros [x|]; cbn; apply IH. Qed.
Lemma quiet_ns : quiet get_namespace. Proof. cbn. auto. Qed.
Ltac quiet1 := repeat first [ apply quiet_ns | apply quiet_set_args | apply quiet_copy | apply quiet_bind; [|intros ?] | solve [cbn; auto] ].
Lemma quiet_text l x y h v g : quiet (text_grob l x y h v g). Proof. unfold text_grob. quiet1. Qed.
Lemma quiet_rect x y w h hj vj g : quiet (rect_grob x y w h hj vj g). Proof. unfold rect_grob. quiet1. Qed.
Lemma quiet_lines x y g : quiet (lines_grob x y g). Proof. unfold lines_grob. quiet1. Qed.
Lemma quiet_unit x : quiet (unit_in x). Proof. unfold unit_in. quiet1. Qed.
Lemma quiet_gpar : quiet gpar_gcontext. Proof. unfold gpar_gcontext. quiet1. Qed.

(** At most one object and one block more *)
Definition at_most (P0 B0 P B : list nat) : Prop := (P = P0 \/ exists g, P = g :: P0) /\ (B = B0 \/ exists b, B = b :: B0).
Definition bdev (P0 B0 : list nat) (d : rdev) (P B : list nat) : Prop := P = rd_grobs d :: P0 /\ B = rd_block d :: B0.
Lemma at_most_dev P0 B0 d P B : bdev P0 B0 d P B -> at_most P0 B0 P B.
Proof. intros [-> ->]. split; right; eauto. Qed.
Lemma bk_q {A C} (p : prog A) (f : A -> prog C) (Q : C -> list nat -> list nat -> Prop) (E : list nat -> list nat -> Prop) P B :
  quiet p -> E P B -> (forall a, bk (f a) Q E P B) -> bk (pbind p f) Q E P B.
Proof. intros H1 H2 H3. apply bk_bind. apply quiet_bk; auto. Qed.
Ltac is_quiet := match goal with
  | |- quiet (text_grob _ _ _ _ _ _) => apply quiet_text
  | |- quiet (rect_grob _ _ _ _ _ _ _) => apply quiet_rect
  | |- quiet (lines_grob _ _ _) => apply quiet_lines
  | |- quiet (unit_in _) => apply quiet_unit
  | |- quiet gpar_gcontext => apply quiet_gpar
  | |- quiet (copy_slots _ _ _ _) => apply quiet_copy
  | |- quiet _ => solve [cbn; auto]
  end.
Ltac bkq := repeat (apply bk_q; [is_quiet | auto | intros ?]).
Lemma bk_add P0 B0 d x P B : bdev P0 B0 d P B -> bk (rdev_add_SEXP d x) (fun d' P B => bdev P0 B0 d' P B) (at_most P0 B0) P B.
Proof.
  intros D. pose proof (at_most_dev _ _ _ _ _ D) as HE. unfold rdev_add_SEXP. bkq. apply bk_bind.
  eapply bk_mono with (Q := fun d' P B => bdev P0 B0 d' P B).
  - intros d' P' B' D'. cbn. exact D'.
  - destruct (Nat.eqb (rd_size d) (rd_cap d)); [|exact D]. unfold rdev_grow_capacity. bkq.
    destruct D as [-> ->]. cbn. rewrite Nat.eqb_refl. split; [split; [left; reflexivity | right; eauto]|]. split; reflexivity.
Qed.
Lemma bk_draw_end P0 B0 d x n P B : bdev P0 B0 d P B -> bk (d <- rdev_add_SEXP d x;; unprotect n;; Ret (d, x)) (fun r P B => bdev P0 B0 (fst r) P B) (at_most P0 B0) P B.
Proof. intros D. apply bk_bind. eapply bk_mono; [|apply bk_add; exact D]. intros d' P' B' D'. cbn. exact D'. Qed.
Lemma bk_serve P0 B0 d q P B : bdev P0 B0 d P B -> bk (serve d q) (fun r P B => bdev P0 B0 (fst r) P B) (at_most P0 B0) P B.
Proof.
  intros D. pose proof (at_most_dev _ _ _ _ _ D) as HE. destruct q; cbn [serve]; try (apply bk_bind; eapply bk_mono with (Q := fun r P B => bdev P0 B0 (fst r) P B); [intros r P' B' D'; exact D'|]).
  - unfold rdev_draw_text. bkq. apply bk_draw_end; exact D.
  - unfold rdev_draw_rect. bkq. apply bk_draw_end; exact D.
  - unfold rdev_draw_line. bkq. apply bk_draw_end; exact D.
  - cbn. exact D.
  - cbn. auto.
Qed.
Lemma bk_serve_all P0 B0 qs : forall d P B, bdev P0 B0 d P B -> bk (serve_all d qs) (fun r P B => bdev P0 B0 (fst r) P B) (at_most P0 B0) P B.
Proof.
  induction qs as [|q qs IH]; intros d P B D; cbn [serve_all]; [exact D|]. apply bk_bind. eapply bk_mono; [|apply bk_serve; exact D].
  intros r P' B' D'. apply bk_bind. eapply bk_mono; [|apply IH; exact D']. intros r' P2 B2 D2. exact D2.
Qed.
Lemma bk_new P0 B0 : bk rdev_new (fun d P B => bdev P0 B0 d P B) (at_most P0 B0) P0 B0.
Proof.
  assert (H0 : at_most P0 B0 P0 B0) by (split; left; reflexivity). unfold rdev_new. cbn. split; [exact H0|]. intros b.
  assert (H1 : at_most P0 B0 P0 (b :: B0)) by (split; [left; reflexivity | right; eauto]). split; [exact H1|]. intros x. split; [exact H1|]. split; reflexivity.
Qed.
Lemma bk_release P0 B0 d P B : bdev P0 B0 d P B -> bk (rdev_release d) (fun _ P B => P = P0 /\ B = B0) (at_most P0 B0) P B.
Proof.
  intros D. pose proof (at_most_dev _ _ _ _ _ D) as HE. unfold rdev_release. bkq.
  destruct D as [-> ->]. cbn [pbind release use_block bk remove_one]. rewrite Nat.eqb_refl.
  assert (H1 : at_most P0 B0 P0 (rd_block d :: B0)) by (split; [left; reflexivity | right; eauto]).
  destruct (rd_bb d); cbn [pbind]; bkq; cbn; rewrite ?Nat.eqb_refl; auto.
Qed.
Lemma bk_render P0 B0 qs : bk (C_render_markdown qs) (fun _ P B => P = P0 /\ B = B0) (at_most P0 B0) P0 B0.
Proof.
  unfold C_render_markdown. apply bk_bind. eapply bk_mono; [|apply bk_new]. intros d P B D. pose proof (at_most_dev _ _ _ _ _ D) as HE. bkq.
  apply bk_bind. eapply bk_mono; [|apply bk_serve_all; exact D]. intros r P1 B1 D1. apply bk_bind. eapply bk_mono; [|apply bk_release; exact D1].
  intros out P2 B2 H. exact H.
Qed.
Definition one_block (P0 B0 P B : list nat) : Prop := P = P0 /\ (B = B0 \/ exists b, B = b :: B0).
Lemma bk_md_loop P0 B0 out n : forall i, bk (md_loop out i n) (fun _ P B => P = P0 /\ B = B0) (one_block P0 B0) P0 B0.
Proof.
  assert (H0 : one_block P0 B0 P0 B0) by (split; [|left]; reflexivity).
  induction n as [|n IH]; intros i; cbn [md_loop]; [cbn; auto|]. bkq. cbn [pbind new_block bk]. split; [exact H0|]. intros b.
  assert (H1 : one_block P0 B0 P0 (b :: B0)) by (split; [reflexivity | right; eauto]). bkq. cbn [pbind free_block bk remove_one]. rewrite Nat.eqb_refl.
  bkq. apply bk_bind. eapply bk_mono; [|apply IH]. intros l P B H. exact H.
Qed.
Lemma bk_md P0 B0 n : bk (C_md_to_html n) (fun _ P B => P = P0 /\ B = B0) (one_block P0 B0) P0 B0.
Proof.
  assert (H0 : one_block P0 B0 P0 B0) by (split; [|left]; reflexivity). unfold C_md_to_html. bkq. apply bk_bind. eapply bk_mono; [|apply bk_md_loop].
  intros l P B H. exact H.
Qed.
