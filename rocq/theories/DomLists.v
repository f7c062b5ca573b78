(** List lemmas about neighbours, used by DomProofs.v. *)
From Verif Require Import Base DomModel DomSpec DomForest.

Lemma opt_nat_eqb_spec a b : reflect (a = b) (opt_nat_eqb a b).
Proof.
  destruct a as [x|], b as [y|]; cbn; try (constructor; congruence).
  destruct (Nat.eqb_spec x y); constructor; congruence.
Qed.

Lemma last_error_snoc {A} (l : list A) x : last_error (l ++ [x]) = Some x.
Proof. unfold last_error. rewrite rev_app_distr. reflexivity. Qed.

Lemma last_error_rev {A} (l : list A) : last_error (rev l) = hd_error l.
Proof. unfold last_error. rewrite rev_involutive. reflexivity. Qed.

Lemma hd_error_In {A} (l : list A) x : hd_error l = Some x -> In x l.
Proof. destruct l; cbn; [discriminate|]. intros [= ->]. left; reflexivity. Qed.

Lemma last_error_In {A} (l : list A) x : last_error l = Some x -> In x l.
Proof. intros H. apply in_rev. apply hd_error_In. exact H. Qed.

Lemma last_error_None {A} (l : list A) : last_error l = None -> l = [].
Proof.
  unfold last_error. destruct (rev l) eqn:E; cbn; [|discriminate]. intros _.
  apply (f_equal (@rev A)) in E. rewrite rev_involutive in E. exact E.
Qed.

Lemma hd_error_None {A} (l : list A) : hd_error l = None -> l = [].
Proof. destruct l; cbn; congruence. Qed.

Lemma next_of_notin x l : ~ In x l -> next_of x l = None.
Proof.
  induction l as [|y l IH]; cbn; [reflexivity|]. intros H.
  destruct (Nat.eqb_spec y x) as [->|_]; [exfalso; apply H; left; reflexivity|].
  apply IH. tauto.
Qed.

Lemma next_of_split x a b : ~ In x a -> next_of x (a ++ x :: b) = hd_error b.
Proof.
  induction a as [|y a IH]; cbn; intros H.
  - rewrite Nat.eqb_refl. reflexivity.
  - destruct (Nat.eqb_spec y x) as [->|_]; [exfalso; apply H; left; reflexivity|].
    apply IH. tauto.
Qed.

Lemma prev_of_split x a b : ~ In x b -> prev_of x (a ++ x :: b) = last_error a.
Proof.
  intros H. unfold prev_of. rewrite rev_app_distr. cbn [rev]. rewrite <- app_assoc. cbn [app].
  rewrite next_of_split; [reflexivity|]. rewrite <- in_rev. exact H.
Qed.

Lemma prev_of_notin x l : ~ In x l -> prev_of x l = None.
Proof. intros H. apply next_of_notin. rewrite <- in_rev. exact H. Qed.

Lemma next_of_Some x l y : next_of x l = Some y -> exists a b, l = a ++ x :: y :: b /\ ~ In x a.
Proof.
  induction l as [|z l IH]; cbn; [discriminate|].
  destruct (Nat.eqb_spec z x) as [->|Hne].
  - destruct l as [|w l]; cbn; [discriminate|]. intros [= ->]. exists [], l. split; [reflexivity|intros []].
  - intros H. destruct (IH H) as (a & b & -> & Hn). exists (z :: a), b. split; [reflexivity|].
    intros [E|E]; [congruence|tauto].
Qed.

Lemma NoDup_split_notin {A} (a b : list A) x : NoDup (a ++ x :: b) -> ~ In x a /\ ~ In x b.
Proof.
  intros H. apply NoDup_remove_2 in H. rewrite in_app_iff in H. tauto.
Qed.

Lemma next_prev x y l : NoDup l -> (next_of x l = Some y <-> prev_of y l = Some x).
Proof.
  intros Hnd. split; intros H.
  - destruct (next_of_Some _ _ _ H) as (a & b & E & _). subst l.
    change (a ++ x :: y :: b) with (a ++ [x] ++ y :: b). rewrite app_assoc.
    rewrite prev_of_split; [apply last_error_snoc|].
    change (a ++ x :: y :: b) with (a ++ [x] ++ y :: b) in Hnd. rewrite app_assoc in Hnd.
    apply NoDup_split_notin in Hnd. tauto.
  - unfold prev_of in H. destruct (next_of_Some _ _ _ H) as (a & b & E & _).
    assert (l = rev b ++ x :: y :: rev a) as El.
    { rewrite <- (rev_involutive l), E, rev_app_distr. cbn [rev]. rewrite <- !app_assoc. reflexivity. }
    rewrite El. rewrite El in Hnd. rewrite next_of_split; [reflexivity|].
    apply NoDup_split_notin in Hnd. tauto.
Qed.

Lemma next_of_In x l y : next_of x l = Some y -> In y l.
Proof.
  intros H. destruct (next_of_Some _ _ _ H) as (a & b & -> & _). rewrite in_app_iff. cbn. tauto.
Qed.
Lemma next_of_In_self x l y : next_of x l = Some y -> In x l.
Proof.
  intros H. destruct (next_of_Some _ _ _ H) as (a & b & -> & _). rewrite in_app_iff. cbn. tauto.
Qed.
Lemma prev_of_In x l y : prev_of x l = Some y -> In y l.
Proof. intros H. apply next_of_In in H. apply in_rev. exact H. Qed.
Lemma prev_of_In_self x l y : prev_of x l = Some y -> In x l.
Proof. intros H. apply next_of_In_self in H. apply in_rev. exact H. Qed.

Lemma next_of_neq x l y : NoDup l -> next_of x l = Some y -> x <> y.
Proof.
  intros Hnd H. destruct (next_of_Some _ _ _ H) as (a & b & -> & _).
  apply NoDup_split_notin in Hnd. intros ->. apply (proj2 Hnd). left; reflexivity.
Qed.
Lemma prev_of_neq x l y : NoDup l -> prev_of x l = Some y -> x <> y.
Proof. intros Hnd H. apply next_of_neq in H; [exact H|]. apply NoDup_rev. exact Hnd. Qed.

(** first element <-> no predecessor *)
Lemma prev_None_hd x l : NoDup l -> In x l -> (prev_of x l = None <-> hd_error l = Some x).
Proof.
  intros Hnd Hin. apply in_split in Hin. destruct Hin as (a & b & ->).
  pose proof (NoDup_split_notin _ _ _ Hnd) as [Ha Hb].
  rewrite prev_of_split by exact Hb. split.
  - intros H. apply last_error_None in H. subst a. reflexivity.
  - destruct a as [|y a]; cbn; [reflexivity|]. intros [= ->]. exfalso. apply Ha. left; reflexivity.
Qed.
Lemma next_None_last x l : NoDup l -> In x l -> (next_of x l = None <-> last_error l = Some x).
Proof.
  intros Hnd Hin. rewrite <- (rev_involutive l) at 1. change (next_of x (rev (rev l))) with (prev_of x (rev l)).
  rewrite prev_None_hd; [reflexivity|apply NoDup_rev; exact Hnd|apply in_rev in Hin; exact Hin].
Qed.

(* ---- without ---- *)
Lemma in_without c l x : In x (without c l) <-> In x l /\ x <> c.
Proof.
  unfold without. rewrite filter_In. destruct (Nat.eqb_spec x c); cbn; intuition congruence.
Qed.
Lemma without_notin c l : ~ In c l -> without c l = l.
Proof.
  induction l as [|x l IH]; cbn; [reflexivity|]. intros H.
  destruct (Nat.eqb_spec x c) as [->|_]; [exfalso; apply H; left; reflexivity|].
  cbn. f_equal. apply IH. tauto.
Qed.
Lemma NoDup_without c l : NoDup l -> NoDup (without c l).
Proof. apply NoDup_filter. Qed.
Lemma filter_rev' {A} (f : A -> bool) l : filter f (rev l) = rev (filter f l).
Proof.
  induction l as [|x l IH]; cbn; [reflexivity|].
  rewrite filter_app, IH. cbn. destruct (f x); cbn; [reflexivity|apply app_nil_r].
Qed.
Lemma without_rev c l : without c (rev l) = rev (without c l).
Proof. apply filter_rev'. Qed.

Lemma hd_without c l : NoDup l ->
  hd_error (without c l) = if opt_nat_eqb (hd_error l) (Some c) then next_of c l else hd_error l.
Proof.
  destruct l as [|x l]; cbn; [reflexivity|]. intros Hnd.
  destruct (Nat.eqb_spec x c) as [->|_]; cbn; [|reflexivity].
  fold (without c l). rewrite without_notin; [reflexivity|]. inversion Hnd; assumption.
Qed.
Lemma last_without c l : NoDup l ->
  last_error (without c l) = if opt_nat_eqb (last_error l) (Some c) then prev_of c l else last_error l.
Proof.
  intros Hnd. unfold last_error, prev_of. rewrite <- without_rev.
  apply hd_without. apply NoDup_rev. exact Hnd.
Qed.
Lemma next_without c l j : NoDup l -> j <> c ->
  next_of j (without c l) = if opt_nat_eqb (next_of j l) (Some c) then next_of c l else next_of j l.
Proof.
  induction l as [|x l IH]; intros Hnd Hne; [reflexivity|].
  inversion Hnd as [|? ? Hx Hl]; subst.
  cbn [without filter next_of]. fold (without c l).
  destruct (Nat.eqb_spec x c) as [->|Hxc]; cbn [negb].
  - rewrite without_notin by exact Hx.
    destruct (Nat.eqb_spec c j) as [E|_]; [congruence|].
    destruct (opt_nat_eqb_spec (next_of j l) (Some c)) as [E|_]; [|reflexivity].
    exfalso. apply Hx. eapply next_of_In. exact E.
  - cbn [next_of]. destruct (Nat.eqb_spec x j) as [->|_].
    + apply hd_without. exact Hl.
    + apply IH; assumption.
Qed.
Lemma prev_without c l j : NoDup l -> j <> c ->
  prev_of j (without c l) = if opt_nat_eqb (prev_of j l) (Some c) then prev_of c l else prev_of j l.
Proof.
  intros Hnd Hne. unfold prev_of. rewrite <- without_rev. apply next_without; [|exact Hne].
  apply NoDup_rev. exact Hnd.
Qed.

(* ---- snoc ---- *)
Lemma hd_snoc {A} (l : list A) c : hd_error (l ++ [c]) = match hd_error l with Some x => Some x | None => Some c end.
Proof. destruct l; reflexivity. Qed.
Lemma prev_snoc_self l c : prev_of c (l ++ [c]) = last_error l.
Proof. unfold prev_of. rewrite rev_app_distr. cbn. rewrite Nat.eqb_refl. reflexivity. Qed.
Lemma prev_snoc_other l c j : j <> c -> prev_of j (l ++ [c]) = prev_of j l.
Proof.
  intros H. unfold prev_of. rewrite rev_app_distr. cbn.
  destruct (Nat.eqb_spec c j); [congruence|reflexivity].
Qed.
Lemma next_snoc_self l c : ~ In c l -> next_of c (l ++ [c]) = None.
Proof. intros H. rewrite next_of_split by exact H. reflexivity. Qed.
Lemma next_snoc_other l c j : NoDup l -> In j l -> j <> c ->
  next_of j (l ++ [c]) = if opt_nat_eqb (last_error l) (Some j) then Some c else next_of j l.
Proof.
  intros Hnd Hin Hne. apply in_split in Hin. destruct Hin as (a & b & ->).
  pose proof (NoDup_split_notin _ _ _ Hnd) as [Ha Hb].
  rewrite <- app_assoc. cbn [app]. rewrite !next_of_split by exact Ha.
  destruct b as [|y b].
  - rewrite last_error_snoc. cbn. rewrite Nat.eqb_refl. reflexivity.
  - cbn [app hd_error].
    destruct (opt_nat_eqb_spec (last_error (a ++ j :: y :: b)) (Some j)) as [E|_]; [|reflexivity].
    exfalso. apply next_None_last in E; [|exact Hnd|rewrite in_app_iff; right; left; reflexivity].
    rewrite next_of_split in E by exact Ha. discriminate.
Qed.

(* ---- insert_in ---- *)
Lemma insert_in_notin s c l : ~ In s l -> insert_in s c l = l.
Proof.
  induction l as [|x l IH]; cbn; [reflexivity|]. intros H.
  destruct (Nat.eqb_spec x s) as [->|_]; [exfalso; apply H; left; reflexivity|].
  f_equal. apply IH. tauto.
Qed.
Lemma insert_in_split s c a b : ~ In s a -> insert_in s c (a ++ s :: b) = a ++ c :: s :: b.
Proof.
  induction a as [|x a IH]; cbn; intros H.
  - rewrite Nat.eqb_refl. reflexivity.
  - destruct (Nat.eqb_spec x s) as [->|_]; [exfalso; apply H; left; reflexivity|].
    f_equal. apply IH. tauto.
Qed.
Lemma in_insert_in s c l x : In s l -> (In x (insert_in s c l) <-> x = c \/ In x l).
Proof.
  intros Hin. induction l as [|y l IH]; [destruct Hin|]. cbn [insert_in].
  destruct (Nat.eqb_spec y s) as [->|Hne]; [cbn; intuition congruence|].
  destruct Hin as [->|Hin]; [congruence|]. cbn [In]. rewrite (IH Hin). intuition congruence.
Qed.
Lemma NoDup_insert_in s c l : NoDup l -> ~ In c l -> NoDup (insert_in s c l).
Proof.
  induction l as [|x l IH]; cbn; [constructor|]. intros Hnd Hc.
  inversion Hnd as [|? ? Hx Hl]; subst.
  destruct (Nat.eqb_spec x s) as [->|Hne].
  - constructor; [cbn; intuition congruence|exact Hnd].
  - constructor; [|apply IH; tauto].
    destruct (in_dec Nat.eq_dec s l) as [Hs|Hs].
    + rewrite in_insert_in by exact Hs. intuition congruence.
    + rewrite insert_in_notin by exact Hs. exact Hx.
Qed.
Section Insert.
  Context (s c : nat) (l : list nat) (Hnd : NoDup l) (Hs : In s l) (Hc : ~ In c l).
  Lemma insert_parts : exists a b, l = a ++ s :: b /\ ~ In s a /\ ~ In s b /\ s <> c
      /\ insert_in s c l = a ++ c :: s :: b.
  Proof.
    destruct (in_split _ _ Hs) as (a & b & E). exists a, b. subst l.
    pose proof (NoDup_split_notin _ _ _ Hnd) as [Ha Hb]. repeat split; try assumption.
    - intros ->. apply Hc. exact Hs.
    - apply insert_in_split. exact Ha.
  Qed.
  Lemma hd_insert : hd_error (insert_in s c l) = if opt_nat_eqb (hd_error l) (Some s) then Some c else hd_error l.
  Proof.
    destruct l as [|x l']; [destruct Hs|]. cbn. destruct (Nat.eqb_spec x s); reflexivity.
  Qed.
  Lemma last_insert : last_error (insert_in s c l) = last_error l.
  Proof.
    destruct insert_parts as (a & b & E & _ & _ & _ & ->). rewrite E. unfold last_error.
    rewrite !rev_app_distr. cbn [rev]. rewrite <- !app_assoc. destruct (rev b); reflexivity.
  Qed.
  Lemma next_insert_self : next_of c (insert_in s c l) = Some s.
  Proof.
    destruct insert_parts as (a & b & E & _ & _ & _ & ->). rewrite next_of_split; [reflexivity|].
    intros H. apply Hc. rewrite E, in_app_iff. left; exact H.
  Qed.
  Lemma prev_insert_self : prev_of c (insert_in s c l) = prev_of s l.
  Proof.
    destruct insert_parts as (a & b & E & Ha & Hb & Hsc & ->).
    rewrite prev_of_split.
    - rewrite E, prev_of_split by exact Hb. reflexivity.
    - intros [H|H]; [congruence|]. apply Hc. rewrite E, in_app_iff. right; right; exact H.
  Qed.
  Lemma prev_insert_sib : prev_of s (insert_in s c l) = Some c.
  Proof.
    apply (proj1 (next_prev c s _ (NoDup_insert_in s c l Hnd Hc))). apply next_insert_self.
  Qed.
  Lemma next_insert_other j : j <> c ->
    next_of j (insert_in s c l) = if opt_nat_eqb (next_of j l) (Some s) then Some c else next_of j l.
  Proof.
    intros Hj. clear Hs. induction l as [|x l' IH]; [reflexivity|].
    inversion Hnd as [|? ? Hx Hl]; subst. cbn [insert_in].
    destruct (Nat.eqb_spec x s) as [->|Hne].
    - cbn [next_of]. destruct (Nat.eqb_spec c j); [congruence|].
      destruct (Nat.eqb_spec s j) as [->|Hsj].
      + destruct (opt_nat_eqb_spec (hd_error l') (Some j)) as [E|_]; [|reflexivity].
        exfalso. apply Hx. apply hd_error_In. exact E.
      + destruct (opt_nat_eqb_spec (next_of j l') (Some s)) as [E|_]; [|reflexivity].
        exfalso. apply Hx. eapply next_of_In. exact E.
    - cbn [next_of]. destruct (Nat.eqb_spec x j) as [->|Hxj].
      + destruct l' as [|y l'']; [reflexivity|]. cbn. destruct (Nat.eqb_spec y s); reflexivity.
      + apply IH; [exact Hl|]. intros H. apply Hc. right; exact H.
  Qed.
  Lemma prev_insert_other j : j <> c -> j <> s -> prev_of j (insert_in s c l) = prev_of j l.
  Proof.
    intros Hj Hjs. destruct insert_parts as (a & b & E & Ha & Hb & Hsc & ->).
    rewrite E. unfold prev_of. rewrite !rev_app_distr. cbn [rev]. rewrite <- !app_assoc. cbn [app].
    generalize (rev b) as rb. induction rb as [|y rb IH]; cbn.
    - destruct (Nat.eqb_spec s j); [congruence|]. destruct (Nat.eqb_spec c j); [congruence|]. reflexivity.
    - destruct (Nat.eqb_spec y j); [destruct rb; reflexivity|exact IH].
  Qed.
End Insert.
