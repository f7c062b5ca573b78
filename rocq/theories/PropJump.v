(** Enums with jump tables: C82. *)
From Verif Require Import StyleModel JumpModel JumpSpec.

Section Macro.
Context {ty : Type} {den : ty -> Type} (ty_dec : forall a b : ty, {a = b} + {a <> b}).
Notation closures_table := (closures_table ty_dec).
Lemma read_as_all : forall tys (cells : list (@cell ty den)), map (@projT1 ty den) cells = tys -> read_as ty_dec tys cells = Some cells.
Proof.
  induction tys as [|t tys IH]; intros cells H; destruct cells as [|c cells]; try discriminate; [reflexivity|].
  cbn [map] in H. injection H as H1 H2. cbn [read_as]. destruct (ty_dec t (projT1 c)) as [_|N]; [|contradiction N; symmetry; exact H1]. rewrite (IH _ H2). reflexivity.
Qed.
Lemma table_arms {R} enum : forall variants (arms : list (@arm ty den R)) previous table,
  closures_table enum variants arms previous = Some table ->
  map a_variant arms = map v_name variants /\
  exists later, table = previous ++ later /\
  forall k v, nth_error variants k = Some v -> exists a, nth_error arms k = Some a /\ a_variant a = v_name v /\
    List.length (a_binders a) = List.length (v_fields v) /\ nth_error later k = Some (closure ty_dec v a).
Proof.
  induction variants as [|v variants IH]; intros arms previous table H; destruct arms as [|a arms]; try discriminate.
  - injection H as <-. split; [reflexivity|]. exists []. split; [symmetry; apply app_nil_r|]. intros [|k] v; discriminate.
  - cbn [JumpModel.closures_table] in H.
    destruct (String.eqb enum (a_enum a)); cbn [andb] in H; [|discriminate].
    destruct (String.eqb (v_name v) (a_variant a)) eqn:E; cbn [andb] in H; [|discriminate]. apply String.eqb_eq in E.
    destruct (Nat.eqb _ _) eqn:L in H; [|discriminate]. apply Nat.eqb_eq in L.
    apply IH in H. destruct H as (N & later & -> & A). split; [cbn; rewrite E, N; reflexivity|].
    exists (closure ty_dec v a :: later). split; [rewrite <- app_assoc; reflexivity|].
    intros [|k] v' Hv.
    + injection Hv as <-. exists a. auto.
    + exact (A k v' Hv).
Qed.
Lemma distinct_spec l : distinct l = true -> NoDup l.
Proof.
  induction l as [|x l IH]; cbn; intros H; [constructor|]. apply andb_prop in H. destruct H as [H1 H2]. constructor; [|auto].
  intros I. apply negb_true_iff in H1. assert (existsb (String.eqb x) l = true) as Q by (apply existsb_exists; exists x; split; [exact I | apply String.eqb_refl]). congruence.
Qed.
Lemma names_unique {A} (f : A -> string) : forall l i j a b, NoDup (map f l) -> nth_error l i = Some a -> nth_error l j = Some b -> f a = f b -> a = b.
Proof.
  intros l i j a b N Hi Hj E. assert (i = j) as ->; [|congruence].
  rewrite (NoDup_nth_error (map f l)) in N. apply N.
  - rewrite map_length. apply nth_error_Some. congruence.
  - rewrite (map_nth_error f _ _ Hi), (map_nth_error f _ _ Hj), E. reflexivity.
Qed.
Lemma fit_small repr n bits : variants_fit repr n = Some bits -> (N.of_nat n <= 2 ^ bits)%N.
Proof.
  unfold variants_fit. destruct (int_bits repr) as [b|]; [|discriminate].
  destruct (N.leb _ _) eqn:L; [|discriminate]. intros H. injection H as <-. apply N.leb_le in L.
  etransitivity; [exact L|]. apply N.pow_le_mono_r; [discriminate|]. destruct repr as [|[[] [] [] [] [] [] [] []] r]; lia.
Qed.

(** A method that compiles does what matching on the value would do, for every value of the enum: it never reads
    memory as another type, and never indexes out of range. *)
Theorem C82_jump_is_match : forall R repr enum variants (arms : list (@arm ty den R)) bits table,
  jump_table ty_dec repr enum variants arms = Some (bits, table) ->
  forall k name fields, is_value variants k name fields ->
  match_result arms name fields (call table (store bits k fields)).
Proof.
  intros R repr enum variants arms bits table H k name fields (v & Hk & Hn & Hf). unfold jump_table in H.
  destruct (variants_fit repr (List.length variants)) as [b|] eqn:F; [|discriminate].
  destruct (distinct (map v_name variants)) eqn:D; [|discriminate]. apply distinct_spec in D.
  destruct (JumpModel.closures_table _ _ _ _ _) as [t|] eqn:T; [|discriminate]. injection H as <- <-.
  apply table_arms in T. destruct T as (N & later & -> & A). destruct (A k v Hk) as (a & Ha & Va & La & Ca).
  assert (K : (k < List.length variants)%nat) by (apply nth_error_Some; congruence).
  assert (call ([] ++ later) (store b k fields) = a_block a fields) as ->.
  { unfold call, store. cbn [m_tag app]. rewrite N.mod_small by (apply fit_small in F; lia). rewrite Nat2N.id, Ca.
    unfold closure. cbn [m_cells]. rewrite (read_as_all _ _ Hf). reflexivity. }
  exists a. split; [exact (nth_error_In _ _ Ha)|]. split; [congruence|]. split; [rewrite La, <- Hf, map_length; reflexivity|].
  split; [reflexivity|]. intros a' Hin Na. apply In_nth_error in Hin. destruct Hin as [j Hj].
  rewrite <- N in D. refine (names_unique a_variant arms j k a' a D Hj Ha _). congruence.
Qed.
(** A match that does not name every variant once, in order, does not compile. *)
Theorem C82_complete : forall R repr enum variants (arms : list (@arm ty den R)) bits table,
  jump_table ty_dec repr enum variants arms = Some (bits, table) -> map a_variant arms = map v_name variants.
Proof.
  intros R repr enum variants arms bits table H. unfold jump_table in H.
  destruct (variants_fit _ _) as [b|]; [|discriminate]. destruct (distinct _); [|discriminate].
  destruct (JumpModel.closures_table _ _ _ _ _) as [t|] eqn:T; [|discriminate]. apply (proj1 (table_arms _ _ _ _ _ T)).
Qed.
End Macro.
Print Assumptions C82_jump_is_match.
Print Assumptions C82_complete.

(** The two tables of the style system: a declaration is applied to its own property, with its own value. *)
Theorem C82_early_cascade : forall inherited this d, jump_early inherited this (decl_memory d) = Returns (early_cascade_into inherited this d).
Proof.
  intros inherited this [l v|l k].
  - destruct l; reflexivity.
  - destruct l, k; reflexivity.
Qed.
Print Assumptions C82_early_cascade.
Theorem C82_late_cascade : forall inherited this d, jump_late inherited this (decl_memory d) = Returns (late_cascade_into inherited this d).
Proof.
  intros inherited this [l v|l k].
  - destruct l; reflexivity.
  - destruct l, k; reflexivity.
Qed.
Print Assumptions C82_late_cascade.
Example C82_case : exists bits table, jump_table field_dec discriminant "LonghandDeclaration" decl_variants (early_arms initial_style initial_style) = Some (bits, table) /\
  List.length table = 40%nat /\
  is_value decl_variants 18 "margin_top" [existT field_den (FValue Lmargin_top) (LPALen (SEm (px 2)))].
Proof. eexists _, _. split; [reflexivity|]. split; [reflexivity|]. eexists. repeat split. Qed.
