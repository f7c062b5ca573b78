(** Lengths in px.  The code uses [f32] ([Length { px: f32 }], /repo/src/sinab/src/style/values/length.rs:9-12,
    [PartialOrd], [Add], [Sub], [Neg], [Mul<f32>], [Div<f32>], [max], [min]).
    The models take the arithmetic as a parameter.  It is exact (canonical rationals) where a theorem names none;
    [F32.v] is the arithmetic of the code, with rounding, infinities and NaN. *)
From Coq Require Export QArith Qcanon Lqa.
From Verif Require Export Base.
Close Scope Q_scope.
Open Scope nat_scope.

(** The operations on lengths that the code uses: any type with any functions. *)
(** No definition of the code: the operators of Length and CSSFloat, style/values/length.rs:138-231, over an arbitrary arithmetic *)
Record operations := Operations {
  o_len : Set;
  o_px : Q -> o_len;  (* a number written in the source *)
  o_zero : o_len;
  o_add : o_len -> o_len -> o_len;
  o_sub : o_len -> o_len -> o_len;
  o_neg : o_len -> o_len;
  o_mul : o_len -> o_len -> o_len;
  o_div : o_len -> o_len -> o_len;
  o_half : o_len -> o_len;  (* / 2. *)
  o_leb : o_len -> o_len -> bool;
  o_ltb : o_len -> o_len -> bool;
  o_eqb : o_len -> o_len -> bool;
  o_max : o_len -> o_len -> o_len;
  o_min : o_len -> o_len -> o_len
}.
(** The arithmetic a model is run with: canonical rationals, or any other.  The models of style, layout and painting
    are written over an [Arith] that is left open, so nothing about rounding, infinities or NaN is built into them. *)
(** No definition of the code: the operators of Length and CSSFloat, style/values/length.rs:138-231, over an arbitrary arithmetic *)
Inductive Arith := Exact | Given (o : operations).
Existing Class Arith.
(** Where no arithmetic is named the exact one is meant. *)
#[global] Existing Instance Exact | 100.

(** No definition of the code: the operators of Length and CSSFloat, style/values/length.rs:138-231, over an arbitrary arithmetic *)
Definition Len {ar : Arith} : Set := match ar with Exact => Qc | Given o => o_len o end.
Declare Scope len_scope.
Delimit Scope len_scope with len.
Bind Scope len_scope with Len.
Section Operations.
Context {ar : Arith}.
(** No definition of the code: the operators of Length and CSSFloat, style/values/length.rs:138-231, over an arbitrary arithmetic *)
Definition px : Q -> Len :=
  match ar return Q -> @Len ar with Exact => Q2Qc | Given o => o_px o end.
(** No definition of the code: the operators of Length and CSSFloat, style/values/length.rs:138-231, over an arbitrary arithmetic *)
Definition l0 : Len :=
  match ar return @Len ar with Exact => 0%Qc | Given o => o_zero o end.
(** No definition of the code: the operators of Length and CSSFloat, style/values/length.rs:138-231, over an arbitrary arithmetic *)
Definition ladd : Len -> Len -> Len :=
  match ar return @Len ar -> @Len ar -> @Len ar with Exact => Qcplus | Given o => o_add o end.
(** No definition of the code: the operators of Length and CSSFloat, style/values/length.rs:138-231, over an arbitrary arithmetic *)
Definition lsub : Len -> Len -> Len :=
  match ar return @Len ar -> @Len ar -> @Len ar with Exact => Qcminus | Given o => o_sub o end.
(** No definition of the code: the operators of Length and CSSFloat, style/values/length.rs:138-231, over an arbitrary arithmetic *)
Definition lneg : Len -> Len :=
  match ar return @Len ar -> @Len ar with Exact => Qcopp | Given o => o_neg o end.
(** No definition of the code: the operators of Length and CSSFloat, style/values/length.rs:138-231, over an arbitrary arithmetic *)
Definition lmul : Len -> Len -> Len :=
  match ar return @Len ar -> @Len ar -> @Len ar with Exact => Qcmult | Given o => o_mul o end.
(** No definition of the code: the operators of Length and CSSFloat, style/values/length.rs:138-231, over an arbitrary arithmetic *)
Definition ldiv : Len -> Len -> Len :=
  match ar return @Len ar -> @Len ar -> @Len ar with Exact => Qcdiv | Given o => o_div o end.
(** No definition of the code: the operators of Length and CSSFloat, style/values/length.rs:138-231, over an arbitrary arithmetic *)
Definition lhalf : Len -> Len :=
  match ar return @Len ar -> @Len ar with Exact => fun a => Qcmult a (Q2Qc (1#2)) | Given o => o_half o end.
(** No definition of the code: the operators of Length and CSSFloat, style/values/length.rs:138-231, over an arbitrary arithmetic *)
Definition lleb : Len -> Len -> bool :=
  match ar return @Len ar -> @Len ar -> bool with Exact => fun a b => Qle_bool (this a) (this b) | Given o => o_leb o end.
(** No definition of the code: the operators of Length and CSSFloat, style/values/length.rs:138-231, over an arbitrary arithmetic *)
Definition lltb : Len -> Len -> bool :=
  match ar return @Len ar -> @Len ar -> bool with Exact => fun a b => negb (Qle_bool (this b) (this a)) | Given o => o_ltb o end.
(** No definition of the code: the operators of Length and CSSFloat, style/values/length.rs:138-231, over an arbitrary arithmetic *)
Definition leqb : Len -> Len -> bool :=
  match ar return @Len ar -> @Len ar -> bool with Exact => fun a b => Qeq_bool (this a) (this b) | Given o => o_eqb o end.
(** No definition of the code: the operators of Length and CSSFloat, style/values/length.rs:138-231, over an arbitrary arithmetic *)
Definition lmax : Len -> Len -> Len :=
  match ar return @Len ar -> @Len ar -> @Len ar with Exact => fun a b => if Qle_bool (this a) (this b) then b else a | Given o => o_max o end.
(** No definition of the code: the operators of Length and CSSFloat, style/values/length.rs:138-231, over an arbitrary arithmetic *)
Definition lmin : Len -> Len -> Len :=
  match ar return @Len ar -> @Len ar -> @Len ar with Exact => fun a b => if Qle_bool (this a) (this b) then a else b | Given o => o_min o end.
End Operations.

Infix "+" := ladd : len_scope.
Infix "-" := lsub : len_scope.
Infix "*" := lmul : len_scope.
Notation "- x" := (lneg x) : len_scope.
Notation "0" := l0 : len_scope.
Notation "a <= b" := (Qcle a b) : len_scope.
Notation "a < b" := (Qclt a b) : len_scope.

(** No definition of the code: the operators of Length and CSSFloat, style/values/length.rs:138-231, over an arbitrary arithmetic *)
Definition lsum {A : Arith} (l : list Len) : Len := fold_right ladd l0 l.

(** [cbn] leaves the operations alone *)
Arguments px : simpl never. Arguments l0 : simpl never. Arguments ladd : simpl never. Arguments lsub : simpl never.
Arguments lneg : simpl never. Arguments lmul : simpl never. Arguments ldiv : simpl never. Arguments lhalf : simpl never.
Arguments lleb : simpl never. Arguments lltb : simpl never. Arguments leqb : simpl never. Arguments lmax : simpl never.
Arguments lmin : simpl never. Arguments Len : simpl never.

Lemma len_ring : ring_theory l0 (px 1) ladd lmul lsub lneg (@eq Len).
Proof. exact Qcrt. Qed.
Add Ring len_ring : len_ring.

(* -------- moving to Q, where [lra] works -------- *)
Lemma Qc_eq_iff (a b : Qc) : a = b <-> Qeq (this a) (this b).
Proof. split; [intros ->; reflexivity | apply Qc_is_canon]. Qed.

Lemma this_px q : Qeq (this (px q)) q. Proof. apply Qred_correct. Qed.
Lemma this_Q2Qc q : Qeq (this (Q2Qc q)) q. Proof. apply Qred_correct. Qed.
Lemma this_0 : Qeq (this l0) (0#1). Proof. reflexivity. Qed.
Lemma this_add a b : Qeq (this (ladd a b)) (Qplus (this a) (this b)). Proof. apply Qred_correct. Qed.
Lemma this_sub a b : Qeq (this (lsub a b)) (Qminus (this a) (this b)).
Proof. change (lsub a b) with (Qcplus a (Qcopp b)). cbn [this Qcplus Qcopp Q2Qc]. rewrite !Qred_correct. reflexivity. Qed.
Lemma this_neg a : Qeq (this (lneg a)) (Qopp (this a)). Proof. apply Qred_correct. Qed.
Lemma this_mul a b : Qeq (this (lmul a b)) (Qmult (this a) (this b)). Proof. apply Qred_correct. Qed.
Lemma this_half a : Qeq (this (lhalf a)) (Qmult (this a) (1#2)).
Proof. change (lhalf a) with (Qcmult a (Q2Qc (1#2))). cbn [this Qcmult Q2Qc]. rewrite Qred_correct. reflexivity. Qed.

Lemma lleb_iff a b : lleb a b = true <-> Qle (this a) (this b).
Proof. apply Qle_bool_iff. Qed.
Lemma lltb_iff a b : lltb a b = true <-> Qlt (this a) (this b).
Proof.
  change (lltb a b) with (negb (Qle_bool (this b) (this a))). rewrite negb_true_iff. split.
  - intros H. apply Qnot_le_lt. intros H1. apply Qle_bool_iff in H1. congruence.
  - intros H. destruct (Qle_bool (this b) (this a)) eqn:E; [|reflexivity].
    apply Qle_bool_iff in E. apply Qlt_not_le in H. contradiction.
Qed.
Lemma lmax_def (a b : Len) : lmax a b = if lleb a b then b else a. Proof. reflexivity. Qed.
Lemma lmin_def (a b : Len) : lmin a b = if lleb a b then a else b. Proof. reflexivity. Qed.
Lemma leqb_iff a b : leqb a b = true <-> a = b.
Proof. change (leqb a b) with (Qeq_bool (this a) (this b)). rewrite Qeq_bool_iff. symmetry. apply Qc_eq_iff. Qed.

(** What the checks in block layout need to know about zero; it holds in any floating-point arithmetic. *)
(** No definition of the code: what is assumed of the arithmetic where a theorem says so *)
Class ZeroLaws (ar : Arith) : Prop := {
  zero_zero : leqb l0 l0 = true;
  zero_twice : leqb (ladd l0 l0) l0 = true
}.
#[global] Instance exact_zero : ZeroLaws Exact.
Proof. split; reflexivity. Qed.

Lemma lleb_true a b : lleb a b = true -> Qle (this a) (this b). Proof. apply lleb_iff. Qed.
Lemma lleb_false a b : lleb a b = false -> Qlt (this b) (this a).
Proof. intros H. apply Qnot_le_lt. intros H1. apply lleb_iff in H1. congruence. Qed.
Lemma lltb_true a b : lltb a b = true -> Qlt (this a) (this b). Proof. apply lltb_iff. Qed.
Lemma lltb_false a b : lltb a b = false -> Qle (this b) (this a).
Proof. intros H. apply Qnot_lt_le. intros H1. apply lltb_iff in H1. congruence. Qed.

#[export] Hint Rewrite this_px this_Q2Qc this_0 this_add this_sub this_neg this_mul this_half : qcq.

(** [lenq]: turn every hypothesis and the goal about [Len] into [Q] and call [lra]. *)
Ltac len_hyps :=
  repeat match goal with
  | H : lleb _ _ = true |- _ => apply lleb_true in H
  | H : lleb _ _ = false |- _ => apply lleb_false in H
  | H : lltb _ _ = true |- _ => apply lltb_true in H
  | H : lltb _ _ = false |- _ => apply lltb_false in H
  | H : leqb _ _ = true |- _ => apply leqb_iff in H
  | H : @eq Len _ _ |- _ => apply Qc_eq_iff in H
  | H : @eq Qc _ _ |- _ => apply Qc_eq_iff in H
  | H : Qcle _ _ |- _ => unfold Qcle in H
  | H : Qclt _ _ |- _ => unfold Qclt in H
  end.
Ltac len_goal :=
  match goal with
  | |- lleb _ _ = true => apply lleb_iff
  | |- lltb _ _ = true => apply lltb_iff
  | |- leqb _ _ = true => apply leqb_iff; apply Qc_eq_iff
  | |- @eq Len _ _ => apply Qc_eq_iff
  | |- @eq Qc _ _ => apply Qc_eq_iff
  | |- Qcle _ _ => unfold Qcle
  | |- Qclt _ _ => unfold Qclt
  | |- Qle _ _ => idtac
  | |- Qlt _ _ => idtac
  | |- Qeq _ _ => idtac
  | |- False => idtac
  end.
Ltac len_cases :=
  repeat match goal with
  | |- context [lmax ?a ?b] => rewrite (lmax_def a b); destruct (@lleb Exact a b) eqn:?
  | |- context [lmin ?a ?b] => rewrite (lmin_def a b); destruct (@lleb Exact a b) eqn:?
  | H : context [lmax ?a ?b] |- _ => rewrite (lmax_def a b) in H; destruct (@lleb Exact a b) eqn:?
  | H : context [lmin ?a ?b] |- _ => rewrite (lmin_def a b) in H; destruct (@lleb Exact a b) eqn:?
  end.
Ltac lenq := intros; len_cases; len_hyps; try len_goal; autorewrite with qcq in *; try lra.

Lemma lleb_Qcle a b : lleb a b = true <-> Qcle a b.
Proof. unfold Qcle. apply lleb_iff. Qed.

Lemma ladd_comm a b : ladd a b = ladd b a. Proof. lenq. Qed.
Lemma ladd_assoc a b c : ladd a (ladd b c) = ladd (ladd a b) c. Proof. lenq. Qed.
Lemma ladd_0_l a : ladd l0 a = a. Proof. lenq. Qed.
Lemma ladd_0_r a : ladd a l0 = a. Proof. lenq. Qed.
Lemma lsub_diag a : lsub a a = l0. Proof. lenq. Qed.
Lemma lmax_comm a b : lmax a b = lmax b a. Proof. lenq. Qed.
Lemma lmax_assoc a b c : lmax a (lmax b c) = lmax (lmax a b) c. Proof. lenq. Qed.
Lemma lmin_comm a b : lmin a b = lmin b a. Proof. lenq. Qed.
Lemma lmin_assoc a b c : lmin a (lmin b c) = lmin (lmin a b) c. Proof. lenq. Qed.
Lemma Len_eq_dec (a b : Len) : {a = b} + {a <> b}.
Proof. destruct (leqb a b) eqn:E; [left; apply leqb_iff; exact E | right; intros H; apply leqb_iff in H; congruence]. Qed.
