(** Whole numbers below 2^24 are exact in [f32], and so are their sums and differences. *)
From Coq Require Import SpecFloat.
From Verif Require Import Base Len F32.
Local Open Scope Z_scope.

Definition sh (k : nat) (p : positive) : positive := Nat.iter k xO p.
Lemma sh_S k p : sh k (xO p) = sh (S k) p.
Proof. induction k as [|k IH]; [reflexivity|]. change (xO (sh k (xO p)) = xO (sh (S k) p)). rewrite IH. reflexivity. Qed.
Lemma sh_sh a b p : sh a (sh b p) = sh (a + b) p.
Proof. induction a as [|a IH]; [reflexivity|]. change (xO (sh a (sh b p)) = xO (sh (a + b) p)). rewrite IH. reflexivity. Qed.
Lemma shift_sh n p : shift_pos n p = sh (Pos.to_nat n) p.
Proof. unfold shift_pos, sh. rewrite Pos2Nat.inj_iter. reflexivity. Qed.
Lemma sh_value k p : Zpos (sh k p) = Zpos p * 2 ^ Z.of_nat k.
Proof.
  induction k as [|k IH]; [cbn; lia|]. rewrite Nat2Z.inj_succ, Z.pow_succ_r by lia. change (sh (S k) p) with (xO (sh k p)).
  rewrite Pos2Z.inj_xO, IH. ring.
Qed.
Lemma digits_sh k p : Zpos (digits2_pos (sh k p)) = Zpos (digits2_pos p) + Z.of_nat k.
Proof. induction k as [|k IH]; [cbn; lia|]. change (sh (S k) p) with (xO (sh k p)). cbn [digits2_pos]. lia. Qed.
Lemma iter_pos_nat {A} (f : A -> A) : forall (n : positive) (x : A), SpecFloat.iter_pos f n x = Nat.iter (Pos.to_nat n) f x.
Proof.
  assert (P : forall a b x, Nat.iter a f (Nat.iter b f x) = Nat.iter (a + b) f x).
  { induction a as [|a IH]; intros b x; [reflexivity|]. change (f (Nat.iter a f (Nat.iter b f x)) = f (Nat.iter (a + b) f x)). rewrite IH. reflexivity. }
  induction n as [n IH|n IH|]; intros x; cbn [SpecFloat.iter_pos]; rewrite ?IH, ?P.
  - rewrite (P _ 1%nat x : Nat.iter _ f (f x) = _). f_equal. lia.
  - f_equal. lia.
  - reflexivity.
Qed.
Lemma shr_exact k : forall p, Nat.iter k shr_1 (Build_shr_record (Zpos (sh k p)) false false) = Build_shr_record (Zpos p) false false.
Proof. induction k as [|k IH]; intros p; [reflexivity|]. rewrite <- sh_S. change (shr_1 (Nat.iter k shr_1 (Build_shr_record (Zpos (sh k (xO p))) false false)) = Build_shr_record (Zpos p) false false). rewrite IH. reflexivity. Qed.

(** A number with at most 24 binary digits is represented as it is. *)
Definition dig (p : positive) : Z := Zpos (digits2_pos p).
Definition up (p : positive) : nat := Z.to_nat (24 - dig p).
Lemma fexp_mid E : -149 <= E -> fexp 24 128 (24 + E) = E.
Proof. unfold fexp, emin. lia. Qed.
Lemma round_aux_normal s m E : dig m = 24 -> -149 <= E <= 104 -> binary_round_aux 24 128 s (Zpos m) E loc_Exact = S754_finite s m E.
Proof.
  intros D B. unfold dig in D. unfold binary_round_aux, shr_fexp. cbn [shr_record_of_loc Zdigits2].
  rewrite D, fexp_mid by lia. rewrite Z.sub_diag. cbn [shr shr_m loc_of_shr_record round_nearest_even shr_record_of_loc Zdigits2].
  rewrite D, fexp_mid by lia. rewrite Z.sub_diag. cbn [shr shr_m shr_record_of_loc].
  destruct (Zle_bool E (128 - 24)) eqn:L; [reflexivity|]. apply Z.leb_gt in L. lia.
Qed.
Lemma round_exact s p k e : dig p <= 24 -> -149 <= dig p + Z.of_nat k + e - 24 <= 104 ->
  binary_round 24 128 s (sh k p) e = S754_finite s (sh (up p) p) (dig p + Z.of_nat k + e - 24).
Proof.
  intros D B. assert (D1 : 1 <= dig p) by (unfold dig; lia).
  assert (Dup : dig (sh (up p) p) = 24). { unfold dig at 1. rewrite digits_sh. fold (dig p). unfold up. lia. }
  unfold binary_round. rewrite digits_sh. fold (dig p).
  assert (F : fexp 24 128 (dig p + Z.of_nat k + e) = dig p + Z.of_nat k + e - 24).
  { replace (dig p + Z.of_nat k + e) with (24 + (dig p + Z.of_nat k + e - 24)) at 1 by lia. apply fexp_mid. lia. }
  rewrite F. unfold shl_align.
  destruct (dig p + Z.of_nat k + e - 24 - e) as [|t|t] eqn:T.
  - assert (k = up p) as -> by (unfold up; lia). replace e with (dig p + Z.of_nat (up p) + e - 24) at 1 by lia. apply round_aux_normal; assumption.
  - assert (Hk : k = (Pos.to_nat t + up p)%nat) by (unfold up; lia).
    unfold binary_round_aux, shr_fexp. cbn [shr_record_of_loc Zdigits2]. rewrite digits_sh. fold (dig p). rewrite F, T. cbn [shr].
    rewrite iter_pos_nat.
    assert (X : Nat.iter (Pos.to_nat t) shr_1 (Build_shr_record (Zpos (sh k p)) false false) = Build_shr_record (Zpos (sh (up p) p)) false false) by (rewrite Hk, <- sh_sh; apply shr_exact).
    rewrite X. cbn [shr_m loc_of_shr_record round_nearest_even shr_record_of_loc Zdigits2].
    fold (dig (sh (up p) p)). rewrite Dup. replace (e + Z.pos t) with (dig p + Z.of_nat k + e - 24) by lia.
    rewrite fexp_mid by lia. rewrite Z.sub_diag. cbn [shr shr_m shr_record_of_loc].
    destruct (Zle_bool _ (128 - 24)) eqn:L; [reflexivity|]. apply Z.leb_gt in L. lia.
  - rewrite shift_sh, sh_sh. assert (Pos.to_nat t + k = up p)%nat as -> by (unfold up; lia). apply round_aux_normal; assumption.
Qed.
Lemma dig_bound p : Zpos p < 2 ^ 24 -> dig p <= 24.
Proof.
  assert (L : forall p, 2 ^ (dig p - 1) <= Zpos p).
  { unfold dig. induction p0 as [p0 IH|p0 IH|]; cbn [digits2_pos]; [..|reflexivity];
      rewrite Pos2Z.inj_succ; replace (Z.succ (Zpos (digits2_pos p0)) - 1) with (Z.succ (Zpos (digits2_pos p0) - 1)) by lia;
      rewrite Z.pow_succ_r by lia; lia. }
  intros H. specialize (L p). destruct (Z_le_gt_dec (dig p) 24) as [|G]; [assumption|].
  assert (2 ^ 24 <= 2 ^ (dig p - 1)) by (apply Z.pow_le_mono_r; lia). lia.
Qed.
Definition small (a : Z) : Prop := Z.abs a < 2 ^ 24.
(** [binary_normalize] of a small number written with a smaller exponent *)
Lemma normalize_small a k b : small a -> (k <= 100)%nat -> a <> 0 ->
  binary_normalize 24 128 (a * 2 ^ Z.of_nat k) (- Z.of_nat k) b = f32_int a.
Proof.
  intros S K N. unfold f32_int. unfold small in S.
  assert (R : forall s p, Zpos p < 2 ^ 24 -> binary_round 24 128 s (sh k p) (- Z.of_nat k) = binary_round 24 128 s p 0).
  { intros s p H. pose proof (dig_bound p H) as Hd. assert (D1 : 1 <= dig p) by (unfold dig; lia).
    rewrite round_exact by lia. change (binary_round 24 128 s p 0) with (binary_round 24 128 s (sh 0 p) 0). rewrite round_exact by lia. f_equal. cbn [Z.of_nat]. lia. }
  destruct a as [|p|p]; [congruence|..].
  - rewrite <- sh_value. cbn [binary_normalize]. apply R. lia.
  - replace (Zneg p * 2 ^ Z.of_nat k) with (- (Zpos p * 2 ^ Z.of_nat k)) by (rewrite <- Pos2Z.opp_pos; ring). rewrite <- sh_value. cbn [Z.opp binary_normalize]. apply R. lia.
Qed.
Lemma int_form a : small a -> a <> 0 -> exists s p, a = cond_Zopp s (Zpos p) /\ 1 <= dig p <= 24 /\
  f32_int a = S754_finite s (sh (up p) p) (dig p - 24).
Proof.
  intros S N. unfold small in S. assert (R : forall s p, Zpos p < 2 ^ 24 -> 1 <= dig p <= 24 /\ binary_round 24 128 s p 0 = S754_finite s (sh (up p) p) (dig p - 24)).
  { intros s p H. pose proof (dig_bound p H). assert (1 <= dig p) by (unfold dig; lia). split; [lia|].
    change (binary_round 24 128 s p 0) with (binary_round 24 128 s (sh 0 p) 0). rewrite round_exact by lia. f_equal. }
  destruct a as [|p|p]; [congruence|exists false, p|exists true, p]; (split; [reflexivity|]); apply R; lia.
Qed.
Lemma aligned p E : 1 <= dig p <= 24 -> E <= dig p - 24 -> Zpos (fst (shl_align (sh (up p) p) (dig p - 24) E)) = Zpos p * 2 ^ (- E).
Proof.
  intros D H. unfold shl_align. destruct (E - (dig p - 24)) as [|t|t] eqn:T; cbn [fst].
  - rewrite sh_value. f_equal. f_equal. unfold up. lia.
  - lia.
  - rewrite shift_sh, sh_sh, sh_value. f_equal. f_equal. unfold up. lia.
Qed.
Lemma opp_pow s x k : cond_Zopp s (x * k) = cond_Zopp s x * k.
Proof. destruct s; cbn [cond_Zopp]; ring. Qed.

Theorem int_add a b : small a -> small b -> small (a + b) -> SFadd 24 128 (f32_int a) (f32_int b) = f32_int (a + b).
Proof.
  intros Sa Sb Sc. destruct (Z.eq_dec a 0) as [->|Na].
  { destruct (Z.eq_dec b 0) as [->|Nb]; [reflexivity|]. destruct (int_form b Sb Nb) as (s & p & Eb & _ & F). cbn [Z.add]. rewrite F. reflexivity. }
  destruct (Z.eq_dec b 0) as [->|Nb]; [destruct (int_form a Sa Na) as (s & p & Ea & _ & F); rewrite Z.add_0_r, F; reflexivity|].
  destruct (int_form a Sa Na) as (s & p & Ea & Da & ->). destruct (int_form b Sb Nb) as (t & q & Eb & Db & ->).
  cbn [SFadd]. set (E := Z.min (dig p - 24) (dig q - 24)). rewrite !aligned by (unfold E; lia).
  rewrite !opp_pow, <- Ea, <- Eb, <- Z.mul_add_distr_r.
  destruct (Z.eq_dec (a + b) 0) as [Z0|Nc]; [rewrite Z0; reflexivity|].
  replace E with (- Z.of_nat (Z.to_nat (- E))) at 2 by (unfold E; lia).
  replace (- E) with (Z.of_nat (Z.to_nat (- E))) at 1 by (unfold E; lia). apply normalize_small; [exact Sc|unfold E; lia|exact Nc].
Qed.
Theorem int_sub a b : small a -> small b -> small (a - b) -> SFsub 24 128 (f32_int a) (f32_int b) = f32_int (a - b).
Proof.
  intros Sa Sb Sc. destruct (Z.eq_dec b 0) as [->|Nb].
  { rewrite Z.sub_0_r. destruct (Z.eq_dec a 0) as [->|Na]; [reflexivity|]. destruct (int_form a Sa Na) as (s & p & Ea & _ & ->). reflexivity. }
  destruct (Z.eq_dec a 0) as [->|Na].
  { destruct (int_form b Sb Nb) as (s & p & Eb & _ & F). rewrite F. cbn [Z.sub Z.add f32_int binary_normalize SFsub].
    assert (F' : f32_int b = S754_finite s (sh (up p) p) (dig p - 24)) by exact F.
    assert (f32_int (- b) = SFopp (f32_int b)) as ->; [|rewrite F'; reflexivity].
    unfold f32_int. destruct b as [|x|x]; [congruence|..]; cbn [Z.opp binary_normalize]; unfold binary_round;
      destruct (shl_align _ _ _) as [mz ez]; unfold binary_round_aux; destruct (shr_fexp _ _ _ _ _) as [m1 e1];
      destruct (shr_fexp _ _ (round_nearest_even _ _) _ _) as [m2 e2]; destruct (shr_m m2); try reflexivity; destruct (Zle_bool _ _); reflexivity. }
  destruct (int_form a Sa Na) as (s & p & Ea & Da & ->). destruct (int_form b Sb Nb) as (t & q & Eb & Db & ->).
  cbn [SFsub]. set (E := Z.min (dig p - 24) (dig q - 24)). rewrite !aligned by (unfold E; lia).
  rewrite !opp_pow, <- Ea, <- Eb, <- Z.mul_sub_distr_r.
  destruct (Z.eq_dec (a - b) 0) as [Z0|Nc]; [rewrite Z0; reflexivity|].
  replace E with (- Z.of_nat (Z.to_nat (- E))) at 2 by (unfold E; lia).
  replace (- E) with (Z.of_nat (Z.to_nat (- E))) at 1 by (unfold E; lia). apply normalize_small; [exact Sc|unfold E; lia|exact Nc].
Qed.
