(** The arithmetic of the code itself: [f32], IEEE 754 binary32 with rounding to nearest even, after the standard
    library's SpecFloat (plain definitions on integers, no primitive floats, no axioms). *)
From Coq Require Import SpecFloat.
From Verif Require Import Base Len.

(** external: the type f32 of CSSFloat, style/values/length.rs *)
Definition f32 : Set := spec_float.
(** external: the operators of the Rust type [f32] *)
(** external: the type f32 of CSSFloat, style/values/length.rs *)
Definition f32_int (z : Z) : f32 := binary_normalize 24 128 z 0 false.
(** A number in the source.  Those that occur have a numerator and a denominator below 2^24, so that dividing
    them rounds once, to the nearest [f32]. *)
(** external: the type f32 of CSSFloat, style/values/length.rs *)
Definition f32_px (q : Q) : f32 := SFdiv 24 128 (f32_int (Qnum q)) (f32_int (Zpos (Qden q))).
(** external: the type f32 of CSSFloat, style/values/length.rs *)
Definition f32_nan (a : f32) : bool := match a with S754_nan => true | _ => false end.
(** [f32::max] and [f32::min]: a NaN is ignored.  (Which of +0 and -0 they return is not specified.) *)
(** external: the type f32 of CSSFloat, style/values/length.rs *)
Definition f32_max (a b : f32) : f32 := if f32_nan a then b else if f32_nan b then a else if SFltb a b then b else a.
(** external: the type f32 of CSSFloat, style/values/length.rs *)
Definition f32_min (a b : f32) : f32 := if f32_nan a then b else if f32_nan b then a else if SFltb b a then b else a.
(** external: the type f32 of CSSFloat, style/values/length.rs *)
Definition f32_operations : operations := {|
  o_len := f32; o_px := f32_px; o_zero := S754_zero false;
  o_add := SFadd 24 128; o_sub := SFsub 24 128; o_neg := SFopp; o_mul := SFmul 24 128; o_div := SFdiv 24 128;
  o_half := fun a => SFdiv 24 128 a (f32_int 2);
  o_leb := SFleb; o_ltb := SFltb; o_eqb := SFeqb; o_max := f32_max; o_min := f32_min |}.
(** external: the type f32 of CSSFloat, style/values/length.rs *)
Definition F32 : Arith := Given f32_operations.
#[global] Instance f32_zero : ZeroLaws F32.
Proof. split; reflexivity. Qed.
