(** IEEE 754 floating point as used by the library, on top of Flocq's
    executable formalisation.  No proofs in this file (except the two
    instances saying that the formats are well-formed). *)
From Coq Require Import ZArith Bool Lia.
From Flocq Require Import Core.Core IEEE754.BinarySingleNaN.
From Verif Require Import CModel.
Local Open Scope Z_scope.

(** The floating-point formats: float, double, x87 extended, quad. *)
Inductive fmt := f32 | f64 | f80 | f128.

(** FLT_MANT_DIG, DBL_MANT_DIG, LDBL_MANT_DIG *)
Definition fprec (f : fmt) : Z :=
  match f with f32 => 24 | f64 => 53 | f80 => 64 | f128 => 113 end.
(** FLT_MAX_EXP, DBL_MAX_EXP, LDBL_MAX_EXP *)
Definition femax (f : fmt) : Z :=
  match f with f32 => 128 | f64 => 1024 | f80 => 16384 | f128 => 16384 end.

Global Instance fprec_gt_0 (f : fmt) : Prec_gt_0 (fprec f).
Proof. destruct f; reflexivity. Defined.
Global Instance fprec_lt_femax (f : fmt) : Prec_lt_emax (fprec f) (femax f).
Proof. destruct f; reflexivity. Defined.

Definition flt (f : fmt) : Type := binary_float (fprec f) (femax f).

(** Platform: which of the three long double formats handled by
    src/codec.c (lines 450-480, 494-530) is in use, and which branch of
    "#if __BYTE_ORDER == __BIG_ENDIAN" (codec.c:459, 468) the preprocessor
    takes.  Neither macro is defined by the headers codec.c includes, so the
    comparison is 0 == 0 and the "big endian" struct is taken. *)
Record platform := { ld : fmt; big_endian_struct : bool }.
Definition x86_64 : platform := {| ld := f80; big_endian_struct := true |}.

Section Ops.
Variable f : fmt.

Definition fnan : flt f := B754_nan.
Definition finf : flt f := B754_infinity false.
Definition fninf : flt f := B754_infinity true.
Definition fzero : flt f := B754_zero false.

(** conversion of an integer value to the format (round to nearest even) *)
Definition fint (z : Z) : flt f :=
  binary_normalize (fprec f) (femax f) _ _ mode_NE z 0 false.
(** the constant m * 2^e *)
Definition fconst (m e : Z) : flt f :=
  binary_normalize (fprec f) (femax f) _ _ mode_NE m e false.

Definition fadd (x y : flt f) : flt f := Bplus mode_NE x y.
Definition fsub (x y : flt f) : flt f := Bminus mode_NE x y.
Definition fmul (x y : flt f) : flt f := Bmult mode_NE x y.
Definition fdiv (x y : flt f) : flt f := Bdiv mode_NE x y.
Definition fsqrt (x : flt f) : flt f := Bsqrt mode_NE x.
Definition fneg (x : flt f) : flt f := Bopp x.
Definition ffabs (x : flt f) : flt f := Babs x.
Definition ffloor (x : flt f) : flt f := Bnearbyint mode_DN x.
Definition fldexp (x : flt f) (e : Z) : flt f := Bldexp mode_NE x e.
(** frexp: fraction in [1/2, 1) and exponent *)
Definition ffrexp (x : flt f) : flt f * Z := Bfrexp x.

Definition feq (x y : flt f) : bool := Beqb x y.
Definition flt_ (x y : flt f) : bool := Bltb x y.
Definition fle (x y : flt f) : bool := Bleb x y.
Definition fgt (x y : flt f) : bool := Bltb y x.
Definition fge (x y : flt f) : bool := Bleb y x.
Definition fisnan (x : flt f) : bool := is_nan x.
Definition fisfinite (x : flt f) : bool := is_finite x.
Definition fisinf (x : flt f) : bool :=
  match x with B754_infinity _ => true | _ => false end.
Definition fsignbit (x : flt f) : bool := Bsign x.

(** conversion to a signed integer type of n bits: undefined when the
    truncated value does not fit (C11 6.3.1.4) *)
Definition f2int (n : Z) (x : flt f) : outcome Z :=
  if is_finite x then guard (fits_s n (Btrunc x)) (Btrunc x) else UB.

(** Memory image of a float as an unsigned integer (little endian byte 0
    is the least significant).  Sign, biased exponent, fraction; the x87
    format stores the leading significand bit explicitly. *)
Definition exp_bits : Z := match f with f32 => 8 | f64 => 11 | f80 | f128 => 15 end.
Definition frac_bits : Z := match f with f80 => 64 | _ => fprec f - 1 end.
Definition image (x : flt f) : Z :=
  let pack (s : bool) (ex fr : Z) :=
    b2z s * 2 ^ (exp_bits + frac_bits) + ex * 2 ^ frac_bits + fr in
  let int_bit := match f with f80 => 2 ^ 63 | _ => 0 end in
  match x with
  | B754_zero s => pack s 0 0
  | B754_infinity s => pack s (2 ^ exp_bits - 1) int_bit
  | B754_nan => pack false (2 ^ exp_bits - 1) (int_bit + 2 ^ (fprec f - 2))
  | B754_finite s m e _ =>
      if 2 ^ (fprec f - 1) <=? Zpos m
      then pack s (e - SpecFloat.emin (fprec f) (femax f) + 1)
                (Zpos m - 2 ^ (fprec f - 1) + int_bit)
      else pack s 0 (Zpos m)
  end.

End Ops.

Arguments fadd {f}. Arguments fsub {f}. Arguments fmul {f}. Arguments fdiv {f}.
Arguments fsqrt {f}. Arguments fneg {f}. Arguments ffabs {f}. Arguments ffloor {f}.
Arguments fldexp {f}. Arguments ffrexp {f}. Arguments feq {f}. Arguments flt_ {f}.
Arguments fle {f}. Arguments fgt {f}. Arguments fge {f}.
Arguments fisnan {f}. Arguments fisfinite {f}. Arguments fisinf {f}.
Arguments fsignbit {f}. Arguments f2int {f}. Arguments image {f}.

(** Conversion between formats: (float)x, (double)x, (long double)x and the
    implicit ones. *)
Definition fcast {f} (g : fmt) (x : flt f) : flt g :=
  match x with
  | B754_zero s => B754_zero s
  | B754_infinity s => B754_infinity s
  | B754_nan => B754_nan
  | B754_finite s m e _ =>
      binary_normalize (fprec g) (femax g) _ _ mode_NE (cond_Zopp s (Zpos m)) e s
  end.
