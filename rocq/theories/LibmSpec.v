(** What the theorems about functions computed through the C mathematical
    library assume of it: the special cases of C99/C11 Annex F (F.10) for the
    arguments that occur, and an accuracy of 4 units in the last place (2 for
    log and pow).  These are hypotheses of theorems, not axioms; LibmIdeal.v shows
    that the library rounding every result correctly meets them.
    No proofs in this file. *)
From Coq Require Import ZArith Reals Bool.
From Flocq Require Import Core.Core IEEE754.BinarySingleNaN.
From Verif Require Import CModel FloatModel Libm.
Local Open Scope R_scope.

(** the real function a library function stands for *)
Definition real1 (g : fun1) (x : R) : R :=
  match g with
  | Flog => ln x | Flog2 => ln x / ln 2 | Flog10 => ln x / ln 10 | Flog1p => ln (1 + x)
  | Fexp => exp x | Fexp2 => exp (x * ln 2) | Fexpm1 => exp x - 1
  | Fsin => sin x | Fcos => cos x | Ftan => tan x
  | Fasin => asin x | Facos => acos x | Fatan => atan x
  | Fsinh => sinh x | Fcosh => cosh x | Ftanh => tanh x
  | Fasinh => arcsinh x | Facosh => ln (x + sqrt (x * x - 1)) | Fatanh => ln ((1 + x) / (1 - x)) / 2
  end.

(** where it is defined *)
Definition dom1 (g : fun1) (x : R) : Prop :=
  match g with
  | Flog | Flog2 | Flog10 => 0 < x
  | Flog1p => -1 < x
  | Fasin | Facos => -1 <= x <= 1
  | Facosh => 1 <= x
  | Fatanh => -1 < x < 1
  | Ftan => cos x <> 0
  | _ => True
  end.

(** where it has a pole *)
Definition pole1 (g : fun1) (x : R) : Prop :=
  match g with
  | Flog | Flog2 | Flog10 => x = 0
  | Flog1p => x = -1
  | Fatanh => x = -1 \/ x = 1
  | Ftan => cos x = 0
  | _ => False
  end.

(** [close k f r y]: y approximates the real r with a relative error of at most
    2^(k - precision), that is 2^(k - 1) units in the last place, as far as r is in the range of normal numbers of the
    format; it has the sign of r and over- and underflows where r does *)
Definition close (k : Z) (f : fmt) (r : R) (y : flt f) : Prop :=
  is_nan y = false /\
  (r = 0 -> is_finite y = true /\ B2R y = 0) /\
  (r <> 0 -> Bsign y = Rlt_bool r 0) /\
  (Rabs r <= bpow radix2 (femax f - 1) -> is_finite y = true) /\
  (bpow radix2 (3 - femax f) <= Rabs r <= bpow radix2 (femax f - 1) ->
     Rabs (B2R y - r) <= bpow radix2 (k - fprec f) * Rabs r) /\
  (Rabs r < bpow radix2 (3 - femax f) -> Rabs (B2R y) <= bpow radix2 (4 - femax f)) /\
  (bpow radix2 (femax f - 1) < Rabs r -> is_finite y = true -> bpow radix2 (femax f - 2) <= Rabs (B2R y)).

(** the angle of the point (x, y); arguments in the order of atan2 *)
Definition real_atan2 (y x : R) : R :=
  if Rlt_bool 0 x then atan (y / x)
  else if Rlt_bool x 0 then (if Rlt_bool y 0 then atan (y / x) - PI else atan (y / x) + PI)
  else if Rlt_bool 0 y then PI / 2 else if Rlt_bool y 0 then - (PI / 2) else 0.

(** 2 units in the last place for log, 4 for the other functions *)
Definition acc1 (g : fun1) : Z := match g with Flog => 2%Z | _ => 3%Z end.

Record c99 (lm : libm) : Prop := {
  (* F.10 11: NaN in, NaN out *)
  c_nan1 : forall g f, lib1 lm g f B754_nan = B754_nan;
  (* accuracy inside the domain *)
  c_in : forall g f (x : flt f), is_finite x = true -> dom1 g (B2R x) ->
    close (acc1 g) f (real1 g (B2R x)) (lib1 lm g f x);
  (* domain errors and poles *)
  c_out : forall g f (x : flt f), is_finite x = true -> ~ dom1 g (B2R x) -> ~ pole1 g (B2R x) ->
    lib1 lm g f x = B754_nan;
  c_pole : forall g f (x : flt f), is_finite x = true -> pole1 g (B2R x) ->
    fisinf (lib1 lm g f x) = true /\ (g <> Fatanh -> g <> Ftan -> Bsign (lib1 lm g f x) = true);
  (* infinite arguments *)
  c_inf_atan : forall f (s : bool), close 3 f (if s then - (PI / 2) else PI / 2) (lib1 lm Fatan f (B754_infinity s));
  c_inf_nan : forall g f s, g = Fasin \/ g = Facos \/ g = Fatanh -> lib1 lm g f (B754_infinity s) = B754_nan;
  c_inf_asinh : forall f s, lib1 lm Fasinh f (B754_infinity s) = B754_infinity s;
  c_inf_acosh : forall f, lib1 lm Facosh f (B754_infinity false) = B754_infinity false /\
    lib1 lm Facosh f (B754_infinity true) = B754_nan;
  (* F.10.4.4 pow *)
  c_pow_0 : forall f (x : flt f) s, lib2 lm Fpow f x (B754_zero s) = fint f 1;
  c_pow_1 : forall f (y : flt f), lib2 lm Fpow f (fint f 1) y = fint f 1;
  c_pow_nan_l : forall f (y : flt f), (is_finite y = true -> B2R y <> 0) -> lib2 lm Fpow f B754_nan y = B754_nan;
  c_pow_nan_r : forall f (x : flt f), (is_finite x = true -> B2R x <> 1) -> lib2 lm Fpow f x B754_nan = B754_nan;
  c_pow_pos : forall f (x y : flt f), is_finite x = true -> is_finite y = true -> 0 < B2R x ->
    close 2 f (Rpower (B2R x) (B2R y)) (lib2 lm Fpow f x y);
  c_pow_int : forall f (x y : flt f) k, is_finite x = true -> is_finite y = true -> B2R x < 0 -> B2R y = IZR k ->
    close 2 f (powerRZ (B2R x) k) (lib2 lm Fpow f x y);
  c_pow_nonint : forall f (x y : flt f), is_finite x = true -> is_finite y = true -> B2R x < 0 ->
    (forall k, B2R y <> IZR k) -> lib2 lm Fpow f x y = B754_nan;
  c_pow_ninf : forall f (x : flt f), is_finite x = true -> 1 < B2R x -> lib2 lm Fpow f x (B754_infinity true) = B754_zero false;
  c_pow_zero_neg : forall f s (y : flt f), is_finite y = true -> B2R y < 0 ->
    fisinf (lib2 lm Fpow f (B754_zero s) y) = true;
  c_pow_zero_pos : forall f s (y : flt f), is_finite y = true -> 0 < B2R y ->
    is_finite (lib2 lm Fpow f (B754_zero s) y) = true /\ B2R (lib2 lm Fpow f (B754_zero s) y) = 0;
  (* F.10.1.4 atan2, F.10.4.3 hypot *)
  c_atan2_nan : forall f (x : flt f), lib2 lm Fatan2 f B754_nan x = B754_nan /\ lib2 lm Fatan2 f x B754_nan = B754_nan;
  c_atan2 : forall f (y x : flt f), is_finite y = true -> is_finite x = true ->
    (B2R y = 0 -> Bsign y = false) -> (B2R x = 0 -> Bsign x = false) ->
    close 3 f (real_atan2 (B2R y) (B2R x)) (lib2 lm Fatan2 f y x);
  c_hypot_nan : forall f (x : flt f), fisinf x = false ->
    lib2 lm Fhypot f B754_nan x = B754_nan /\ lib2 lm Fhypot f x B754_nan = B754_nan;
  c_hypot : forall f (x y : flt f), is_finite x = true -> is_finite y = true ->
    close 3 f (sqrt (B2R x * B2R x + B2R y * B2R y)) (lib2 lm Fhypot f x y)
}.
