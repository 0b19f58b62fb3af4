(** Monotone functions: definitions only. *)
From Coq Require Import ZArith Reals Bool.
From Flocq Require Import Core.Core IEEE754.BinarySingleNaN.
From Verif Require Import CModel FloatModel Libm Spec Wrappers.
Local Open Scope R_scope.

(** the increasing functions of the mathematical library *)
Definition inc1 (g : fun1) : bool :=
  match g with
  | Flog | Flog2 | Flog10 | Flog1p | Fexp | Fexp2 | Fexpm1
  | Fasin | Fatan | Fsinh | Ftanh | Fasinh | Facosh | Fatanh => true
  | _ => false
  end.

(** A library whose functions are monotone: rounding never reverses the order
    of two results.  Every correctly rounded library is. *)
Record monotone (lm : libm) : Prop := {
  mono_inc : forall g F (x y : flt F), inc1 g = true -> is_finite x = true -> is_finite y = true -> B2R x <= B2R y ->
    is_nan (lib1 lm g F x) = false -> is_nan (lib1 lm g F y) = false -> fle (lib1 lm g F x) (lib1 lm g F y) = true;
  mono_acos : forall F (x y : flt F), is_finite x = true -> is_finite y = true -> B2R x <= B2R y ->
    is_nan (lib1 lm Facos F x) = false -> is_nan (lib1 lm Facos F y) = false -> fle (lib1 lm Facos F y) (lib1 lm Facos F x) = true;
  mono_cosh : forall F (x y : flt F), is_finite x = true -> is_finite y = true -> 0 <= B2R x <= B2R y ->
    fle (lib1 lm Fcosh F x) (lib1 lm Fcosh F y) = true;
  mono_pow_exponent : forall F (b x y : flt F), is_finite b = true -> is_finite x = true -> is_finite y = true -> 1 <= B2R b -> B2R x <= B2R y ->
    fle (lib2 lm Fpow F b x) (lib2 lm Fpow F b y) = true;
  mono_pow_exponent_dec : forall F (b x y : flt F), is_finite b = true -> is_finite x = true -> is_finite y = true -> 0 < B2R b <= 1 -> B2R x <= B2R y ->
    fle (lib2 lm Fpow F b y) (lib2 lm Fpow F b x) = true;
  mono_pow_base : forall F (x y e : flt F), is_finite x = true -> is_finite y = true -> is_finite e = true -> 0 < B2R x <= B2R y -> 0 <= B2R e ->
    fle (lib2 lm Fpow F x e) (lib2 lm Fpow F y e) = true;
  mono_pow_base_dec : forall F (x y e : flt F), is_finite x = true -> is_finite y = true -> is_finite e = true -> 0 < B2R x <= B2R y -> B2R e <= 0 ->
    fle (lib2 lm Fpow F y e) (lib2 lm Fpow F x e) = true;
  mono_hypot : forall F (x y z : flt F), is_finite x = true -> is_finite y = true -> is_finite z = true -> 0 <= B2R x <= B2R y ->
    fle (lib2 lm Fhypot F x z) (lib2 lm Fhypot F y z) = true /\ fle (lib2 lm Fhypot F z x) (lib2 lm Fhypot F z y) = true
}.

(** takumN_<name>: increasing on their whole domain *)
Definition inc_name (u : unary_name) : bool :=
  match u with
  | n_exp | n_exp_minus_1 | n_2_raised | n_2_raised_minus_1 | n_10_raised | n_10_raised_minus_1
  | n_ln | n_ln_1_plus | n_lb | n_lb_1_plus | n_lg | n_lg_1_plus
  | n_arcsin | n_arcsin_over_pi | n_arctan | n_arctan_over_pi
  | n_sinh | n_tanh | n_arsinh | n_arcosh | n_artanh => true
  | _ => false
  end.
(** decreasing on their whole domain *)
Definition dec_name (u : unary_name) : bool :=
  match u with n_arccos | n_arccos_over_pi => true | _ => false end.
(** increasing, and decreasing, for positive arguments *)
Definition pos_inc_name (u : unary_name) : bool :=
  match u with n_cosh | n_arcsec | n_arcsec_over_pi => true | _ => inc_name u end.
Definition pos_dec_name (u : unary_name) : bool :=
  match u with
  | n_sech | n_coth | n_csch | n_arcoth | n_arsech | n_arcsch
  | n_arccsc | n_arccsc_over_pi | n_arccot | n_arccot_over_pi => true
  | _ => dec_name u
  end.
(** increasing, and decreasing, for negative arguments *)
Definition neg_inc_name (u : unary_name) : bool :=
  match u with n_arcsec | n_arcsec_over_pi => true | _ => inc_name u end.
Definition neg_dec_name (u : unary_name) : bool :=
  match u with
  | n_coth | n_csch | n_arcoth | n_arcsch | n_arccsc | n_arccsc_over_pi | n_arccot | n_arccot_over_pi => true
  | _ => dec_name u
  end.

(** increasing, and decreasing, between a and b *)
Definition inc_on (u : unary_name) (a b : R) : Prop :=
  inc_name u = true \/ (0 < a /\ pos_inc_name u = true) \/ (b < 0 /\ neg_inc_name u = true).
Definition dec_on (u : unary_name) (a b : R) : Prop :=
  dec_name u = true \/ (0 < a /\ pos_dec_name u = true) \/ (b < 0 /\ neg_dec_name u = true).
