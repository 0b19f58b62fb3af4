(** The functions of the API that compute through floats, and the whole API by
    type, on x86-64.  [lm] is the mathematical library the program is linked
    with.  No proofs in this file. *)
From Coq Require Import ZArith.
From Flocq Require Import IEEE754.BinarySingleNaN.
From Verif Require Import CModel FloatModel Libm Spec WidthApi Conversion Arith Wrappers LogApi LinApi.
Local Open Scope Z_scope.

(** takum.h: takumN_from_float32, _float64 and _extended_float *)
Inductive log_from_float (lm : libm) : Z -> forall F : fmt, (flt F -> outcome Z) -> Prop :=
| log8_from_float32 : log_from_float lm 8 f32 (takum8_from_float32 x86_64 lm)
| log16_from_float32 : log_from_float lm 16 f32 (takum16_from_float32 lm)
| log32_from_float32 : log_from_float lm 32 f32 (takum32_from_float32 x86_64 lm)
| log64_from_float32 : log_from_float lm 64 f32 (takum64_from_float32 x86_64 lm)
| log8_from_float64 : log_from_float lm 8 f64 (takum8_from_float64 x86_64 lm)
| log16_from_float64 : log_from_float lm 16 f64 (takum16_from_float64 x86_64 lm)
| log32_from_float64 : log_from_float lm 32 f64 (takum32_from_float64 x86_64 lm)
| log64_from_float64 : log_from_float lm 64 f64 (takum64_from_float64 x86_64 lm)
| log8_from_extended_float : log_from_float lm 8 f80 (takum8_from_extended_float x86_64 lm)
| log16_from_extended_float : log_from_float lm 16 f80 (takum16_from_extended_float x86_64 lm)
| log32_from_extended_float : log_from_float lm 32 f80 (takum32_from_extended_float x86_64 lm)
| log64_from_extended_float : log_from_float lm 64 f80 (takum64_from_extended_float x86_64 lm).

(** takum.h: takumN_to_float32, _float64 and _extended_float *)
Inductive log_to_float (lm : libm) : Z -> forall F : fmt, (Z -> outcome (flt F)) -> Prop :=
| log8_to_float32 : log_to_float lm 8 f32 (takum8_to_float32 x86_64 lm)
| log16_to_float32 : log_to_float lm 16 f32 (takum16_to_float32 x86_64 lm)
| log32_to_float32 : log_to_float lm 32 f32 (takum32_to_float32 x86_64 lm)
| log64_to_float32 : log_to_float lm 64 f32 (takum64_to_float32 x86_64 lm)
| log8_to_float64 : log_to_float lm 8 f64 (takum8_to_float64 x86_64 lm)
| log16_to_float64 : log_to_float lm 16 f64 (takum16_to_float64 x86_64 lm)
| log32_to_float64 : log_to_float lm 32 f64 (takum32_to_float64 x86_64 lm)
| log64_to_float64 : log_to_float lm 64 f64 (takum64_to_float64 x86_64 lm)
| log8_to_extended_float : log_to_float lm 8 f80 (takum8_to_extended_float x86_64 lm)
| log16_to_extended_float : log_to_float lm 16 f80 (takum16_to_extended_float x86_64 lm)
| log32_to_extended_float : log_to_float lm 32 f80 (takum32_to_extended_float x86_64 lm)
| log64_to_extended_float : log_to_float lm 64 f80 (takum64_to_extended_float x86_64 lm).

(** both formats *)
Inductive from_float (lm : libm) : kind -> Z -> forall F : fmt, (flt F -> outcome Z) -> Prop :=
| from_float_log : forall n F f, log_from_float lm n F f -> from_float lm Logarithmic n F f
| from_float_lin : forall n F f, linear_from_float n F f -> from_float lm Linear n F f.
Inductive to_float (lm : libm) : kind -> Z -> forall F : fmt, (Z -> outcome (flt F)) -> Prop :=
| to_float_log : forall n F f, log_to_float lm n F f -> to_float lm Logarithmic n F f
| to_float_lin : forall n F f, linear_to_float n F f -> to_float lm Linear n F f.

(** takum.h: takum_linearN_from_takumM and takumN_from_takum_linearM *)
Inductive log_to_linear (lm : libm) : Z -> Z -> (Z -> outcome Z) -> Prop :=
| lin8_from_log8 : log_to_linear lm 8 8 (takum_linear8_from_takum8 x86_64 lm)
| lin16_from_log8 : log_to_linear lm 8 16 (takum_linear16_from_takum8 x86_64 lm)
| lin32_from_log8 : log_to_linear lm 8 32 (takum_linear32_from_takum8 x86_64 lm)
| lin64_from_log8 : log_to_linear lm 8 64 (takum_linear64_from_takum8 x86_64 lm)
| lin8_from_log16 : log_to_linear lm 16 8 (takum_linear8_from_takum16 x86_64 lm)
| lin16_from_log16 : log_to_linear lm 16 16 (takum_linear16_from_takum16 x86_64 lm)
| lin32_from_log16 : log_to_linear lm 16 32 (takum_linear32_from_takum16 x86_64 lm)
| lin64_from_log16 : log_to_linear lm 16 64 (takum_linear64_from_takum16 x86_64 lm)
| lin8_from_log32 : log_to_linear lm 32 8 (takum_linear8_from_takum32 x86_64 lm)
| lin16_from_log32 : log_to_linear lm 32 16 (takum_linear16_from_takum32 x86_64 lm)
| lin32_from_log32 : log_to_linear lm 32 32 (takum_linear32_from_takum32 x86_64 lm)
| lin64_from_log32 : log_to_linear lm 32 64 (takum_linear64_from_takum32 x86_64 lm)
| lin8_from_log64 : log_to_linear lm 64 8 (takum_linear8_from_takum64 x86_64 lm)
| lin16_from_log64 : log_to_linear lm 64 16 (takum_linear16_from_takum64 x86_64 lm)
| lin32_from_log64 : log_to_linear lm 64 32 (takum_linear32_from_takum64 x86_64 lm)
| lin64_from_log64 : log_to_linear lm 64 64 (takum_linear64_from_takum64 x86_64 lm).
Inductive linear_to_log (lm : libm) : Z -> Z -> (Z -> outcome Z) -> Prop :=
| log8_from_lin8 : linear_to_log lm 8 8 (takum8_from_takum_linear8 x86_64 lm)
| log16_from_lin8 : linear_to_log lm 8 16 (takum16_from_takum_linear8 x86_64 lm)
| log32_from_lin8 : linear_to_log lm 8 32 (takum32_from_takum_linear8 x86_64 lm)
| log64_from_lin8 : linear_to_log lm 8 64 (takum64_from_takum_linear8 x86_64 lm)
| log8_from_lin16 : linear_to_log lm 16 8 (takum8_from_takum_linear16 x86_64 lm)
| log16_from_lin16 : linear_to_log lm 16 16 (takum16_from_takum_linear16 x86_64 lm)
| log32_from_lin16 : linear_to_log lm 16 32 (takum32_from_takum_linear16 x86_64 lm)
| log64_from_lin16 : linear_to_log lm 16 64 (takum64_from_takum_linear16 x86_64 lm)
| log8_from_lin32 : linear_to_log lm 32 8 (takum8_from_takum_linear32 x86_64 lm)
| log16_from_lin32 : linear_to_log lm 32 16 (takum16_from_takum_linear32 x86_64 lm)
| log32_from_lin32 : linear_to_log lm 32 32 (takum32_from_takum_linear32 x86_64 lm)
| log64_from_lin32 : linear_to_log lm 32 64 (takum64_from_takum_linear32 x86_64 lm)
| log8_from_lin64 : linear_to_log lm 64 8 (takum8_from_takum_linear64 x86_64 lm)
| log16_from_lin64 : linear_to_log lm 64 16 (takum16_from_takum_linear64 x86_64 lm)
| log32_from_lin64 : linear_to_log lm 64 32 (takum32_from_takum_linear64 x86_64 lm)
| log64_from_lin64 : linear_to_log lm 64 64 (takum64_from_takum_linear64 x86_64 lm).

(** takum.h: takumN_NAME and takum_linearN_NAME, functions of one argument
    computed through the mathematical library *)
Definition api_unary (k : kind) (lm : libm) (u : unary_name) (w : Wrappers.width) : Z -> outcome Z :=
  match k with
  | Logarithmic => takum_unary x86_64 lm u w
  | Linear => takum_linear_unary x86_64 lm u w
  end.

(** functions of two takums *)
Inductive binary_name :=
| n_addition | n_subtraction | n_multiplication | n_division
| n_power | n_hypotenuse | n_arctan2 | n_arctan2_over_pi.
Definition api_binary (k : kind) (lm : libm) (b : binary_name) (w : Wrappers.width) : Z -> Z -> outcome Z :=
  match k, b with
  | Logarithmic, n_addition => takum_addition x86_64 lm w
  | Logarithmic, n_subtraction => takum_subtraction x86_64 lm w
  | Logarithmic, n_multiplication =>
      match w with
      | W8 => takum8_multiplication x86_64 | W16 => takum16_multiplication
      | W32 => takum32_multiplication x86_64 | W64 => takum64_multiplication x86_64
      end
  | Logarithmic, n_division =>
      match w with
      | W8 => takum8_division x86_64 | W16 => takum16_division
      | W32 => takum32_division x86_64 | W64 => takum64_division x86_64
      end
  | Logarithmic, n_power => takum_power x86_64 lm w
  | Logarithmic, n_hypotenuse => takum_hypotenuse x86_64 lm w
  | Logarithmic, n_arctan2 => takum_arctan2 x86_64 lm w
  | Logarithmic, n_arctan2_over_pi => takum_arctan2_over_pi x86_64 lm w
  | Linear, n_addition => takum_linear_addition x86_64 w
  | Linear, n_subtraction => takum_linear_subtraction x86_64 w
  | Linear, n_multiplication => takum_linear_multiplication x86_64 w
  | Linear, n_division => takum_linear_division x86_64 w
  | Linear, n_power => takum_linear_power x86_64 lm w
  | Linear, n_hypotenuse => takum_linear_hypotenuse x86_64 lm w
  | Linear, n_arctan2 => takum_linear_arctan2 x86_64 lm w
  | Linear, n_arctan2_over_pi => takum_linear_arctan2_over_pi x86_64 lm w
  end.

(** functions of a takum and an int64_t *)
Definition api_integer_power (k : kind) (lm : libm) (w : Wrappers.width) : Z -> Z -> outcome Z :=
  match k with
  | Logarithmic =>
      match w with
      | W8 => takum8_integer_power x86_64 | W16 => takum16_integer_power
      | W32 => takum32_integer_power x86_64 | W64 => takum64_integer_power x86_64 lm
      end
  | Linear => takum_linear_integer_power x86_64 lm w
  end.
Definition api_root (k : kind) (lm : libm) (w : Wrappers.width) : Z -> Z -> outcome Z :=
  match k with
  | Logarithmic =>
      match w with
      | W8 => takum8_root x86_64 | W16 => takum16_root
      | W32 => takum32_root x86_64 | W64 => takum64_root x86_64
      end
  | Linear => takum_linear_root x86_64 lm w
  end.

(** all functions from takums to takums, with the widths of the argument and
    of the result *)
Inductive takum_function (lm : libm) : Z -> Z -> (Z -> outcome Z) -> Prop :=
| tf_unary : forall k u w, takum_function lm (bits w) (bits w) (api_unary k lm u w)
| tf_log_inversion : forall n f, log_inversion n f -> takum_function lm n n f
| tf_lin_inversion : forall n f, linear_inversion n f -> takum_function lm n n f
| tf_log_square_root : forall n f, log_square_root n f -> takum_function lm n n f
| tf_lin_square_root : forall n f, linear_square_root n f -> takum_function lm n n f
| tf_sign : forall k n f, sign_function k n f -> takum_function lm n n f
| tf_widening : forall k n m f, widening k n m f -> takum_function lm n m f
| tf_narrowing : forall k n m f, narrowing k n m f -> takum_function lm n m f
| tf_log_to_linear : forall n m f, log_to_linear lm n m f -> takum_function lm n m f
| tf_linear_to_log : forall n m f, linear_to_log lm n m f -> takum_function lm n m f.
