(** Arithmetic of the API on x86-64, by name and width.
    No proofs in this file. *)
From Coq Require Import ZArith.
From Verif Require Import CModel FloatModel Spec Arith.
Local Open Scope Z_scope.

(** takum.h: takumN_multiplication *)
Inductive log_multiplication : Z -> (Z -> Z -> outcome Z) -> Prop :=
| log_mul_8 : log_multiplication 8 (takum8_multiplication x86_64)
| log_mul_16 : log_multiplication 16 takum16_multiplication
| log_mul_32 : log_multiplication 32 (takum32_multiplication x86_64)
| log_mul_64 : log_multiplication 64 (takum64_multiplication x86_64).

(** takum.h: takumN_division *)
Inductive log_division : Z -> (Z -> Z -> outcome Z) -> Prop :=
| log_div_8 : log_division 8 (takum8_division x86_64)
| log_div_16 : log_division 16 takum16_division
| log_div_32 : log_division 32 (takum32_division x86_64)
| log_div_64 : log_division 64 (takum64_division x86_64).

(** takum.h: takumN_inversion *)
Inductive log_inversion : Z -> (Z -> outcome Z) -> Prop :=
| log_inv_8 : log_inversion 8 takum8_inversion
| log_inv_16 : log_inversion 16 takum16_inversion
| log_inv_32 : log_inversion 32 takum32_inversion
| log_inv_64 : log_inversion 64 takum64_inversion.

(** takum.h: takumN_square_root *)
Inductive log_square_root : Z -> (Z -> outcome Z) -> Prop :=
| log_sqrt_8 : log_square_root 8 (takum8_square_root x86_64)
| log_sqrt_16 : log_square_root 16 takum16_square_root
| log_sqrt_32 : log_square_root 32 (takum32_square_root x86_64)
| log_sqrt_64 : log_square_root 64 (takum64_square_root x86_64).

(** takum.h: takum8/16/32_integer_power *)
Inductive log_integer_power : Z -> (Z -> Z -> outcome Z) -> Prop :=
| log_ipow_8 : log_integer_power 8 (takum8_integer_power x86_64)
| log_ipow_16 : log_integer_power 16 takum16_integer_power
| log_ipow_32 : log_integer_power 32 (takum32_integer_power x86_64).

(** takum.h: takumN_root *)
Inductive log_root : Z -> (Z -> Z -> outcome Z) -> Prop :=
| log_root_8 : log_root 8 (takum8_root x86_64)
| log_root_16 : log_root 16 takum16_root
| log_root_32 : log_root 32 (takum32_root x86_64)
| log_root_64 : log_root 64 (takum64_root x86_64).

(** takum.h: takumN_absolute and takum_linearN_absolute *)
Inductive absolute_value : kind -> Z -> (Z -> outcome Z) -> Prop :=
| abs_8 : absolute_value Logarithmic 8 takum8_absolute
| abs_16 : absolute_value Logarithmic 16 takum16_absolute
| abs_32 : absolute_value Logarithmic 32 takum32_absolute
| abs_64 : absolute_value Logarithmic 64 takum64_absolute
| abs_linear8 : absolute_value Linear 8 takum_linear8_absolute
| abs_linear16 : absolute_value Linear 16 takum_linear16_absolute
| abs_linear32 : absolute_value Linear 32 takum_linear32_absolute
| abs_linear64 : absolute_value Linear 64 takum_linear64_absolute.

(** takum.h: takumN_sign and takum_linearN_sign *)
Inductive sign_function : kind -> Z -> (Z -> outcome Z) -> Prop :=
| sign_8 : sign_function Logarithmic 8 takum8_sign
| sign_16 : sign_function Logarithmic 16 takum16_sign
| sign_32 : sign_function Logarithmic 32 takum32_sign
| sign_64 : sign_function Logarithmic 64 takum64_sign
| sign_linear8 : sign_function Linear 8 takum_linear8_sign
| sign_linear16 : sign_function Linear 16 takum_linear16_sign
| sign_linear32 : sign_function Linear 32 takum_linear32_sign
| sign_linear64 : sign_function Linear 64 takum_linear64_sign.

(** takum.h: takumN_precision and takum_linearN_precision *)
Inductive precision_function : kind -> Z -> (Z -> outcome Z) -> Prop :=
| precision_8 : precision_function Logarithmic 8 takum8_precision
| precision_16 : precision_function Logarithmic 16 takum16_precision
| precision_32 : precision_function Logarithmic 32 takum32_precision
| precision_64 : precision_function Logarithmic 64 takum64_precision
| precision_linear8 : precision_function Linear 8 takum_linear8_precision
| precision_linear16 : precision_function Linear 16 takum_linear16_precision
| precision_linear32 : precision_function Linear 32 takum_linear32_precision
| precision_linear64 : precision_function Linear 64 takum_linear64_precision.
