(** Conversions between linear takums and floats and linear arithmetic of the
    API on x86-64, by name and width.  No proofs in this file. *)
From Coq Require Import ZArith.
From Verif Require Import CModel FloatModel Libm Conversion Wrappers.
Local Open Scope Z_scope.

(** takum.h: takum_linearN_from_float32, _float64 and _extended_float *)
Inductive linear_from_float : Z -> forall F : fmt, (flt F -> outcome Z) -> Prop :=
| lin8_from_float32 : linear_from_float 8 f32 (takum_linear8_from_float32 x86_64)
| lin16_from_float32 : linear_from_float 16 f32 (takum_linear16_from_float32)
| lin32_from_float32 : linear_from_float 32 f32 (takum_linear32_from_float32 x86_64)
| lin64_from_float32 : linear_from_float 64 f32 (takum_linear64_from_float32 x86_64)
| lin8_from_float64 : linear_from_float 8 f64 (takum_linear8_from_float64 x86_64)
| lin16_from_float64 : linear_from_float 16 f64 (takum_linear16_from_float64 x86_64)
| lin32_from_float64 : linear_from_float 32 f64 (takum_linear32_from_float64 x86_64)
| lin64_from_float64 : linear_from_float 64 f64 (takum_linear64_from_float64 x86_64)
| lin8_from_extended_float : linear_from_float 8 f80 (takum_linear8_from_extended_float x86_64)
| lin16_from_extended_float : linear_from_float 16 f80 (takum_linear16_from_extended_float x86_64)
| lin32_from_extended_float : linear_from_float 32 f80 (takum_linear32_from_extended_float x86_64)
| lin64_from_extended_float : linear_from_float 64 f80 (takum_linear64_from_extended_float x86_64).

(** takum.h: takum_linearN_to_float32, _float64 and _extended_float *)
Inductive linear_to_float : Z -> forall F : fmt, (Z -> outcome (flt F)) -> Prop :=
| lin8_to_float32 : linear_to_float 8 f32 (takum_linear8_to_float32 x86_64)
| lin16_to_float32 : linear_to_float 16 f32 (takum_linear16_to_float32 x86_64)
| lin32_to_float32 : linear_to_float 32 f32 (takum_linear32_to_float32 x86_64)
| lin64_to_float32 : linear_to_float 64 f32 (takum_linear64_to_float32 x86_64)
| lin8_to_float64 : linear_to_float 8 f64 (takum_linear8_to_float64 x86_64)
| lin16_to_float64 : linear_to_float 16 f64 (takum_linear16_to_float64 x86_64)
| lin32_to_float64 : linear_to_float 32 f64 (takum_linear32_to_float64 x86_64)
| lin64_to_float64 : linear_to_float 64 f64 (takum_linear64_to_float64 x86_64)
| lin8_to_extended_float : linear_to_float 8 f80 (takum_linear8_to_extended_float x86_64)
| lin16_to_extended_float : linear_to_float 16 f80 (takum_linear16_to_extended_float x86_64)
| lin32_to_extended_float : linear_to_float 32 f80 (takum_linear32_to_extended_float x86_64)
| lin64_to_extended_float : linear_to_float 64 f80 (takum_linear64_to_extended_float x86_64).

(** takum.h: takum_linearN_addition *)
Inductive linear_addition : Z -> (Z -> Z -> outcome Z) -> Prop :=
| lin8_addition : linear_addition 8 (takum_linear_addition x86_64 W8)
| lin16_addition : linear_addition 16 (takum_linear_addition x86_64 W16)
| lin32_addition : linear_addition 32 (takum_linear_addition x86_64 W32)
| lin64_addition : linear_addition 64 (takum_linear_addition x86_64 W64).

(** takum.h: takum_linearN_subtraction *)
Inductive linear_subtraction : Z -> (Z -> Z -> outcome Z) -> Prop :=
| lin8_subtraction : linear_subtraction 8 (takum_linear_subtraction x86_64 W8)
| lin16_subtraction : linear_subtraction 16 (takum_linear_subtraction x86_64 W16)
| lin32_subtraction : linear_subtraction 32 (takum_linear_subtraction x86_64 W32)
| lin64_subtraction : linear_subtraction 64 (takum_linear_subtraction x86_64 W64).

(** takum.h: takum_linearN_multiplication *)
Inductive linear_multiplication : Z -> (Z -> Z -> outcome Z) -> Prop :=
| lin8_multiplication : linear_multiplication 8 (takum_linear_multiplication x86_64 W8)
| lin16_multiplication : linear_multiplication 16 (takum_linear_multiplication x86_64 W16)
| lin32_multiplication : linear_multiplication 32 (takum_linear_multiplication x86_64 W32)
| lin64_multiplication : linear_multiplication 64 (takum_linear_multiplication x86_64 W64).

(** takum.h: takum_linearN_division *)
Inductive linear_division : Z -> (Z -> Z -> outcome Z) -> Prop :=
| lin8_division : linear_division 8 (takum_linear_division x86_64 W8)
| lin16_division : linear_division 16 (takum_linear_division x86_64 W16)
| lin32_division : linear_division 32 (takum_linear_division x86_64 W32)
| lin64_division : linear_division 64 (takum_linear_division x86_64 W64).

(** takum.h: takum_linearN_inversion *)
Inductive linear_inversion : Z -> (Z -> outcome Z) -> Prop :=
| lin8_inversion : linear_inversion 8 (takum_linear_inversion x86_64 W8)
| lin16_inversion : linear_inversion 16 (takum_linear_inversion x86_64 W16)
| lin32_inversion : linear_inversion 32 (takum_linear_inversion x86_64 W32)
| lin64_inversion : linear_inversion 64 (takum_linear_inversion x86_64 W64).

(** takum.h: takum_linearN_square_root *)
Inductive linear_square_root : Z -> (Z -> outcome Z) -> Prop :=
| lin8_square_root : linear_square_root 8 (takum_linear_square_root x86_64 W8)
| lin16_square_root : linear_square_root 16 (takum_linear_square_root x86_64 W16)
| lin32_square_root : linear_square_root 32 (takum_linear_square_root x86_64 W32)
| lin64_square_root : linear_square_root 64 (takum_linear_square_root x86_64 W64).
