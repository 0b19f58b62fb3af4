(** The width conversions of the API, by name: which function widens or
    narrows which kind from which width to which.  No proofs in this file. *)
From Coq Require Import ZArith.
From Verif Require Import CModel WidthConv Spec.
Local Open Scope Z_scope.

(** takum.h: takumM_from_takumN and takum_linearM_from_takum_linearN, M > N *)
Inductive widening : kind -> Z -> Z -> (Z -> outcome Z) -> Prop :=
| wid_log_8_16 : widening Logarithmic 8 16 takum16_from_takum8
| wid_log_8_32 : widening Logarithmic 8 32 takum32_from_takum8
| wid_log_8_64 : widening Logarithmic 8 64 takum64_from_takum8
| wid_log_16_32 : widening Logarithmic 16 32 takum32_from_takum16
| wid_log_16_64 : widening Logarithmic 16 64 takum64_from_takum16
| wid_log_32_64 : widening Logarithmic 32 64 takum64_from_takum32
| wid_lin_8_16 : widening Linear 8 16 takum_linear16_from_takum_linear8
| wid_lin_8_32 : widening Linear 8 32 takum_linear32_from_takum_linear8
| wid_lin_8_64 : widening Linear 8 64 takum_linear64_from_takum_linear8
| wid_lin_16_32 : widening Linear 16 32 takum_linear32_from_takum_linear16
| wid_lin_16_64 : widening Linear 16 64 takum_linear64_from_takum_linear16
| wid_lin_32_64 : widening Linear 32 64 takum_linear64_from_takum_linear32.

(** takum.h: takumM_from_takumN and takum_linearM_from_takum_linearN, M < N *)
Inductive narrowing : kind -> Z -> Z -> (Z -> outcome Z) -> Prop :=
| nar_log_16_8 : narrowing Logarithmic 16 8 takum8_from_takum16
| nar_log_32_8 : narrowing Logarithmic 32 8 takum8_from_takum32
| nar_log_32_16 : narrowing Logarithmic 32 16 takum16_from_takum32
| nar_log_64_8 : narrowing Logarithmic 64 8 takum8_from_takum64
| nar_log_64_16 : narrowing Logarithmic 64 16 takum16_from_takum64
| nar_log_64_32 : narrowing Logarithmic 64 32 takum32_from_takum64
| nar_lin_16_8 : narrowing Linear 16 8 takum_linear8_from_takum_linear16
| nar_lin_32_8 : narrowing Linear 32 8 takum_linear8_from_takum_linear32
| nar_lin_32_16 : narrowing Linear 32 16 takum_linear16_from_takum_linear32
| nar_lin_64_8 : narrowing Linear 64 8 takum_linear8_from_takum_linear64
| nar_lin_64_16 : narrowing Linear 64 16 takum_linear16_from_takum_linear64
| nar_lin_64_32 : narrowing Linear 64 32 takum_linear32_from_takum_linear64.
