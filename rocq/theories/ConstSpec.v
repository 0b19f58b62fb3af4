(** The real numbers the names of the constants of takum.h stand for, and the
    constants by format and width.  No proofs in this file. *)
From Coq Require Import ZArith Reals List.
From Verif Require Import Spec Constants.
Local Open Scope R_scope.

Definition is_constant (c : constant) (x : R) : Prop :=
  match c with
  | c_2_PI => x = 2 * PI | c_2_PI_OVER_3 => x = 2 * PI / 3 | c_2_PI_OVER_5 => x = 2 * PI / 5
  | c_3_PI => x = 3 * PI | c_3_PI_OVER_2 => x = 3 * PI / 2 | c_3_PI_OVER_4 => x = 3 * PI / 4 | c_3_PI_OVER_5 => x = 3 * PI / 5
  | c_4_PI => x = 4 * PI | c_4_PI_OVER_3 => x = 4 * PI / 3 | c_4_PI_OVER_5 => x = 4 * PI / 5
  | c_5_PI => x = 5 * PI | c_5_PI_OVER_2 => x = 5 * PI / 2 | c_5_PI_OVER_3 => x = 5 * PI / 3
  | c_5_PI_OVER_4 => x = 5 * PI / 4 | c_5_PI_OVER_6 => x = 5 * PI / 6
  | c_6_PI => x = 6 * PI | c_6_PI_OVER_5 => x = 6 * PI / 5
  (* Euler's constant, the limit of 1 + 1/2 + ... + 1/n - ln n *)
  | c_GAMMA => Un_cv (fun n => sum_f_R0 (fun k => / INR (S k)) n - ln (INR (S n))) x
  | c_LB_10 => x = ln 10 / ln 2 | c_LB_E => x = 1 / ln 2
  | c_LG_2 => x = ln 2 / ln 10 | c_LG_E => x = 1 / ln 10
  | c_LN_10 => x = ln 10 | c_LN_2 => x = ln 2
  | c_ONE => x = 1
  (* the golden ratio *)
  | c_PHI => x = (1 + sqrt 5) / 2
  | c_PI => x = PI | c_PI_OVER_2 => x = PI / 2 | c_PI_OVER_3 => x = PI / 3
  | c_PI_OVER_4 => x = PI / 4 | c_PI_OVER_5 => x = PI / 5 | c_PI_OVER_6 => x = PI / 6
  | c_SQUARE_ROOT_2 => x = sqrt 2 | c_SQUARE_ROOT_3 => x = sqrt 3
  | c_SQUARE_ROOT_5 => x = sqrt 5 | c_SQUARE_ROOT_6 => x = sqrt 6
  end.

(** [header k n c t]: takum.h defines the n-bit constant named c as t *)
Inductive header : kind -> Z -> constant -> Z -> Prop :=
| header_log8 : forall c t t16 t32 t64 l, In (c, (t, t16, t32, t64), l) constants -> header Logarithmic 8 c t
| header_log16 : forall c t8 t t32 t64 l, In (c, (t8, t, t32, t64), l) constants -> header Logarithmic 16 c t
| header_log32 : forall c t8 t16 t t64 l, In (c, (t8, t16, t, t64), l) constants -> header Logarithmic 32 c t
| header_log64 : forall c t8 t16 t32 t l, In (c, (t8, t16, t32, t), l) constants -> header Logarithmic 64 c t
| header_lin8 : forall c t t16 t32 t64 l, In (c, l, (t, t16, t32, t64)) constants -> header Linear 8 c t
| header_lin16 : forall c t8 t t32 t64 l, In (c, l, (t8, t, t32, t64)) constants -> header Linear 16 c t
| header_lin32 : forall c t8 t16 t t64 l, In (c, l, (t8, t16, t, t64)) constants -> header Linear 32 c t
| header_lin64 : forall c t8 t16 t32 t l, In (c, l, (t8, t16, t32, t)) constants -> header Linear 64 c t.
