(** Ranges of the elementary functions: bounds of their values that are takums
    of every width.  No proofs in this file. *)
From Coq Require Import ZArith Reals Bool.
From Verif Require Import CModel Spec Wrappers.
Local Open Scope R_scope.

(** the values of the function lie in this set (1/2 is a linear takum, but not
    a logarithmic one) *)
Definition range (k : kind) (u : unary_name) (y : R) : Prop :=
  match u with
  | n_exp | n_2_raised | n_10_raised => 0 < y
  | n_exp_minus_1 | n_2_raised_minus_1 | n_10_raised_minus_1 => -1 <= y
  | n_sin | n_cos | n_sin_pi_times | n_cos_pi_times | n_tanh => -1 <= y <= 1
  | n_sec | n_csc | n_sec_pi_times | n_csc_pi_times | n_coth => 1 <= Rabs y
  | n_cosh => 1 <= y
  | n_sech => 0 < y <= 1
  | n_arccos | n_arcsec | n_arcosh | n_arsech => 0 <= y
  | n_arccot => 0 < y
  | n_arccos_over_pi | n_arcsec_over_pi => 0 <= y <= 1
  | n_arccot_over_pi => 0 < y <= 1
  | n_arcsin_over_pi | n_arctan_over_pi | n_arccsc_over_pi =>
      match k with Linear => - / 2 <= y <= / 2 | Logarithmic => -1 <= y <= 1 end
  | _ => True
  end.

(** a function and its inverse *)
Inductive undone_by : unary_name -> unary_name -> Prop :=
| undo_exp : undone_by n_exp n_ln
| undo_2_raised : undone_by n_2_raised n_lb
| undo_10_raised : undone_by n_10_raised n_lg
| undo_sin : undone_by n_sin n_arcsin
| undo_sin_pi : undone_by n_sin_pi_times n_arcsin_over_pi
| undo_cos : undone_by n_cos n_arccos
| undo_cos_pi : undone_by n_cos_pi_times n_arccos_over_pi
| undo_tan : undone_by n_tan n_arctan
| undo_tan_pi : undone_by n_tan_pi_times n_arctan_over_pi
| undo_cot : undone_by n_cot n_arccot
| undo_cot_pi : undone_by n_cot_pi_times n_arccot_over_pi
| undo_sec : undone_by n_sec n_arcsec
| undo_sec_pi : undone_by n_sec_pi_times n_arcsec_over_pi
| undo_csc : undone_by n_csc n_arccsc
| undo_csc_pi : undone_by n_csc_pi_times n_arccsc_over_pi
| undo_sinh : undone_by n_sinh n_arsinh
| undo_cosh : undone_by n_cosh n_arcosh
| undo_sech : undone_by n_sech n_arsech.

(** how the value of the function compares to its argument *)
Definition versus_argument (u : unary_name) (x y : R) : Prop :=
  match u with
  | n_exp | n_exp_minus_1 | n_2_raised | n_10_raised => x <= y
  | n_ln | n_ln_1_plus | n_lb | n_lg | n_arcosh => y <= x
  | n_sin | n_tanh | n_arctan | n_arsinh => Rabs y <= Rabs x
  | n_sinh | n_arcsin | n_artanh => Rabs x <= Rabs y
  | n_tan => Rabs x < PI / 2 -> Rabs x <= Rabs y
  | _ => True
  end.

(** numbers of the same sign of which neither is more than twice the other *)
Definition within_factor_two (x y : R) : Prop := y / 2 <= x <= 2 * y \/ 2 * y <= x <= y / 2.

(** the octant of the point (x, y) and of the angle v (in half turns) *)
Definition octant (y x v : R) : Prop :=
  -1 <= v <= 1 /\ (0 <= y -> 0 <= v) /\ (y < 0 -> v < 0) /\
  (Rabs y <= x -> Rabs v <= / 4) /\ (0 <= x -> Rabs v <= / 2) /\ (- x <= Rabs y -> Rabs v <= 3 / 4) /\
  (x <> 0 \/ y <> 0 -> (x <= Rabs y -> / 4 <= Rabs v) /\ (x <= 0 -> / 2 <= Rabs v) /\ (Rabs y <= - x -> 3 / 4 <= Rabs v)) /\
  (x < 0 -> y = 0 -> v = 1).
