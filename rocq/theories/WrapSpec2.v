(** Specification of the functions of two arguments, of integer powers and
    roots: the real number each one stands for.  No proofs in this file. *)
From Coq Require Import ZArith Reals Bool.
From Flocq Require Import Core.Core.
From Verif Require Import CModel Spec Libm LibmSpec Wrappers WrapApi WrapSpec.
Local Open Scope R_scope.

(** z is x to the power of y *)
Definition is_power (x y z : R) : Prop :=
  (0 < x /\ z = exp (y * ln x)) \/
  (x < 0 /\ exists j, y = IZR j /\ z = powerRZ x j) \/
  (x = 0 /\ 0 < y /\ z = 0).

(** z is the angle (in radians) of the point (x, y), 0 at the origin *)
Definition is_angle (y x z : R) : Prop :=
  - PI < z <= PI /\
  (let d := sqrt (x * x + y * y) in x = d * cos z /\ y = d * sin z) /\ (x = 0 -> y = 0 -> z = 0).

(** z is the value of the function b at (x, y) *)
Definition is_value2 (b : binary_name) (x y z : R) : Prop :=
  match b with
  | n_addition => z = x + y
  | n_subtraction => z = x - y
  | n_multiplication => z = x * y
  | n_division => y <> 0 /\ z = x / y
  | n_power => is_power x y z
  | n_hypotenuse => z = sqrt (x * x + y * y)
  | n_arctan2 => is_angle x y z
  | n_arctan2_over_pi => is_angle x y (z * PI)
  end.

(** the relative error of the floating-point number that stands for a takum
    inside of the functions: linear takums are converted exactly *)
Definition slack (k : kind) : R := match k with Logarithmic => bpow radix2 (-56) | Linear => 0 end.

(** The result t of the function b at (x, y): the takum nearest, but for the
    error of the coordinate ([code_error]), to a number z that differs from the value of the function at some (x', y') by at most
    float_error (2^-48, or 2^-59 for logarithmic takums and for 64 bits),
    relatively, where x' and y' differ from x and y by the slack. *)
Definition computes2 (k : kind) (n : Z) (b : binary_name) (x y : R) (t : Z) : Prop :=
  exists x' y' r z, Rabs (x' - x) <= slack k * Rabs x /\ Rabs (y' - y) <= slack k * Rabs y /\
    is_value2 b x' y' r /\ Rabs (z - r) <= float_error k n * Rabs r /\
    rounds_nearly k n (code_error k n) z t.

(** Arguments at which power is accurate.  (Of the logarithmic takums whose
    values are integers only those with the values -1, 0 and 1 are converted
    exactly.) *)
Definition power_ok (k : kind) (x y : R) : Prop :=
  0 < x \/ (x = 0 /\ 0 < y) \/ (x < 0 /\ (exists j, y = IZR j) /\ (k = Linear \/ Rabs y <= 1)).

(** Arguments whose power is NaR; None stands for NaR *)
Definition power_undefined (k : kind) (x y : option R) : Prop :=
  match x, y with
  | None, Some y => y <> 0
  | Some x, None => x <> 1
  | None, None => True
  | Some x, Some y =>
      (x = 0 /\ y < 0) \/
      (x < 0 /\ match k with Linear => forall j, y <> IZR j | Logarithmic => 0 < Rabs y < 1 end)
  end.

(** the same as computes2 for the j-th power, j an integer: computed with 64
    bits for takums of all widths *)
Definition computes_integer_power (k : kind) (n : Z) (x : R) (j : Z) (t : Z) : Prop :=
  exists x' z, Rabs (x' - x) <= slack k * Rabs x /\
    Rabs (z - powerRZ x' j) <= bpow radix2 (-62) * Rabs (powerRZ x' j) /\
    rounds_nearly k n (code_error k n) z t.

(** the j-th root of x, computed with linear takums: no error in the argument;
    the rounding of 1/j to 64 bits costs up to 9 bits *)
Definition computes_root (n : Z) (x : R) (j : Z) (t : Z) : Prop :=
  exists r z, is_root j x r /\ Rabs (z - r) <= bpow radix2 (-54) * Rabs r /\ rounds_nearly Linear n (code_error Linear n) z t.

(** functions whose values are positive; functions whose values have the sign
    of the argument (where they are defined) *)
Definition positive_fun (u : unary_name) : bool :=
  match u with
  | n_exp | n_2_raised | n_10_raised | n_cosh | n_sech | n_arccot | n_arccot_over_pi => true
  | _ => false
  end.
Definition sign_fun (u : unary_name) : bool :=
  match u with
  | n_exp_minus_1 | n_ln_1_plus | n_lb_1_plus | n_lg_1_plus
  | n_arcsin | n_arcsin_over_pi | n_arctan | n_arctan_over_pi
  | n_sinh | n_tanh | n_coth | n_csch | n_arsinh | n_artanh | n_arcsch => true
  | _ => false
  end.
