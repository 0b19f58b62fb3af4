(** Sizes of relative errors (C101).  No proofs in this file. *)
From Coq Require Import ZArith Reals List.
From Flocq Require Import Core.
From Verif Require Import CModel Spec.
Local Open Scope R_scope.

(** the exponent of z: 2^e <= |z| < 2^(e+1) for linear takums, whose base is 2,
    and the same with sqrt(e) for logarithmic takums, whose base is sqrt(e) *)
Definition has_exponent (k : kind) (z : R) (e : Z) : Prop :=
  match k with
  | Linear => powerRZ 2 e <= Rabs z < powerRZ 2 (e + 1)
  | Logarithmic => exp (IZR e / 2) <= Rabs z < exp ((IZR e + 1) / 2)
  end.

(** the number of fraction bits of an n-bit takum with the exponent e: n bits
    less the sign, the direction, three regime bits and the exponent bits *)
Definition fraction_bits (n e : Z) : Z :=
  (n - 5 - Z.log2 (if e <? 0 then - e else e + 1))%Z.

(** [relative_error k n q z t]: if the exponent e of z is in the takum range
    (and not the outermost one), then the value y of t satisfies
    |y - z| <= 2^-(fraction_bits n e + q) |z| *)
Definition relative_error (k : kind) (n q : Z) (z : R) (t : Z) : Prop :=
  forall e, has_exponent k z e -> (-254 <= e < 254)%Z ->
    exists y, value k n t = Some y /\ Rabs (y - z) <= powerRZ 2 (- (fraction_bits n e + q)) * Rabs z.

(** Adding up (or multiplying together) a list of takums with a function of
    two arguments, from left to right. *)
Fixpoint accumulate (f : Z -> Z -> outcome Z) (acc : Z) (ts : list Z) : outcome Z :=
  match ts with
  | nil => Val acc
  | cons t r => bind (f acc t) (fun a => accumulate f a r)
  end.
Definition sum (xs : list R) : R := List.fold_right Rplus 0 xs.
Definition sum_of_magnitudes (xs : list R) : R := List.fold_right (fun x s => Rabs x + s) 0 xs.
Definition product (xs : list R) : R := List.fold_right Rmult 1 xs.
(** the takums ts have the values xs *)
Definition have_values (k : kind) (n : Z) (ts : list Z) (xs : list R) : Prop :=
  List.Forall2 (fun t x => is_intn n t /\ value k n t = Some x) ts xs.
(** the largest relative error of a rounding: an n-bit takum has at least n - 12
    fraction bits, and correct rounding (q = 1) gains another bit *)
Definition roundoff (n q : Z) : R := powerRZ 2 (- (n - 12 + q)).
(** the partial products x0, x0 x1, x0 x1 x2, ... stay clear of the ends of the
    takum range by a factor of two (linear) or e (logarithmic) *)
Definition moderate (k : kind) (z : R) : Prop :=
  match k with
  | Linear => powerRZ 2 (-253) <= Rabs z <= powerRZ 2 253
  | Logarithmic => exp (-126) <= Rabs z <= exp 126
  end.
Fixpoint moderate_products (k : kind) (p : R) (xs : list R) : Prop :=
  moderate k p /\ match xs with nil => True | cons x r => moderate_products k (p * x) r end.

(** The scalar product of two lists of takums, given as a list of pairs: the
    products are added up from left to right. *)
Fixpoint scalar_product (add mul : Z -> Z -> outcome Z) (acc : Z) (ps : list (Z * Z)) : outcome Z :=
  match ps with
  | nil => Val acc
  | cons (a, b) r => bind (mul a b) (fun p => bind (add acc p) (fun s => scalar_product add mul s r))
  end.
Definition have_values2 (k : kind) (n : Z) (ps : list (Z * Z)) (vs : list (R * R)) : Prop :=
  List.Forall2 (fun p v => is_intn n (fst p) /\ value k n (fst p) = Some (fst v) /\
                           is_intn n (snd p) /\ value k n (snd p) = Some (snd v)) ps vs.
Definition products (vs : list (R * R)) : list R := List.map (fun v => fst v * snd v) vs.

(** Horner's rule: the polynomial with the leading coefficient acc and the
    other coefficients cs, highest first, at x. *)
Fixpoint horner (add mul : Z -> Z -> outcome Z) (x acc : Z) (cs : list Z) : outcome Z :=
  match cs with
  | nil => Val acc
  | cons c r => bind (mul acc x) (fun p => bind (add p c) (fun s => horner add mul x s r))
  end.
Fixpoint polynomial (x acc : R) (cs : list R) : R :=
  match cs with
  | nil => acc
  | cons c r => polynomial x (acc * x + c) r
  end.
