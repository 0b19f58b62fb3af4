(** The error of a result, as the precision function of the library tells it
    (C105).  No proofs in this file. *)
From Coq Require Import ZArith Reals.
From Verif Require Import CModel Spec LogApi ErrorSpec.
Local Open Scope R_scope.

(** [error_by_precision k n q z t]: with p the precision the library reports
    for the result t, the value y of t satisfies |y - z| <= 2^-(p - 1 + q) |z|,
    if the exact result z is in the takum range (and not in its outermost
    binades) *)
Definition error_by_precision (k : kind) (n q : Z) (z : R) (t : Z) : Prop :=
  forall precision p e, precision_function k n precision -> precision t = Val p ->
    has_exponent k z e -> (-254 <= e < 254)%Z ->
    exists y, value k n t = Some y /\ Rabs (y - z) <= powerRZ 2 (- (p - 1 + q)) * Rabs z.
