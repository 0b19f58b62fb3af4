(** Functions that are inverse to each other (C111).  No proofs in this file. *)
From Coq Require Import ZArith Reals.
From Verif Require Import CModel Spec Wrappers.
Local Open Scope R_scope.

(** [logarithm_pair l p b]: l is the logarithm to the base b, and p raises b to
    a power *)
Inductive logarithm_pair : unary_name -> unary_name -> R -> Prop :=
| base_e : logarithm_pair n_ln n_exp (exp 1)
| base_2 : logarithm_pair n_lb n_2_raised 2
| base_10 : logarithm_pair n_lg n_10_raised 10.
