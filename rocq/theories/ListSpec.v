(** Vocabulary for sums and products of lists of takums (C114) and the middle of
    two takums (C115).  No proofs in this file. *)
From Coq Require Import ZArith List.
From Verif Require Import CModel Spec LogApi LinApi.
Local Open Scope Z_scope.

(** an n-bit takum other than NaR *)
Definition no_nar (n : Z) (t : Z) : Prop := is_intn n t /\ t <> nar n.
(** multiplication of either kind *)
Definition any_multiplication (k : kind) (n : Z) (f : Z -> Z -> outcome Z) : Prop :=
  (k = Linear /\ linear_multiplication n f) \/ (k = Logarithmic /\ log_multiplication n f).
(** the product of the signs of the elements *)
Definition signs (ts : list Z) : Z := fold_right (fun t s => Z.sgn t * s) 1 ts.
(** the middle a + (b - a) / two, computed with the functions of the library *)
Definition middle (add sub div : Z -> Z -> outcome Z) (two a b : Z) : outcome Z :=
  let! d := sub b a in
  let! h := div d two in
  add a h.
