(** Adding up or multiplying together takums in any order (C134, C135), for
    example pairwise or in parallel.  No proofs in this file. *)
From Coq Require Import ZArith Reals List.
From Verif Require Import CModel Spec ErrorSpec.

(** a way to put parentheses into a sum or product *)
Inductive bracketing : Type :=
| One (t : Z)
| Join (l r : bracketing).

(** calling f as the parentheses say *)
Fixpoint evaluate (f : Z -> Z -> outcome Z) (b : bracketing) : outcome Z :=
  match b with
  | One t => Val t
  | Join l r => bind (evaluate f l) (fun s => bind (evaluate f r) (fun t => f s t))
  end.

(** the takums, from left to right *)
Fixpoint operands (b : bracketing) : list Z :=
  match b with
  | One t => t :: nil
  | Join l r => operands l ++ operands r
  end.

(** how deeply the parentheses are nested *)
Fixpoint depth (b : bracketing) : nat :=
  match b with
  | One _ => 0
  | Join l r => S (Nat.max (depth l) (depth r))
  end.

(** the number of calls of f *)
Fixpoint calls (b : bracketing) : nat :=
  match b with
  | One _ => 0
  | Join l r => S (calls l + calls r)
  end.

(** the parts in parentheses *)
Inductive part : bracketing -> bracketing -> Prop :=
| part_all b : part b b
| part_left p l r : part p l -> part p (Join l r)
| part_right p l r : part p r -> part p (Join l r).
