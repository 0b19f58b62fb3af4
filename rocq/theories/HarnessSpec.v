(** Specification for the theorems about the test harness (C138-C143). *)
From Coq Require Import ZArith List.
From Verif Require Import CModel Spec Wrappers WrapApi TestHarness.
Import ListNotations.
Local Open Scope Z_scope.

(** the i-th value that the generator of a width produces from v; rnd gives what
    rand() returns, should a step call it *)
Fixpoint random_run (w : Wrappers.width) (rnd : nat -> Z) (i : nat) (v : Z) : outcome Z :=
  match i with
  | O => Val v
  | S i => let! u := random_run w rnd i v in random_next (rnd i) u w
  end.

(** the cases a test block of a width is about: all takums (the second value is
    not used), all pairs of takums, all pairs of a takum and a listed integer *)
Definition test_case (utb : unit_test_block) (w : Wrappers.width) (a b : Z) : Prop :=
  is_intn (bits w) a /\
  match utb with
  | TAKUM_INT64_TAKUM _ _ cases => In b cases
  | TAKUM_TAKUM_TAKUM _ _ => is_intn (bits w) b
  | ROUNDTRIP _ | TAKUM_TAKUM _ _ | TAKUM_UINT8 _ _ => b = nar (bits w)
  end.

(** their number *)
Definition test_cases (utb : unit_test_block) (w : Wrappers.width) : Z :=
  match utb with
  | TAKUM_INT64_TAKUM _ _ cases => 2 ^ bits w * Z.of_nat (length cases)
  | TAKUM_TAKUM_TAKUM _ _ => 2 ^ bits w * 2 ^ bits w
  | ROUNDTRIP _ | TAKUM_TAKUM _ _ | TAKUM_UINT8 _ _ => 2 ^ bits w
  end.

(** the integers of a block: at least one, none twice *)
Definition well_formed (utb : unit_test_block) : Prop :=
  match utb with
  | TAKUM_INT64_TAKUM _ _ cases => cases <> [] /\ NoDup cases
  | _ => True
  end.

(** no check of the block has undefined behaviour *)
Definition checks_defined (utb : unit_test_block) (k : kind) (w : Wrappers.width) : Prop :=
  forall a b, test_case utb w a b -> check_unary_binary_case utb a b k w <> UB.

(** what a test block asks of the tested function for one case: a round trip gives
    the takum back (blocks without a function ask nothing), a comparison gives the
    expected truth value, and every other result is the expected bit pattern, taken
    as an integer, up to one *)
Definition within_one (output expected : outcome Z) : Prop :=
  exists o e, output = Val o /\ expected = Val e /\ Z.abs (o - e) <= 1.
Definition accepted (utb : unit_test_block) (k : kind) (w : Wrappers.width) (a b : Z) : Prop :=
  match utb with
  | ROUNDTRIP f => match f k w with Some f => f a = Val a | None => True end
  | TAKUM_UINT8 reference f => exists o, f k w a = Val o /\ reference k w a = Val o
  | TAKUM_TAKUM reference f => within_one (f k w a) (reference k w a)
  | TAKUM_TAKUM_TAKUM reference f | TAKUM_INT64_TAKUM reference f _ => within_one (f k w a b) (reference k w a b)
  end.
