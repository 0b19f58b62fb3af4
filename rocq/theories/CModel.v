(** C integer semantics used by the model: outcomes with undefined behaviour,
    unsigned wrap-around, two's complement views and guarded shifts.
    No proofs in this file. *)
From Coq Require Import ZArith List Bool.
Import ListNotations.
Local Open Scope Z_scope.

(** Result of running a piece of C: a value, or undefined behaviour. *)
Inductive outcome (A : Type) : Type :=
| Val (a : A)
| UB.
Arguments Val {A} a.
Arguments UB {A}.

Definition bind {A B} (x : outcome A) (k : A -> outcome B) : outcome B :=
  match x with
  | Val a => k a
  | UB => UB
  end.
Notation "'let!' x := e 'in' k" := (bind e (fun x => k))
  (at level 200, x name, e at level 100, k at level 200, right associativity).

(** [guard b x]: [b] is the precondition C imposes on the operation. *)
Definition guard {A} (b : bool) (x : A) : outcome A := if b then Val x else UB.

(** Conversion to an unsigned / signed integer type with [n] bits.  The signed
    one is implementation-defined in C; all supported compilers wrap (the code
    relies on it through its unions and casts). *)
Definition to_u (n z : Z) : Z := z mod 2 ^ n.
Definition to_s (n z : Z) : Z := (z + 2 ^ (n - 1)) mod 2 ^ n - 2 ^ (n - 1).

Definition fits_s (n z : Z) : bool := (- 2 ^ (n - 1) <=? z) && (z <? 2 ^ (n - 1)).

(** Arithmetic in a signed type of [n] bits: overflow is undefined. *)
Definition s_arith (n z : Z) : outcome Z := guard (fits_s n z) z.

(** Shifts.  [n] is the width of the (promoted) left operand.  Operands of
    unsigned type wrap; operands of type [int] (promoted uint8_t/uint16_t)
    must not overflow. *)
Definition shl_u (n a k : Z) : outcome Z :=
  guard ((0 <=? k) && (k <? n)) (to_u n (a * 2 ^ k)).
Definition shr_u (n a k : Z) : outcome Z :=
  guard ((0 <=? k) && (k <? n)) (a / 2 ^ k).
Definition shl_int (a k : Z) : outcome Z :=
  guard ((0 <=? k) && (k <? 32) && (0 <=? a) && (a * 2 ^ k <? 2 ^ 31)) (a * 2 ^ k).

(** Left shift of an operand of type uintN_t after integer promotion: types
    narrower than int are shifted as int, the others as themselves. *)
Definition shl_promoted (n a k : Z) : outcome Z :=
  if n <? 32 then shl_int a k else shl_u n a k.
Definition shr_promoted (n a k : Z) : outcome Z := shr_u (Z.max 32 n) a k.

(** Array access. *)
Definition lookup (l : list Z) (i : Z) : outcome Z :=
  if i <? 0 then UB
  else match nth_error l (Z.to_nat i) with
       | Some x => Val x
       | None => UB
       end.

Definition b2z (b : bool) : Z := if b then 1 else 0.
