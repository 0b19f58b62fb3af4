(** Platforms.  No proofs in this file. *)
From Coq Require Import ZArith Reals Bool.
From Flocq Require Import IEEE754.BinarySingleNaN.
From Verif Require Import CModel FloatModel Spec FloatSpec.

(** the formats of long double that the code has branches for
    (src/codec.c:462, 466, 475) *)
Definition wide (pf : platform) : Prop := ld pf = f64 \/ ld pf = f80 \/ ld pf = f128.

(** the float is the number a linear takum of n bits stands for, NaN for NaR *)
Definition denotes {F} (n t : Z) (o : outcome (flt F)) : Prop :=
  exists y, o = Val y /\ match value Linear n t with Some x => float_is x y | None => y = B754_nan end.
