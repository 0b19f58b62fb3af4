(** Independent specification: what an n-bit takum denotes (definition of the
    takum format: sign, direction bit, regime, characteristic, mantissa) and
    what correct rounding means.  Nothing here refers to the model of the
    code.  No proofs in this file. *)
From Coq Require Import ZArith Reals Bool.
From Flocq Require Import Core.Core.
Local Open Scope Z_scope.

(** * Bit patterns *)

(** The values of the C type intN_t. *)
Definition is_intn (n t : Z) : Prop := - 2 ^ (n - 1) <= t < 2 ^ (n - 1).

(** The two special patterns are 0 and NaR = 10...0; everything else denotes
    a nonzero real number. *)
Definition nar (n : Z) : Z := - 2 ^ (n - 1).
Definition is_real_takum (n t : Z) : Prop := is_intn n t /\ t <> 0 /\ t <> nar n.

(** The bit string of t, most significant bit first, is padded with zeros on
    the right to at least 12 bits, so that all fields exist. *)
Definition width (n : Z) : Z := Z.max n 12.
Definition padded (n t : Z) : Z := (t mod 2 ^ n) * 2 ^ (width n - n).
(** the [len] bits of [w] starting at bit position [lo] *)
Definition field (w lo len : Z) : Z := (w / 2 ^ lo) mod 2 ^ len.

(** S D RRR C...C M...M *)
Definition S_ (n t : Z) : Z := field (padded n t) (width n - 1) 1.
Definition D_ (n t : Z) : Z := field (padded n t) (width n - 2) 1.
Definition R_ (n t : Z) : Z := field (padded n t) (width n - 5) 3.
Definition r_ (n t : Z) : Z := if D_ n t =? 0 then 7 - R_ n t else R_ n t.
Definition p_ (n t : Z) : Z := width n - 5 - r_ n t.
Definition C_ (n t : Z) : Z := field (padded n t) (p_ n t) (r_ n t).
Definition M_ (n t : Z) : Z := field (padded n t) 0 (p_ n t).
Definition c_ (n t : Z) : Z :=
  if D_ n t =? 0 then - 2 ^ (r_ n t + 1) + 1 + C_ n t
  else 2 ^ r_ n t - 1 + C_ n t.

Local Open Scope R_scope.

Definition m_ (n t : Z) : R := IZR (M_ n t) / IZR (2 ^ p_ n t).

(** (-1)^S *)
Definition sgn (n t : Z) : R := 1 - 2 * IZR (S_ n t).

(** Logarithmic value l = (-1)^S (c + m). *)
Definition l_ (n t : Z) : R := sgn n t * (IZR (c_ n t) + m_ n t).

(** Logarithmic takum: (-1)^S sqrt(e)^l. *)
Definition log_real (n t : Z) : R := sgn n t * exp (l_ n t / 2).

(** Linear takum: ((1 - 3S) + f) 2^e with f = m and e = (-1)^S (c + S). *)
Definition lin_real (n t : Z) : R :=
  ((1 - 3 * IZR (S_ n t)) + m_ n t)
  * powerRZ 2 ((1 - 2 * S_ n t) * (c_ n t + S_ n t)).

(** The real number denoted by a takum; [None] is NaR. *)
Inductive kind := Logarithmic | Linear.
Definition value (k : kind) (n t : Z) : option R :=
  if Z.eq_dec t 0 then Some 0
  else if Z.eq_dec t (nar n) then None
  else Some (match k with Logarithmic => log_real n t | Linear => lin_real n t end).

(** * Coordinates

    Rounding of takums is done on bit strings, i.e. in the coordinate l.  For
    a logarithmic takum of value x the coordinate is 2 ln |x|; for a linear
    one with |x| = (1 + g) 2^h, 0 <= g < 1, it is h + g. *)
Definition log_coord (x : R) : R := 2 * ln (Rabs x).
Definition lin_coord (x : R) : R :=
  let h := (mag radix2 x - 1)%Z in
  IZR h + (Rabs x / bpow radix2 h - 1).
Definition coord (k : kind) : R -> R :=
  match k with Logarithmic => log_coord | Linear => lin_coord end.

(** * Correct rounding

    [nearest n neg L t]: among all n-bit takums denoting nonzero reals of the
    given sign, t is the one whose coordinate is nearest to L; of two equally
    near ones it is the one with an even bit pattern.  As 0 and NaR are not
    candidates this includes saturation. *)
Definition has_sign (neg : bool) (t : Z) : Prop :=
  if neg then (t < 0)%Z else (0 < t)%Z.
Definition nearest (n : Z) (neg : bool) (L : R) (t : Z) : Prop :=
  is_real_takum n t /\ has_sign neg t /\
  forall t', is_real_takum n t' -> has_sign neg t' ->
    Rabs (l_ n t - L) <= Rabs (l_ n t' - L) /\
    (Rabs (l_ n t - L) = Rabs (l_ n t' - L) -> t' = t \/ Z.even t = true).

(** [rounds k n x t]: t is the correct rounding of the real x. *)
Definition rounds (k : kind) (n : Z) (x : R) (t : Z) : Prop :=
  (x = 0 /\ t = 0%Z) \/
  (x <> 0 /\ nearest n (Rlt_bool x 0) (coord k x) t).

(** [faithful n neg L t]: t is a takum of the given sign and no takum of
    that sign has a coordinate between that of t and L (L included), i.e. t is
    one of the at most two takums bracketing L, and L itself if L is a takum. *)
Definition faithful (n : Z) (neg : bool) (L : R) (t : Z) : Prop :=
  is_real_takum n t /\ has_sign neg t /\
  forall t', is_real_takum n t' -> has_sign neg t' ->
    ~ (l_ n t < l_ n t' <= L) /\ ~ (L <= l_ n t' < l_ n t).

(** [rounds_faithfully k n x t]: t is a faithful rounding of the real x. *)
Definition rounds_faithfully (k : kind) (n : Z) (x : R) (t : Z) : Prop :=
  (x = 0 /\ t = 0%Z) \/
  (x <> 0 /\ faithful n (Rlt_bool x 0) (coord k x) t).

(** The values of the C type int64_t. *)
Definition is_int64 (e : Z) : Prop := (- 2 ^ 63 <= e < 2 ^ 63)%Z.

(** [is_root m x y]: y is the real m-th root of x: y^m = x, where y has the
    sign of x (the principal root).  There is no 0-th root, and y^m is
    undefined for m < 0 and y = 0. *)
Definition is_root (m : Z) (x y : R) : Prop :=
  m <> 0%Z /\ ((m < 0)%Z -> y <> 0) /\ powerRZ y m = x /\
  (0 < x -> 0 < y) /\ (x < 0 -> y < 0) /\ (x = 0 -> y = 0).
