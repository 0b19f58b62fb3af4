(** The test programs test/addition.c, subtraction.c, multiplication.c, division.c,
    square_root.c, inversion.c, sign.c, absolute.c and precision.c, for the harness of
    TestHarness.v, on the platform x86-64.  No proofs in this file. *)
From Coq Require Import ZArith List Bool.
From Flocq Require Import IEEE754.BinarySingleNaN.
From Verif Require Import CModel FloatModel Libm Arith Spec Wrappers WrapApi TestHarness.
Local Open Scope Z_scope.

(** test/util.c:242-288 int64_takumN_to_extended_float, int64_takum_linearN_to_extended_float *)
Definition int64_takum_to_extended_float (lm : libm) (k : kind) (w : Wrappers.width) (t : Z) : outcome (flt f80) :=
  match k with
  | Logarithmic => log_to_ld x86_64 lm w (to_s (bits w) t)
  | Linear => lin_to_ld x86_64 w (to_s (bits w) t)
  end.
(** test/util.c:290-336 int64_takumN_from_extended_float, int64_takum_linearN_from_extended_float *)
Definition int64_takum_from_extended_float (lm : libm) (k : kind) (w : Wrappers.width) (f : flt f80) : outcome Z :=
  match k with
  | Logarithmic => log_from_ld x86_64 lm w f
  | Linear => lin_from_ld x86_64 w f
  end.

(** test/util.c:421-508 evaluate_reference_function for functions of one and of two
    takums.  Simplification: the branches for FE_OVERFLOW and for FE_UNDERFLOW with
    the result 0 are left out; they are not taken by the reference functions below,
    whose finite results are 0 or between 2^-600 and 2^600 in magnitude. *)
Definition evaluate_takum (lm : libm) (reference : flt f80 -> flt f80) (k : kind) (w : Wrappers.width) (a : Z) : outcome Z :=
  let! x := int64_takum_to_extended_float lm k w a in
  int64_takum_from_extended_float lm k w (reference x).
Definition evaluate_takum_takum (lm : libm) (reference : flt f80 -> flt f80 -> flt f80) (k : kind) (w : Wrappers.width) (a b : Z) : outcome Z :=
  let! x := int64_takum_to_extended_float lm k w a in
  let! y := int64_takum_to_extended_float lm k w b in
  int64_takum_from_extended_float lm k w (reference x y).
(** test/util.c:467-474: the reference function gets the type, too *)
Definition evaluate_uint8 (lm : libm) (reference : flt f80 -> kind -> Wrappers.width -> outcome Z) (k : kind) (w : Wrappers.width) (a : Z) : outcome Z :=
  let! x := int64_takum_to_extended_float lm k w a in reference x k w.

(** test/addition.c:7-27, test/subtraction.c:7-27, test/multiplication.c:7-27,
    test/division.c:7-27 *)
Definition addition_utb (lm : libm) : unit_test_block :=
  TAKUM_TAKUM_TAKUM (evaluate_takum_takum lm fadd) (fun k w => api_binary k lm n_addition w).
Definition subtraction_utb (lm : libm) : unit_test_block :=
  TAKUM_TAKUM_TAKUM (evaluate_takum_takum lm fsub) (fun k w => api_binary k lm n_subtraction w).
Definition multiplication_utb (lm : libm) : unit_test_block :=
  TAKUM_TAKUM_TAKUM (evaluate_takum_takum lm fmul) (fun k w => api_binary k lm n_multiplication w).
Definition division_utb (lm : libm) : unit_test_block :=
  TAKUM_TAKUM_TAKUM (evaluate_takum_takum lm fdiv) (fun k w => api_binary k lm n_division w).

(** test/square_root.c:7-27, test/inversion.c:7-27 *)
Definition square_root_utb (lm : libm) : unit_test_block :=
  TAKUM_TAKUM (evaluate_takum lm fsqrt) (fun k w =>
    match k, w with
    | Logarithmic, W8 => takum8_square_root x86_64
    | Logarithmic, W16 => takum16_square_root
    | Logarithmic, W32 => takum32_square_root x86_64
    | Logarithmic, W64 => takum64_square_root x86_64
    | Linear, w => takum_linear_square_root x86_64 w
    end).
Definition inversion_utb (lm : libm) : unit_test_block :=
  TAKUM_TAKUM (evaluate_takum lm (fdiv (one f80))) (fun k w =>
    match k with
    | Logarithmic => inversion (bits w)
    | Linear => takum_linear_inversion x86_64 w
    end).

(** test/sign.c:7-31 *)
Definition sign_reference (a : flt f80) : flt f80 :=
  if fisfinite a then if feq a (fzero f80) then fzero f80 else if fgt a (fzero f80) then one f80 else fneg (one f80)
  else fnan f80.
Definition sign_utb (lm : libm) : unit_test_block :=
  TAKUM_TAKUM (evaluate_takum lm sign_reference) (fun _ w => sign (bits w)).

(** test/absolute.c:7-31 *)
Definition absolute_reference (a : flt f80) : flt f80 :=
  if fisfinite a then if flt_ a (fzero f80) then fneg a else a else fnan f80.
Definition absolute_utb (lm : libm) : unit_test_block :=
  TAKUM_TAKUM (evaluate_takum lm absolute_reference) (fun _ w => absolute (bits w)).

(** test/precision.c:9-95; n - 12, n - 5 and r have the type int in comparisons and
    the results are converted to uint8_t *)
Definition precision_reference (lm : libm) (a : flt f80) (k : kind) (w : Wrappers.width) : outcome Z :=
  if negb (fisfinite a) || feq a (fzero f80) then
    Val (if bits w <? 12 then 0 else to_u 8 (bits w - 12))
  else
    let! t := int64_takum_from_extended_float lm k w a in
    let! bits_ := match w with W64 => Val (to_u 64 t) | _ => shl_u 64 (to_u 64 t) (64 - bits w) end in
    let! b := shr_u 64 bits_ 48 in
    let prefix := to_u 16 (Z.land b 0xffff) in
    let! R := shr_promoted 16 (Z.land prefix 0x3800) 11 in
    let R := to_u 8 R in
    let r := if Z.land prefix 0x4000 =? 0 then 7 - R else R in
    Val (if bits w - 5 <? to_u 8 r then 0 else to_u 8 (bits w - 5 - to_u 8 r)).
Definition precision_utb (lm : libm) : unit_test_block :=
  TAKUM_UINT8 (evaluate_uint8 lm (precision_reference lm)) (fun _ w =>
    match w with
    | W8 => takum8_precision | W16 => takum16_precision | W32 => takum32_precision | W64 => takum64_precision
    end).

(** test/addition.c:29-36 main, and the same in the other programs: the exit status *)
Definition test_main (utb : unit_test_block) (result : Z) : Prop := run_unit_test_block utb result.
