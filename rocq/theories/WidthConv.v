(** Model of src/util.c and of the takum-to-takum width conversions of
    src/conversion.c.  No proofs in this file. *)
From Coq Require Import ZArith Bool.
From Verif Require Import CModel.
Local Open Scope Z_scope.

(** src/util.c:8-71, GENERATE_UTIL_ROUND_UINTN_TO_NUMBER_OF_BITS(N):
    util_round_uint{8,16,32,64}_to_number_of_bits, [N] being the macro
    argument.  [input] is a uintN_t, [nb] a uint8_t. *)
Definition util_round_uint_to_number_of_bits (N input nb : Z) : outcome Z :=
  (* rounding_bit_mask = UINTN_C(1) << (N - number_of_bits - 1) *)
  let! m1 := shl_promoted N 1 (N - nb - 1) in
  let rounding_bit_mask := to_u N m1 in
  let rounding_bit := negb (Z.land input rounding_bit_mask =? 0) in
  (* filter_mask = (UINTN_C(1) << (N - number_of_bits)) - 1 *)
  let! m2 := shl_promoted N 1 (N - nb) in
  let filter_mask := to_u N (m2 - 1) in
  let is_tied := Z.land input filter_mask =? rounding_bit_mask in
  (* result = input >> (N - number_of_bits) *)
  let! r := shr_promoted N input (N - nb) in
  (* result += rounding_bit && (!is_tied || (result % 2 == 1)) *)
  Val (to_u N (r + b2z (rounding_bit && (negb is_tied || (r mod 2 =? 1))))).

(** TAKUMn_NAR and TAKUM_LINEARn_NAR, takum.h: INTn_MIN *)
Definition NaR (n : Z) : Z := - 2 ^ (n - 1).

(** src/conversion.c:11-21, TAKUM_INTERNAL_CONVERT_EXPAND(FROM, TO) *)
Definition convert_expand (FROM TO t : Z) : outcome Z :=
  let in_bits := to_u FROM t in
  let! b := shl_promoted TO in_bits (TO - FROM) in
  Val (to_s TO (to_u TO b)).

(** src/conversion.c:23-41, TAKUM_INTERNAL_CONVERT_REDUCE(FROM, TO) *)
Definition convert_reduce (FROM TO t : Z) : outcome Z :=
  let in_bits := to_u FROM t in
  let! r := util_round_uint_to_number_of_bits FROM in_bits TO in
  let out_bits := to_u TO r in
  let out_value := to_s TO out_bits in
  let adj := (b2z ((out_bits =? 0) && negb (in_bits =? 0))
              - b2z ((out_value =? NaR TO) && negb (t =? NaR FROM)))
             * (1 - 2 * b2z (t <? 0)) in
  Val (to_s TO (to_u TO (out_bits + adj))).

(** src/conversion.c:286-302, 329-345, 372-388, 415-431: the logarithmic ones *)
Definition takum16_from_takum8 := convert_expand 8 16.
Definition takum32_from_takum8 := convert_expand 8 32.
Definition takum64_from_takum8 := convert_expand 8 64.
Definition takum8_from_takum16 := convert_reduce 16 8.
Definition takum32_from_takum16 := convert_expand 16 32.
Definition takum64_from_takum16 := convert_expand 16 64.
Definition takum8_from_takum32 := convert_reduce 32 8.
Definition takum16_from_takum32 := convert_reduce 32 16.
Definition takum64_from_takum32 := convert_expand 32 64.
Definition takum8_from_takum64 := convert_reduce 64 8.
Definition takum16_from_takum64 := convert_reduce 64 16.
Definition takum32_from_takum64 := convert_reduce 64 32.

(** src/conversion.c:482-498, 525-541, 568-584, 611-627: the linear ones *)
Definition takum_linear16_from_takum_linear8 := convert_expand 8 16.
Definition takum_linear32_from_takum_linear8 := convert_expand 8 32.
Definition takum_linear64_from_takum_linear8 := convert_expand 8 64.
Definition takum_linear8_from_takum_linear16 := convert_reduce 16 8.
Definition takum_linear32_from_takum_linear16 := convert_expand 16 32.
Definition takum_linear64_from_takum_linear16 := convert_expand 16 64.
Definition takum_linear8_from_takum_linear32 := convert_reduce 32 8.
Definition takum_linear16_from_takum_linear32 := convert_reduce 32 16.
Definition takum_linear64_from_takum_linear32 := convert_expand 32 64.
Definition takum_linear8_from_takum_linear64 := convert_reduce 64 8.
Definition takum_linear16_from_takum_linear64 := convert_reduce 64 16.
Definition takum_linear32_from_takum_linear64 := convert_reduce 64 32.
