(** Model of the integer and logarithmic arithmetic: src/absolute.c, sign.c,
    inversion.c (logarithmic), precision.c, multiplication.c, division.c,
    square_root.c, integer_power.c and root.c (logarithmic parts computing
    with l).  No proofs in this file. *)
From Coq Require Import ZArith List Bool.
From Flocq Require Import IEEE754.BinarySingleNaN.
From Verif Require Import CModel FloatModel Libm WidthConv Codec Conversion.
Import ListNotations.
Local Open Scope Z_scope.

(** takum.h:316-324, TAKUMn_ONE and TAKUM_LINEARn_ONE: the literals 64, 16384,
    1073741824 and 4611686018427387904 are written as powers of two *)
Definition ONE (n : Z) : Z := 2 ^ (n - 2).

(** * absolute.c *)

(** (t < 0) * (-t) + (t >= 0) * t: the operands are promoted to int (n < 32)
    or have their own type; negation, products and sum may overflow; the
    result is converted to intN_t *)
Definition absolute (n t : Z) : outcome Z :=
  let w := Z.max 32 n in
  let! m := s_arith w (- t) in
  let! a := s_arith w (b2z (t <? 0) * m) in
  let! b := s_arith w (b2z (0 <=? t) * t) in
  let! r := s_arith w (a + b) in
  Val (to_s n r).
(** src/absolute.c:6-10 *)
Definition takum8_absolute := absolute 8.
(** src/absolute.c:12-16 *)
Definition takum16_absolute := absolute 16.
(** src/absolute.c:18-22 *)
Definition takum32_absolute := absolute 32.
(** src/absolute.c:24-28 *)
Definition takum64_absolute := absolute 64.
(** src/absolute.c:30-34 *)
Definition takum_linear8_absolute := absolute 8.
(** src/absolute.c:36-40 *)
Definition takum_linear16_absolute := absolute 16.
(** src/absolute.c:42-46 *)
Definition takum_linear32_absolute := absolute 32.
(** src/absolute.c:48-52 *)
Definition takum_linear64_absolute := absolute 64.

(** * sign.c *)

(** the common text of the eight functions *)
Definition sign (n t : Z) : outcome Z :=
  Val (if t =? NaR n then NaR n
       else if t <? 0 then - ONE n
       else if 0 <? t then ONE n else 0).
(** src/sign.c:6-13 *)
Definition takum8_sign := sign 8.
(** src/sign.c:15-22 *)
Definition takum16_sign := sign 16.
(** src/sign.c:24-31 *)
Definition takum32_sign := sign 32.
(** src/sign.c:33-40 *)
Definition takum64_sign := sign 64.
(** src/sign.c:42-49 *)
Definition takum_linear8_sign := sign 8.
(** src/sign.c:51-58 *)
Definition takum_linear16_sign := sign 16.
(** src/sign.c:60-67 *)
Definition takum_linear32_sign := sign 32.
(** src/sign.c:69-76 *)
Definition takum_linear64_sign := sign 64.

(** * inversion.c, logarithmic part *)

(** out.bits = (out.bits ^ 0x7f...) + 1, converted to uintN_t by the
    assignment *)
Definition inversion (n t : Z) : outcome Z :=
  let bits := to_u n (Z.lxor (to_u n t) (2 ^ (n - 1) - 1) + 1) in
  Val (if t =? NaR n then NaR n else to_s n bits).
(** src/inversion.c:6-16 *)
Definition takum8_inversion := inversion 8.
(** src/inversion.c:18-28 *)
Definition takum16_inversion := inversion 16.
(** src/inversion.c:30-40 *)
Definition takum32_inversion := inversion 32.
(** src/inversion.c:42-52 *)
Definition takum64_inversion := inversion 64.

(** * precision.c *)

(** src/precision.c:13-30, the same table as in codec.c *)
Definition precision_p_lut : list Z :=
  [4; 5; 6; 7; 8; 9; 10; 11; 11; 10; 9; 8; 7; 6; 5; 4].

(** src/precision.c:32-53 *)
Definition takum8_precision (t : Z) : outcome Z :=
  if (t =? 0) || (t =? NaR 8) then Val 0
  else
    let! DR := shr_promoted 8 (Z.land (to_u 8 t) 0x78) 3 in
    let! p := lookup precision_p_lut DR in
    Val (to_u 8 (if p <? 8 then 0 else p - 8)).
(** src/precision.c:55-75 *)
Definition takum16_precision (t : Z) : outcome Z :=
  if (t =? 0) || (t =? NaR 16) then Val 4
  else
    let! DR := shr_promoted 16 (Z.land (to_u 16 t) 0x7800) 11 in
    let! p := lookup precision_p_lut DR in
    Val (to_u 8 p).
(** src/precision.c:77-98 *)
Definition takum32_precision (t : Z) : outcome Z :=
  if (t =? 0) || (t =? NaR 32) then Val 20
  else
    let! DR := shr_u 32 (Z.land (to_u 32 t) 0x78000000) 27 in
    let! p := lookup precision_p_lut DR in
    Val (to_u 8 (p + 16)).
(** src/precision.c:100-121 *)
Definition takum64_precision (t : Z) : outcome Z :=
  if (t =? 0) || (t =? NaR 64) then Val 52
  else
    let! DR := shr_u 64 (Z.land (to_u 64 t) 0x7800000000000000) 59 in
    let! p := lookup precision_p_lut DR in
    Val (to_u 8 (p + 48)).
(** src/precision.c:123-128 *)
Definition takum_linear8_precision := takum8_precision.
(** src/precision.c:130-135 *)
Definition takum_linear16_precision := takum16_precision.
(** src/precision.c:137-142 *)
Definition takum_linear32_precision := takum32_precision.
(** src/precision.c:144-149 *)
Definition takum_linear64_precision := takum64_precision.

Section Arith.
Variable pf : platform.
Let L := ld pf.

(** (a > 0) != (b > 0) *)
Definition sign_differs (a b : Z) : bool := negb (Bool.eqb (0 <? a) (0 <? b)).

(** * multiplication.c, logarithmic part *)

(** src/multiplication.c:16-22 *)
Definition takum8_multiplication (a b : Z) : outcome Z :=
  let! la := codec_takum8_to_l a in
  let! lb := codec_takum8_to_l b in
  codec_takum8_from_s_and_l pf (sign_differs a b) (fadd la lb).
(** src/multiplication.c:24-30: the float sum is converted to double *)
Definition takum16_multiplication (a b : Z) : outcome Z :=
  let! la := codec_takum16_to_l a in
  let! lb := codec_takum16_to_l b in
  codec_takum16_from_s_and_l (sign_differs a b) (fcast f64 (fadd la lb)).
(** src/multiplication.c:32-38: the double sum is converted to long double *)
Definition takum32_multiplication (a b : Z) : outcome Z :=
  let! la := codec_takum32_to_l a in
  let! lb := codec_takum32_to_l b in
  codec_takum32_from_s_and_l pf (sign_differs a b) (fcast L (fadd la lb)).
(** src/multiplication.c:40-46 *)
Definition takum64_multiplication (a b : Z) : outcome Z :=
  let! la := codec_takum64_to_l pf a in
  let! lb := codec_takum64_to_l pf b in
  codec_takum64_from_s_and_l pf (sign_differs a b) (fadd la lb).

(** * division.c, logarithmic part *)

(** src/division.c:16-22 *)
Definition takum8_division (a b : Z) : outcome Z :=
  let! la := codec_takum8_to_l a in
  let! lb := codec_takum8_to_l b in
  codec_takum8_from_s_and_l pf (sign_differs a b) (fsub la lb).
(** src/division.c:24-30 *)
Definition takum16_division (a b : Z) : outcome Z :=
  let! la := codec_takum16_to_l a in
  let! lb := codec_takum16_to_l b in
  codec_takum16_from_s_and_l (sign_differs a b) (fcast f64 (fsub la lb)).
(** src/division.c:32-38 *)
Definition takum32_division (a b : Z) : outcome Z :=
  let! la := codec_takum32_to_l a in
  let! lb := codec_takum32_to_l b in
  codec_takum32_from_s_and_l pf (sign_differs a b) (fcast L (fsub la lb)).
(** src/division.c:40-46 *)
Definition takum64_division (a b : Z) : outcome Z :=
  let! la := codec_takum64_to_l pf a in
  let! lb := codec_takum64_to_l pf b in
  codec_takum64_from_s_and_l pf (sign_differs a b) (fsub la lb).

(** * square_root.c, logarithmic part *)

(** src/square_root.c:13-22 *)
Definition takum8_square_root (t : Z) : outcome Z :=
  if t <? 0 then Val (NaR 8)
  else
    let! l := codec_takum8_to_l t in
    codec_takum8_from_s_and_l pf false (fldexp l (-1)).
(** src/square_root.c:24-33 *)
Definition takum16_square_root (t : Z) : outcome Z :=
  if t <? 0 then Val (NaR 16)
  else
    let! l := codec_takum16_to_l t in
    codec_takum16_from_s_and_l false (fcast f64 (fldexp l (-1))).
(** src/square_root.c:35-44 *)
Definition takum32_square_root (t : Z) : outcome Z :=
  if t <? 0 then Val (NaR 32)
  else
    let! l := codec_takum32_to_l t in
    codec_takum32_from_s_and_l pf false (fcast L (fldexp l (-1))).
(** src/square_root.c:46-55 *)
Definition takum64_square_root (t : Z) : outcome Z :=
  if t <? 0 then Val (NaR 64)
  else
    let! l := codec_takum64_to_l pf t in
    codec_takum64_from_s_and_l pf false (fldexp l (-1)).

(** * integer_power.c, logarithmic 8, 16 and 32 bits.  n is an int64_t; n % 2
    truncates towards zero; l * n converts n to the type of l. *)

(** src/integer_power.c:24-33 *)
Definition takum8_integer_power (t n : Z) : outcome Z :=
  if (t =? 0) && (n <=? 0) then Val (NaR 8)
  else
    let! l := codec_takum8_to_l t in
    codec_takum8_from_s_and_l pf ((t <? 0) && negb (Z.rem n 2 =? 0))
      (fmul l (fint f32 n)).
(** src/integer_power.c:35-44 *)
Definition takum16_integer_power (t n : Z) : outcome Z :=
  if (t =? 0) && (n <=? 0) then Val (NaR 16)
  else
    let! l := codec_takum16_to_l t in
    codec_takum16_from_s_and_l ((t <? 0) && negb (Z.rem n 2 =? 0))
      (fcast f64 (fmul l (fint f32 n))).
(** src/integer_power.c:46-55 *)
Definition takum32_integer_power (t n : Z) : outcome Z :=
  if (t =? 0) && (n <=? 0) then Val (NaR 32)
  else
    let! l := codec_takum32_to_l t in
    codec_takum32_from_s_and_l pf ((t <? 0) && negb (Z.rem n 2 =? 0))
      (fcast L (fmul l (fint f64 n))).

(** * root.c, logarithmic part *)

(** the condition of src/root.c:27, 38, 49 and 60 *)
Definition root_nar (t n : Z) : bool :=
  (n =? 0) || ((t <? 0) && (Z.rem n 2 =? 0)) || ((t =? 0) && (n <? 0)).
(** src/root.c:24-33 *)
Definition takum8_root (t n : Z) : outcome Z :=
  if root_nar t n then Val (NaR 8)
  else
    let! l := codec_takum8_to_l t in
    codec_takum8_from_s_and_l pf (t <? 0) (fdiv l (fint f32 n)).
(** src/root.c:35-44 *)
Definition takum16_root (t n : Z) : outcome Z :=
  if root_nar t n then Val (NaR 16)
  else
    let! l := codec_takum16_to_l t in
    codec_takum16_from_s_and_l (t <? 0) (fcast f64 (fdiv l (fint f32 n))).
(** src/root.c:46-55 *)
Definition takum32_root (t n : Z) : outcome Z :=
  if root_nar t n then Val (NaR 32)
  else
    let! l := codec_takum32_to_l t in
    codec_takum32_from_s_and_l pf (t <? 0) (fcast L (fdiv l (fint f64 n))).
(** src/root.c:57-66 *)
Definition takum64_root (t n : Z) : outcome Z :=
  if root_nar t n then Val (NaR 64)
  else
    let! l := codec_takum64_to_l pf t in
    codec_takum64_from_s_and_l pf (t <? 0) (fdiv l (fint L n)).

End Arith.
