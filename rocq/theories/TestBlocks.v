(** The test programs test/codec.c and test/conversion.c, for the harness of
    TestHarness.v, on the platform x86-64.  No proofs in this file. *)
From Coq Require Import ZArith List Bool.
From Flocq Require Import Core.Core IEEE754.BinarySingleNaN.
From Verif Require Import CModel FloatModel Codec Libm LinApi Conversion Spec Wrappers WrapApi TestHarness.
Local Open Scope Z_scope.

(** test/codec.c:10-32 takumN_codec_roundtrip; the result of to_l is converted to
    the type of from_s_and_l's parameter by the call *)
Definition takum8_codec_roundtrip (t : Z) : outcome Z :=
  let! l := codec_takum8_to_l t in codec_takum8_from_s_and_l x86_64 (t <? 0) l.
Definition takum16_codec_roundtrip (t : Z) : outcome Z :=
  let! l := codec_takum16_to_l t in codec_takum16_from_s_and_l (t <? 0) (fcast f64 l).
Definition takum32_codec_roundtrip (t : Z) : outcome Z :=
  let! l := codec_takum32_to_l t in codec_takum32_from_s_and_l x86_64 (t <? 0) (fcast f80 l).
Definition takum64_codec_roundtrip (t : Z) : outcome Z :=
  let! l := codec_takum64_to_l x86_64 t in codec_takum64_from_s_and_l x86_64 (t <? 0) l.

(** test/codec.c:34-57 and test/conversion.c:27-43 *)
Definition takum_linear8_float64_roundtrip (t : Z) : outcome Z :=
  let! f := takum_linear8_to_float64 x86_64 t in takum_linear8_from_float64 x86_64 f.
Definition takum_linear16_float64_roundtrip (t : Z) : outcome Z :=
  let! f := takum_linear16_to_float64 x86_64 t in takum_linear16_from_float64 x86_64 f.
Definition takum_linear32_float64_roundtrip (t : Z) : outcome Z :=
  let! f := takum_linear32_to_float64 x86_64 t in takum_linear32_from_float64 x86_64 f.
Definition takum_linear64_codec_roundtrip (t : Z) : outcome Z :=
  let! f := takum_linear64_to_extended_float x86_64 t in takum_linear64_from_extended_float x86_64 f.

(** test/codec.c:59-72 codec_utb *)
Definition codec_utb : unit_test_block := ROUNDTRIP (fun k w =>
  match k, w with
  | Logarithmic, W8 => Some takum8_codec_roundtrip
  | Logarithmic, W16 => Some takum16_codec_roundtrip
  | Logarithmic, W32 => Some takum32_codec_roundtrip
  | Logarithmic, W64 => Some takum64_codec_roundtrip
  | Linear, W8 => Some takum_linear8_float64_roundtrip
  | Linear, W16 => Some takum_linear16_float64_roundtrip
  | Linear, W32 => Some takum_linear32_float64_roundtrip
  | Linear, W64 => Some takum_linear64_codec_roundtrip
  end).

(** test/conversion.c:9-25 takumN_conversion_float64_roundtrip *)
Definition takum8_conversion_float64_roundtrip lm (t : Z) : outcome Z :=
  let! f := takum8_to_float64 x86_64 lm t in takum8_from_float64 x86_64 lm f.
Definition takum16_conversion_float64_roundtrip lm (t : Z) : outcome Z :=
  let! f := takum16_to_float64 x86_64 lm t in takum16_from_float64 x86_64 lm f.
Definition takum32_conversion_float64_roundtrip lm (t : Z) : outcome Z :=
  let! f := takum32_to_float64 x86_64 lm t in takum32_from_float64 x86_64 lm f.

(** test/conversion.c:45-58 conversion_float64_utb *)
Definition conversion_float64_utb (lm : libm) : unit_test_block := ROUNDTRIP (fun k w =>
  match k, w with
  | Logarithmic, W8 => Some (takum8_conversion_float64_roundtrip lm)
  | Logarithmic, W16 => Some (takum16_conversion_float64_roundtrip lm)
  | Logarithmic, W32 => Some (takum32_conversion_float64_roundtrip lm)
  | Logarithmic, W64 => None
  | Linear, W8 => Some takum_linear8_float64_roundtrip
  | Linear, W16 => Some takum_linear16_float64_roundtrip
  | Linear, W32 => Some takum_linear32_float64_roundtrip
  | Linear, W64 => None
  end).

(** test/conversion.c:60-110 takumN_conversion_extended_float_roundtrip and
    takum_linearN_conversion_extended_float_roundtrip *)
Definition takum8_conversion_extended_float_roundtrip lm (t : Z) : outcome Z :=
  let! f := takum8_to_extended_float x86_64 lm t in takum8_from_extended_float x86_64 lm f.
Definition takum16_conversion_extended_float_roundtrip lm (t : Z) : outcome Z :=
  let! f := takum16_to_extended_float x86_64 lm t in takum16_from_extended_float x86_64 lm f.
Definition takum32_conversion_extended_float_roundtrip lm (t : Z) : outcome Z :=
  let! f := takum32_to_extended_float x86_64 lm t in takum32_from_extended_float x86_64 lm f.
Definition takum64_conversion_extended_float_roundtrip lm (t : Z) : outcome Z :=
  let! f := takum64_to_extended_float x86_64 lm t in takum64_from_extended_float x86_64 lm f.
Definition takum_linear8_conversion_extended_float_roundtrip (t : Z) : outcome Z :=
  let! f := takum_linear8_to_extended_float x86_64 t in takum_linear8_from_extended_float x86_64 f.
Definition takum_linear16_conversion_extended_float_roundtrip (t : Z) : outcome Z :=
  let! f := takum_linear16_to_extended_float x86_64 t in takum_linear16_from_extended_float x86_64 f.
Definition takum_linear32_conversion_extended_float_roundtrip (t : Z) : outcome Z :=
  let! f := takum_linear32_to_extended_float x86_64 t in takum_linear32_from_extended_float x86_64 f.

(** test/conversion.c:112-125 conversion_extended_float_utb *)
Definition conversion_extended_float_utb (lm : libm) : unit_test_block := ROUNDTRIP (fun k w =>
  match k, w with
  | Logarithmic, W8 => Some (takum8_conversion_extended_float_roundtrip lm)
  | Logarithmic, W16 => Some (takum16_conversion_extended_float_roundtrip lm)
  | Logarithmic, W32 => Some (takum32_conversion_extended_float_roundtrip lm)
  | Logarithmic, W64 => Some (takum64_conversion_extended_float_roundtrip lm)
  | Linear, W8 => Some takum_linear8_conversion_extended_float_roundtrip
  | Linear, W16 => Some takum_linear16_conversion_extended_float_roundtrip
  | Linear, W32 => Some takum_linear32_conversion_extended_float_roundtrip
  | Linear, W64 => Some takum_linear64_codec_roundtrip
  end).

(** test/conversion.c:130-138: the double with the bits of t (the union); the
    reverse direction of [image] *)
Definition finite_double (s : bool) (m e : Z) : flt f64 :=
  match m with
  | Zpos p => match bool_dec (SpecFloat.bounded 53 1024 p e) true with
              | left H => B754_finite s p e H
              | right _ => B754_nan
              end
  | _ => B754_zero s
  end.
Definition double_of_bits (t : Z) : flt f64 :=
  let u := to_u 64 t in
  let s := 2 ^ 63 <=? u in let e := u / 2 ^ 52 mod 2 ^ 11 in let m := u mod 2 ^ 52 in
  if e =? 2 ^ 11 - 1 then (if m =? 0 then B754_infinity s else B754_nan)
  else if e =? 0 then finite_double s m (-1074)
  else finite_double s (m + 2 ^ 52) (e - 1075).

(** test/conversion.c:127-160 float64_conversion_takum_linear64_roundtrip; exp2(255)
    and exp2(-255) are taken to be the powers of two *)
Definition float64_conversion_takum_linear64_roundtrip (t : Z) : outcome Z :=
  let f := double_of_bits t in
  if negb (fisfinite f) || fge (ffabs f) (fconst f64 1 255) || fle (ffabs f) (fconst f64 1 (-255))
  then Val t
  else
    let! x := takum_linear64_from_float64 x86_64 f in
    let! y := takum_linear64_to_float64 x86_64 x in
    Val (to_s 64 (image y)).

(** test/conversion.c:162-175 conversion_float64_full_utb *)
Definition conversion_float64_full_utb : unit_test_block := ROUNDTRIP (fun k w =>
  match k, w with
  | Linear, W64 => Some float64_conversion_takum_linear64_roundtrip
  | _, _ => None
  end).

(** test/codec.c:74-81 and test/conversion.c:177-186 main: the exit status, as the
    int that main returns *)
Definition test_codec (result : Z) : Prop := run_unit_test_block codec_utb result.
Definition test_conversion (lm : libm) (result : Z) : Prop :=
  exists r1 r2 r3, run_unit_test_block (conversion_float64_utb lm) r1 /\
    run_unit_test_block (conversion_extended_float_utb lm) r2 /\
    run_unit_test_block conversion_float64_full_utb r3 /\ result = r1 + r2 + r3.
