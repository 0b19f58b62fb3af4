(** Properties C36 and C90: platforms.  Theorems only; proofs are in
    Platforms.v and PlatDec.v. *)
From Coq Require Import ZArith Reals Bool Lia Lra.
From Flocq Require Import Core.Core IEEE754.BinarySingleNaN.
From Verif Require Import CModel FloatModel Codec Conversion Spec FloatSpec FloatFacts Platforms PlatSpec PlatDec.
Local Open Scope R_scope.

(** C36: encoding works on the three long double formats the code has branches
    for.  False: where long double has 53 or 113 bits (both structs), a shift
    by -1 is reached. *)
Theorem C36_portability_refuted :
  forall pf (f : flt f64) e, ld pf = f64 \/ ld pf = f128 -> is_finite f = true -> (-254 <= e <= 253)%Z ->
    3 / 2 * bpow radix2 e <= B2R f <= 7 / 4 * bpow radix2 e ->
    takum_linear32_from_float64 pf f = UB /\ takum_linear64_from_float64 pf f = UB.
Proof. exact platform_ub. Qed.
Print Assumptions C36_portability_refuted.
(** where it has 64 bits, but __BYTE_ORDER is defined and not equal to
    __BIG_ENDIAN, the wrong bytes are read: the result for 3/2 is not the one
    of the other struct, which is the correct one (C11) *)
Theorem C36_struct_layout_refuted :
  exists t, takum_linear64_from_float64 {| ld := f80; big_endian_struct := false |} (fconst f64 3 (-1)) = Val t /\
    takum_linear64_from_float64 x86_64 (fconst f64 3 (-1)) <> Val t.
Proof. exact struct_wrong. Qed.
Print Assumptions C36_struct_layout_refuted.
Example C36_case : is_finite (fconst f64 13 (-3)) = true /\ 3 / 2 * bpow radix2 0 <= B2R (fconst f64 13 (-3)) <= 7 / 4 * bpow radix2 0.
Proof.
  split; [vm_compute; reflexivity|]. assert (isf (fconst f64 13 (-3)) (IZR 13 * bpow radix2 (-3))) as [_ ->].
  - apply isf_fconst; [apply FF_dyadic; vm_compute; discriminate|]. rewrite Rabs_pos_eq by (cbn; lra). apply Rlt_trans with (bpow radix2 1); [cbn; lra|apply bpow_lt; vm_compute; reflexivity].
  - cbn. lra.
Qed.
(** where it has 53 or 113 bits and the shift is not negative, the fraction is
    doubled: 5/4 becomes 3/2 *)
Theorem C36_quietly_wrong_refuted :
  (let! t := takum_linear32_from_float64 pf53 (fconst f64 5 (-2)) in takum_linear32_to_float64 pf53 t) = Val (fconst f64 3 (-1)) /\
  (let! t := takum_linear32_from_float64 pf113 (fconst f64 5 (-2)) in takum_linear32_to_float64 pf113 t) = Val (fconst f64 3 (-1)) /\
  (let! t := takum_linear64_from_float64 pf113 (fconst f64 5 (-2)) in takum_linear64_to_float64 pf113 t) = Val (fconst f64 3 (-1)) /\
  (let! t := takum_linear64_from_float64 x86_64 (fconst f64 5 (-2)) in takum_linear64_to_float64 x86_64 t) = Val (fconst f64 5 (-2)).
Proof. exact quietly_wrong. Qed.
Print Assumptions C36_quietly_wrong_refuted.
(** and where it has 53 bits, every linear takum64 is turned into NaN *)
Theorem C36_takum64_nan_refuted :
  forall pf t, ld pf = f64 ->
    takum_linear64_to_float64 pf t = Val B754_nan /\
    takum_linear64_to_float32 pf t = Val B754_nan /\
    takum_linear64_to_extended_float pf t = Val B754_nan.
Proof. exact linear64_53_nan. Qed.
Print Assumptions C36_takum64_nan_refuted.

(** C90: conversions from linear takums work on all three formats: to float32
    and float64 they deliver what they deliver on x86-64, to long double the
    number itself; takum64 needs a long double of at least 64 bits *)
Theorem C90_linear_to_float_portable :
  forall pf t, wide pf ->
    (is_intn 8 t -> takum_linear8_to_float64 pf t = takum_linear8_to_float64 x86_64 t /\
                    takum_linear8_to_float32 pf t = takum_linear8_to_float32 x86_64 t) /\
    (is_intn 16 t -> takum_linear16_to_float64 pf t = takum_linear16_to_float64 x86_64 t /\
                     takum_linear16_to_float32 pf t = takum_linear16_to_float32 x86_64 t) /\
    (is_intn 32 t -> takum_linear32_to_float64 pf t = takum_linear32_to_float64 x86_64 t /\
                     takum_linear32_to_float32 pf t = takum_linear32_to_float32 x86_64 t) /\
    (ld pf <> f64 -> is_intn 64 t ->
     takum_linear64_to_float64 pf t = takum_linear64_to_float64 x86_64 t /\
     takum_linear64_to_float32 pf t = takum_linear64_to_float32 x86_64 t).
Proof. exact to_float_portable. Qed.
Print Assumptions C90_linear_to_float_portable.
Theorem C90_linear_to_long_double_portable :
  forall pf t, wide pf ->
    (is_intn 8 t -> denotes 8 t (takum_linear8_to_extended_float pf t)) /\
    (is_intn 16 t -> denotes 16 t (takum_linear16_to_extended_float pf t)) /\
    (is_intn 32 t -> denotes 32 t (takum_linear32_to_extended_float pf t)) /\
    (ld pf <> f64 -> is_intn 64 t -> denotes 64 t (takum_linear64_to_extended_float pf t)).
Proof. exact to_extended_portable. Qed.
Print Assumptions C90_linear_to_long_double_portable.
Example C90_case : wide pf113 /\ wide pf53 /\ ld pf113 <> f64 /\ is_intn 64 (-0x7123456789abcdef) /\ is_intn 32 0x5123 /\
  match takum_linear64_to_float64 pf113 0x5123456789abcdef with
  | Val y => B2SF y <> B2SF (fconst f64 0 0) | UB => False end.
Proof.
  split; [right; right; reflexivity|]. split; [left; reflexivity|]. split; [discriminate|]. split; [vm_compute; split; discriminate || reflexivity|].
  split; [vm_compute; split; discriminate || reflexivity|]. vm_compute. discriminate.
Qed.
