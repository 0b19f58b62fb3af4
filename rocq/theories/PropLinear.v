(** Properties C01, C02, C08, C09, C11 - C14 and C43 - C45: conversions
    between linear takums and floats, and the part of C10 about linear takums.
    Theorems only; proofs are in LinProps.v and LinRefute.v. *)
From Coq Require Import ZArith Reals Bool.
From Flocq Require Import Core.Core IEEE754.BinarySingleNaN.
From Verif Require Import CModel FloatModel Spec FloatSpec Conversion LinApi LinProps LinRefute.
Local Open Scope Z_scope.

(** C01: the conversion to a float that can hold all linear takums of n bits
    is exact *)
Theorem C01_linear_to_float_exact :
  forall n F h t, linear_to_float n F h -> (F = f80 \/ (F = f64 /\ n <> 64)) -> is_intn n t ->
    exists y, h t = Val y /\
      match value Linear n t with Some x => float_is x y | None => y = B754_nan end.
Proof. exact lin_to_exact. Qed.
Print Assumptions C01_linear_to_float_exact.
Example C01_case : linear_to_float 64 f80 (takum_linear64_to_extended_float x86_64) /\
  linear_to_float 16 f64 (takum_linear16_to_float64 x86_64) /\
  is_intn 64 (-0x7123456789abcdef) /\ is_intn 16 0x7fff.
Proof. split; [constructor|split; [constructor|split; split; vm_compute; discriminate || reflexivity]]. Qed.
Example C01_value : match takum_linear16_to_float64 x86_64 0x5123 with
  | Val y => B2SF y = B2SF (fconst f64 (0x200 + 0x123) (-6)) | UB => False end.
Proof. vm_compute. reflexivity. Qed.

(** C02: all other conversions to floats but that from linear64 to float32
    round correctly; 0 becomes +0 and NaR becomes NaN *)
Theorem C02_linear_to_float_correctly_rounded :
  forall n F h t, linear_to_float n F h -> ~ (n = 64 /\ F = f32) -> is_intn n t ->
    exists y, h t = Val y /\
      match value Linear n t with
      | Some x => if Req_bool x 0 then y = B754_zero false else ieee_rounds x y
      | None => y = B754_nan
      end.
Proof. exact lin_to_rounded. Qed.
Print Assumptions C02_linear_to_float_correctly_rounded.
(** a takum beyond the range of float32 and one with more digits *)
Example C02_case : linear_to_float 32 f32 (takum_linear32_to_float32 x86_64) /\
  is_intn 32 0x7f000000 /\
  takum_linear32_to_float32 x86_64 0x7f000000 = Val (B754_infinity false).
Proof. split; [constructor|]. split; [vm_compute; split; discriminate || reflexivity|vm_compute; reflexivity]. Qed.

(** C44: takum_linear64_to_float32 rounds twice, via float64 *)
Theorem C44_linear64_to_float32_rounds_via_float64 :
  forall t x, is_real_takum 64 t -> value Linear 64 t = Some x ->
    exists y, takum_linear64_to_float32 x86_64 t = Val y /\ ieee_rounds (round_to f64 x) y.
Proof. exact lin64_to_f32. Qed.
Print Assumptions C44_linear64_to_float32_rounds_via_float64.
Theorem C44_linear64_to_float32_refuted :
  exists t x y, is_real_takum 64 t /\ value Linear 64 t = Some x /\
    takum_linear64_to_float32 x86_64 t = Val y /\ ~ ieee_rounds x y.
Proof. exact lin64_f32_refuted. Qed.
Print Assumptions C44_linear64_to_float32_refuted.

(** C08: a linear takum survives the trip through a float that can hold it *)
Theorem C08_linear_takum_float_round_trip :
  forall n F g h t, linear_from_float n F g -> linear_to_float n F h ->
    (F = f80 \/ (F = f64 /\ n <> 64)) -> is_intn n t ->
    (let! y := h t in g y) = Val t.
Proof. exact lin_trip. Qed.
Print Assumptions C08_linear_takum_float_round_trip.
Example C08_case : linear_from_float 64 f80 (takum_linear64_from_extended_float x86_64) /\
  linear_to_float 64 f80 (takum_linear64_to_extended_float x86_64) /\
  (let! y := takum_linear64_to_extended_float x86_64 0x4123456789abcdef in
   takum_linear64_from_extended_float x86_64 y) = Val 0x4123456789abcdef.
Proof. split; [constructor|split; [constructor|vm_compute; reflexivity]]. Qed.

(** C09: float64 and float32 survive the trip through linear64 *)
Theorem C09_float_linear64_round_trip :
  forall F g h (f : flt F), (F = f32 \/ F = f64) -> linear_from_float 64 F g -> linear_to_float 64 F h ->
    is_finite f = true -> (bpow radix2 (-255) < Rabs (B2R f) < bpow radix2 255)%R ->
    (let! t := g f in h t) = Val f.
Proof. exact lin64_trip. Qed.
Print Assumptions C09_float_linear64_round_trip.
Theorem C09_float32_linear64_round_trip :
  forall g h (f : flt f32), linear_from_float 64 f32 g -> linear_to_float 64 f32 h ->
    is_finite f = true -> B2R f <> 0%R -> (let! t := g f in h t) = Val f.
Proof. exact lin64_trip_f32. Qed.
Print Assumptions C09_float32_linear64_round_trip.
Theorem C09_float32_linear32_round_trip :
  forall g h (f : flt f32), linear_from_float 32 f32 g -> linear_to_float 32 f32 h ->
    is_finite f = true -> (bpow radix2 (-31) < Rabs (B2R f) < bpow radix2 31)%R ->
    (let! t := g f in h t) = Val f.
Proof. exact lin32_trip_f32. Qed.
Print Assumptions C09_float32_linear32_round_trip.
Example C09_case : linear_from_float 64 f64 (takum_linear64_from_float64 x86_64) /\
  linear_to_float 64 f64 (takum_linear64_to_float64 x86_64) /\
  is_finite (fconst f64 0x1123456789abcd (-10)) = true /\
  takum_linear64_from_float64 x86_64 (fconst f64 0x1123456789abcd (-10)) = Val 7693429187442814772.
Proof. split; [constructor|split; [constructor|split; vm_compute; reflexivity]]. Qed.

(** C10, linear part: the special floats give the special takums, nothing
    else does, and the sign is kept *)
Theorem C10_linear_from_float_specials :
  forall n F g (f : flt F), linear_from_float n F g ->
    exists t, g f = Val t /\ is_intn n t /\
      (t = 0 <-> exists s, f = B754_zero s) /\ (t = nar n <-> is_finite f = false) /\
      (is_finite f = true -> (t < 0 <-> (B2R f < 0)%R) /\ (0 < t <-> (0 < B2R f)%R)).
Proof. exact lin_from_specials. Qed.
Print Assumptions C10_linear_from_float_specials.
(** the smallest float64 and an infinity *)
Example C10_case : linear_from_float 8 f64 (takum_linear8_from_float64 x86_64) /\
  takum_linear8_from_float64 x86_64 (fconst f64 1 (-1074)) = Val 1 /\
  takum_linear8_from_float64 x86_64 (B754_infinity true) = Val (nar 8).
Proof. split; [constructor|split; [constructor|vm_compute; reflexivity]]. Qed.

(** C11: float32 and float64 to linear32 and linear64 *)
Theorem C11_linear_from_float_correctly_rounded :
  forall n F g (f : flt F), linear_from_float n F g -> (n = 32 \/ n = 64) -> (F = f32 \/ F = f64) ->
    is_finite f = true -> exists t, g f = Val t /\ is_intn n t /\ rounds Linear n (B2R f) t.
Proof. exact lin_from_correct. Qed.
Print Assumptions C11_linear_from_float_correctly_rounded.
(** an inexact conversion, a tie, saturation *)
Example C11_case : linear_from_float 32 f64 (takum_linear32_from_float64 x86_64) /\
  takum_linear32_from_float64 x86_64 (fconst f64 0x1123456789abcd (-52)) = Val 0x4091a2b4 /\
  takum_linear32_from_float64 x86_64 (fconst f64 (2 ^ 27 * 2 + 1) (-28)) = Val 0x40000000 /\
  takum_linear32_from_float64 x86_64 (fconst f64 (-1) 1000) = Val (-0x7fffffff).
Proof. split; [constructor|vm_compute; auto 10]. Qed.

(** C12: float32 and float64 to linear8 and linear16 are not correctly
    rounded ... *)
Theorem C12_linear_from_float_refuted :
  forall n F g, linear_from_float n F g -> n <= 16 -> (F = f32 \/ F = f64) ->
    exists f t, is_finite f = true /\ g f = Val t /\ ~ rounds Linear n (B2R f) t.
Proof. exact (fun n F g H Hn _ => lin_from_refuted n F g H (or_introl Hn)). Qed.
Print Assumptions C12_linear_from_float_refuted.
(** ... but round a number that is, in the coordinate, off by a factor of at most
    1 + 2^-24.  Missing: the number rounded is the argument itself. *)
Theorem C12_linear_from_float_partial :
  forall n F g (f : flt F), linear_from_float n F g -> n <= 16 -> (F = f32 \/ F = f64) ->
    is_finite f = true -> B2R f <> 0%R ->
    exists t L, g f = Val t /\ nearest n (Rlt_bool (B2R f) 0) L t /\
      (Rabs (L - lin_coord (B2R f)) <= bpow radix2 (-24) * Rabs (lin_coord (B2R f)))%R.
Proof. exact lin_from_error_8_16. Qed.
Print Assumptions C12_linear_from_float_partial.
Example C12_case : linear_from_float 16 f64 (takum_linear16_from_float64 x86_64) /\
  is_finite (fconst f64 0x1123456789abcd (-52)) = true /\
  takum_linear16_from_float64 x86_64 (fconst f64 0x1123456789abcd (-52)) = Val 0x4092.
Proof. split; [constructor|vm_compute; auto 10]. Qed.

(** C43: the same for long double to linear takums of all widths *)
Theorem C43_linear_from_extended_refuted :
  forall n g, linear_from_float n f80 g ->
    exists f t, is_finite f = true /\ g f = Val t /\ ~ rounds Linear n (B2R f) t.
Proof. exact (fun n g H => lin_from_refuted n f80 g H (or_intror eq_refl)). Qed.
Print Assumptions C43_linear_from_extended_refuted.
(** Missing: widths 8 and 16, and that the number rounded is the argument itself. *)
Theorem C43_linear_from_extended_partial :
  forall n g (f : flt f80), linear_from_float n f80 g -> 32 <= n ->
    is_finite f = true -> B2R f <> 0%R ->
    exists t L, g f = Val t /\ nearest n (Rlt_bool (B2R f) 0) L t /\
      (Rabs (L - lin_coord (B2R f)) <= bpow radix2 (-64) * Rabs (lin_coord (B2R f)))%R.
Proof. exact lin_from_error_f80. Qed.
Print Assumptions C43_linear_from_extended_partial.
Example C43_case : linear_from_float 64 f80 (takum_linear64_from_extended_float x86_64) /\
  is_finite (fconst f80 (2 ^ 63 + 12345678) (-63)) = true /\
  takum_linear64_from_extended_float x86_64 (fconst f80 (2 ^ 63 + 12345678) (-63)) = Val (2 ^ 62 + 771605).
Proof. split; [constructor|vm_compute; auto 10]. Qed.

(** C13: all conversions from floats are monotone and faithful *)
Theorem C13_linear_from_float_monotone :
  forall n F g (f1 f2 : flt F) t1 t2, linear_from_float n F g ->
    is_finite f1 = true -> is_finite f2 = true -> (B2R f1 <= B2R f2)%R ->
    g f1 = Val t1 -> g f2 = Val t2 -> t1 <= t2.
Proof. exact lin_from_mono. Qed.
Print Assumptions C13_linear_from_float_monotone.
Theorem C13_linear_from_float_faithful :
  forall n F g (f : flt F), linear_from_float n F g -> is_finite f = true ->
    exists t, g f = Val t /\ is_intn n t /\ rounds_faithfully Linear n (B2R f) t.
Proof. exact lin_from_faithful. Qed.
Print Assumptions C13_linear_from_float_faithful.
Example C13_case : linear_from_float 16 f80 (takum_linear16_from_extended_float x86_64) /\
  takum_linear16_from_extended_float x86_64 (fconst f80 (2 ^ 63 + 12345678) (-63)) = Val 0x4000 /\
  takum_linear16_from_extended_float x86_64 (fconst f80 (2 ^ 63 + 2 ^ 51 + 2 ^ 3) (-63)) = Val 0x4001.
Proof. split; [constructor|vm_compute; auto 10]. Qed.

(** C14: all of them but takum_linear16_from_extended_float are odd *)
Theorem C14_linear_from_float_odd :
  forall n F g (f : flt F) t, linear_from_float n F g -> ~ (n = 16 /\ F = f80) -> is_finite f = true ->
    g f = Val t -> g (fneg f) = Val (- t).
Proof. exact lin_from_odd. Qed.
Print Assumptions C14_linear_from_float_odd.
Example C14_case : linear_from_float 8 f32 (takum_linear8_from_float32 x86_64) /\
  takum_linear8_from_float32 x86_64 (fconst f32 0x123456 (-18)) = Val 0x4d /\
  takum_linear8_from_float32 x86_64 (fconst f32 (-0x123456) (-18)) = Val (-0x4d).
Proof. split; [constructor|vm_compute; auto 10]. Qed.
Theorem C45_linear16_from_extended_odd_refuted :
  exists (f : flt f80) t, is_finite f = true /\
    takum_linear16_from_extended_float x86_64 f = Val t /\
    takum_linear16_from_extended_float x86_64 (fneg f) <> Val (- t).
Proof. exact lin16_f80_odd_refuted. Qed.
Print Assumptions C45_linear16_from_extended_odd_refuted.
