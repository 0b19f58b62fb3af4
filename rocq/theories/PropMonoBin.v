(** Property C80: monotone conversions and functions of two arguments.
    Theorems only; proofs are in MonoBin.v, MonoBin2.v and MonoIdeal.v. *)
From Coq Require Import ZArith Reals Bool Lia Lra.
From Flocq Require Import Core.Core IEEE754.BinarySingleNaN.
From Verif Require Import CModel FloatModel Conversion Libm LibmSpec Spec Wrappers LibmIdeal ValueFacts WidthFacts WidthApi LogApi WrapApi LinArithRefute KindConv MonoSpec MonoBin MonoBin2 MonoIdeal.
Local Open Scope R_scope.

(** With a library of monotone functions (C79), conversions never reverse an
    order: from logarithmic takums to floats of every format, ... *)
Theorem C80_log_to_float_monotone :
  forall lm n F h s t, c99 lm -> monotone lm -> log_to_float lm n F h -> is_intn n s -> is_intn n t -> s <> nar n -> (s <= t)%Z ->
    exists y z, h s = Val y /\ h t = Val z /\ fle y z = true.
Proof. exact log_to_mono. Qed.
Print Assumptions C80_log_to_float_monotone.
(** ... from logarithmic to linear takums and back *)
Theorem C80_log_to_linear_monotone :
  forall lm n m f s t r q, c99 lm -> monotone lm -> log_to_linear lm n m f -> is_intn n s -> is_intn n t -> s <> nar n -> (s <= t)%Z ->
    f s = Val r -> f t = Val q -> (r <= q)%Z.
Proof. exact log_to_linear_mono. Qed.
Print Assumptions C80_log_to_linear_monotone.
Theorem C80_linear_to_log_monotone :
  forall lm n m f s t r q, c99 lm -> monotone lm -> linear_to_log lm n m f -> is_intn n s -> is_intn n t -> s <> nar n -> (s <= t)%Z ->
    f s = Val r -> f t = Val q -> (r <= q)%Z.
Proof. exact linear_to_log_mono. Qed.
Print Assumptions C80_linear_to_log_monotone.

(** sums and differences of logarithmic takums; those of linear takums are
    monotone whatever the library (C48) *)
Theorem C80_log_addition_monotone :
  forall lm, c99 lm -> monotone lm -> forall w a b c,
    is_intn (bits w) a -> is_intn (bits w) b -> is_intn (bits w) c -> a <> nar (bits w) -> c <> nar (bits w) -> (a <= b)%Z ->
    exists r q, api_binary Logarithmic lm n_addition w a c = Val r /\ api_binary Logarithmic lm n_addition w b c = Val q /\ (r <= q)%Z.
Proof. exact log_addition_mono. Qed.
Print Assumptions C80_log_addition_monotone.
Theorem C80_log_subtraction_monotone :
  forall lm, c99 lm -> monotone lm -> forall w a b c,
    is_intn (bits w) a -> is_intn (bits w) b -> is_intn (bits w) c -> a <> nar (bits w) -> c <> nar (bits w) -> (a <= b)%Z ->
    (exists r q, api_binary Logarithmic lm n_subtraction w a c = Val r /\ api_binary Logarithmic lm n_subtraction w b c = Val q /\ (r <= q)%Z) /\
    (exists r q, api_binary Logarithmic lm n_subtraction w c a = Val r /\ api_binary Logarithmic lm n_subtraction w c b = Val q /\ (q <= r)%Z).
Proof. exact log_subtraction_mono. Qed.
Print Assumptions C80_log_subtraction_monotone.

(** powers of positive numbers: monotone in the exponent (rising for bases of
    at least 1, falling for bases up to 1) and in the base (rising for exponents
    of at least 0, falling for exponents up to 0) *)
Theorem C80_power_monotone :
  forall lm, c99 lm -> monotone lm -> forall k w s e s' e' x z x' z' r q,
    is_intn (bits w) s -> is_intn (bits w) e -> is_intn (bits w) s' -> is_intn (bits w) e' ->
    value k (bits w) s = Some x -> value k (bits w) e = Some z -> value k (bits w) s' = Some x' -> value k (bits w) e' = Some z' ->
    0 < x -> 0 < x' ->
    ((s = s' /\ (1 <= x /\ z <= z' \/ x <= 1 /\ z' <= z)) \/ (e = e' /\ (0 <= z /\ x <= x' \/ z <= 0 /\ x' <= x))) ->
    api_binary k lm n_power w s e = Val r -> api_binary k lm n_power w s' e' = Val q -> (r <= q)%Z.
Proof. exact power_mono. Qed.
Print Assumptions C80_power_monotone.

(** the hypotenuse, in either argument *)
Theorem C80_hypotenuse_monotone :
  forall lm, c99 lm -> monotone lm -> forall k w s t u x y z r q,
    is_intn (bits w) s -> is_intn (bits w) t -> is_intn (bits w) u ->
    value k (bits w) s = Some x -> value k (bits w) t = Some y -> value k (bits w) u = Some z -> 0 <= x <= y ->
    (api_binary k lm n_hypotenuse w s u = Val r /\ api_binary k lm n_hypotenuse w t u = Val q) \/
    (api_binary k lm n_hypotenuse w u s = Val r /\ api_binary k lm n_hypotenuse w u t = Val q) ->
    (r <= q)%Z.
Proof. exact hypot_mono. Qed.
Print Assumptions C80_hypotenuse_monotone.

(** integer powers and roots of positive numbers *)
Theorem C80_integer_power_monotone :
  forall lm, c99 lm -> monotone lm -> forall k w s t x y j r q,
    is_intn (bits w) s -> is_intn (bits w) t -> is_int64 j ->
    value k (bits w) s = Some x -> value k (bits w) t = Some y -> 0 < x <= y ->
    api_integer_power k lm w s j = Val r -> api_integer_power k lm w t j = Val q ->
    ((0 <= j)%Z -> (r <= q)%Z) /\ ((j <= 0)%Z -> (q <= r)%Z).
Proof. exact integer_power_mono. Qed.
Print Assumptions C80_integer_power_monotone.
Theorem C80_root_monotone :
  forall lm, c99 lm -> monotone lm -> forall k w s t x y j r q,
    is_intn (bits w) s -> is_intn (bits w) t -> is_int64 j -> j <> 0%Z ->
    value k (bits w) s = Some x -> value k (bits w) t = Some y -> 0 < x <= y ->
    api_root k lm w s j = Val r -> api_root k lm w t j = Val q ->
    ((0 < j)%Z -> (r <= q)%Z) /\ ((j < 0)%Z -> (q <= r)%Z).
Proof. exact root_mono_pos. Qed.
Print Assumptions C80_root_monotone.

(** the correctly rounded library is monotone; 9/8, 5/4 and -9/8, linear16; each
    conversion has an instance *)
Example C80_case : monotone ideal /\ c99 ideal /\ is_intn (bits W16) 0x4100 /\ is_intn (bits W16) 0x4200 /\ is_int64 (-7) /\
  value Linear (bits W16) 0x4100 = Some (9 / 8) /\ value Linear (bits W16) 0x4200 = Some (5 / 4) /\ value Linear (bits W16) (-0x4100) = Some (- (9 / 8)) /\
  log_to_float ideal 64 f32 (takum64_to_float32 x86_64 ideal) /\
  linear_to_log ideal 16 32 (takum32_from_takum_linear16 x86_64 ideal) /\ log_to_linear ideal 64 8 (takum_linear8_from_takum64 x86_64 ideal).
Proof.
  split; [exact ideal_monotone|]. split; [exact ideal_c99|]. split; [unfold is_intn; simpl; lia|]. split; [unfold is_intn; simpl; lia|]. split; [split; lia|].
  assert (value Linear 16 0x4100 = Some (9 / 8)) as V1.
  { rewrite (value_const 16 0x4100) by lia. f_equal. assert (vm 16 0x4100 = 648518346341351424)%Z as -> by (vm_compute; reflexivity). assert (ve 16 0x4100 = -59)%Z as -> by (vm_compute; reflexivity). simpl. lra. }
  split; [exact V1|].
  split. { change (bits W16) with 16%Z. rewrite (value_const 16 0x4200) by lia. f_equal. assert (vm 16 0x4200 = 720575940379279360)%Z as -> by (vm_compute; reflexivity). assert (ve 16 0x4200 = -59)%Z as -> by (vm_compute; reflexivity). simpl. lra. }
  split. { change (bits W16) with 16%Z. apply (value_neg 16 ltac:(lia) Linear 0x4100); [unfold is_intn; lia|exact V1]. }
  split; [constructor|]. split; constructor.
Qed.
