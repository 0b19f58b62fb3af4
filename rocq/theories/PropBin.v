(** Properties C31, C32, C37, C58-C61: signs of results, functions of two
    arguments, integer powers and roots.  Theorems only; proofs are in
    WrapBin.v, WrapPow.v, WrapRoot.v and WrapSign.v. *)
From Coq Require Import ZArith Reals Bool Lia Lra.
From Flocq Require Import Core.Core IEEE754.BinarySingleNaN.
From Verif Require Import CModel FloatModel Libm LibmSpec Spec Wrappers LibmIdeal ValueFacts WidthFacts WidthApi WrapApi WrapSpec WrapSpec2 LinArithRefute MiscProps WrapBin WrapPow WrapRoot WrapSign.
Local Open Scope R_scope.

(** C58: accuracy of addition, subtraction, hypotenuse, arctan2 and
    arctan2_over_pi, of both formats, for all arguments other than NaR *)
Theorem C58_binary_functions_accurate :
  forall lm, c99 lm -> forall k b w s t x y,
    b <> n_multiplication -> b <> n_division -> b <> n_power ->
    is_intn (bits w) s -> is_intn (bits w) t -> value k (bits w) s = Some x -> value k (bits w) t = Some y ->
    exists t', api_binary k lm b w s t = Val t' /\ computes2 k (bits w) b x y t'.
Proof. exact binary_computes. Qed.
Print Assumptions C58_binary_functions_accurate.
Example C58_case : c99 ideal /\ is_intn 64 (2 ^ 62) /\ value Logarithmic 64 (2 ^ 62) = Some 1 /\
  is_value2 n_addition 1 1 2 /\ is_value2 n_arctan2 0 (-1) PI /\ is_value2 n_arctan2_over_pi 1 0 (/ 2) /\ is_value2 n_hypotenuse 3 4 5.
Proof.
  split; [exact ideal_c99|]. destruct (value_one_k Logarithmic 64 ltac:(unfold std_width; tauto)) as [V I]. split; [exact I|]. split; [exact V|].
  pose proof PI_RGT_0. split; [cbn; lra|]. split; [|split].
  - unfold is_value2, is_angle. cbv zeta. replace (-1 * -1 + 0 * 0) with 1 by ring. rewrite sqrt_1, cos_PI, sin_PI. lra.
  - unfold is_value2, is_angle. cbv zeta. replace (0 * 0 + 1 * 1) with 1 by ring. replace (/ 2 * PI) with (PI / 2) by field. rewrite sqrt_1, cos_PI2, sin_PI2. lra.
  - unfold is_value2. replace (3 * 3 + 4 * 4) with (5 * 5) by ring. rewrite sqrt_square; lra.
Qed.

(** C59: accuracy of power, and where it is NaR *)
Theorem C59_power_accurate :
  forall lm, c99 lm -> forall k w s t x y, is_intn (bits w) s -> is_intn (bits w) t ->
    value k (bits w) s = Some x -> value k (bits w) t = Some y -> power_ok k x y ->
    exists t', api_binary k lm n_power w s t = Val t' /\ computes2 k (bits w) n_power x y t'.
Proof. exact power_computes. Qed.
Print Assumptions C59_power_accurate.
Theorem C59_linear_power_nar_iff :
  forall lm w s t, c99 lm -> is_intn (bits w) s -> is_intn (bits w) t ->
    (api_binary Linear lm n_power w s t = Val (nar (bits w)) <->
     power_undefined Linear (value Linear (bits w) s) (value Linear (bits w) t)).
Proof. exact power_nar_iff. Qed.
Print Assumptions C59_linear_power_nar_iff.
Theorem C59_power_nar :
  forall lm, c99 lm -> forall k w s t, is_intn (bits w) s -> is_intn (bits w) t ->
    power_undefined k (value k (bits w) s) (value k (bits w) t) ->
    api_binary k lm n_power w s t = Val (nar (bits w)).
Proof. exact power_nar. Qed.
Print Assumptions C59_power_nar.
Example C59_case : c99 ideal /\ value Linear 16 0 = Some 0 /\ value Linear 16 0x4000 = Some 1 /\ power_ok Linear (-1) 1 /\ power_ok Logarithmic 2 (-3) /\
  power_undefined Logarithmic (Some 0) (Some (-1)) /\ ~ power_undefined Linear (Some (-1)) (Some 1).
Proof.
  split; [exact ideal_c99|]. split; [apply value_0|]. split; [apply (value_one_k Linear 16); unfold std_width; tauto|]. split; [|split; [|split]].
  - right. right. split; [lra|]. split; [exists 1%Z; reflexivity|left; reflexivity].
  - left. lra.
  - left. lra.
  - intros [H|[_ H]]; [lra|]. apply (H 1%Z). reflexivity.
Qed.

(** C32: the manual says that the power is NaR if a is zero and b is less than
    or equal to zero, and like all functions if an argument is NaR.  False:
    for every mathematical library that follows C99, anything to the power of 0
    and 1 to the power of anything is 1. *)
Theorem C32_power_conventions_refuted :
  forall lm, c99 lm -> forall k w s t, is_intn (bits w) s -> is_intn (bits w) t ->
    value k (bits w) s = Some 1 \/ value k (bits w) t = Some 0 ->
    exists t', api_binary k lm n_power w s t = Val t' /\ value k (bits w) t' = Some 1.
Proof. exact power_one. Qed.
Print Assumptions C32_power_conventions_refuted.
(** 0 to the power of 0, NaR to the power of 0, 1 to the power of NaR *)
Example C32_case : is_intn 8 0 /\ is_intn 8 (nar 8) /\ value Linear 8 0 = Some 0 /\ value Linear 8 (2 ^ 6) = Some 1 /\ value Linear 8 (nar 8) = None.
Proof.
  split; [vm_compute; split; discriminate || reflexivity|]. split; [vm_compute; split; discriminate || reflexivity|]. split; [apply value_0|].
  split; [apply (value_one_k Linear 8); unfold std_width; tauto|apply value_nar; lia].
Qed.

(** C60: integer powers computed with floats (linear takums and logarithmic
    takums of 64 bits) *)
Theorem C60_integer_power_accurate :
  forall lm, c99 lm -> forall k w t j x, float_ipow k w -> is_intn (bits w) t -> is_int64 j ->
    value k (bits w) t = Some x -> x <> 0 \/ (0 < j)%Z ->
    exists t', api_integer_power k lm w t j = Val t' /\ computes_integer_power k (bits w) x j t'.
Proof. exact integer_power_computes. Qed.
Print Assumptions C60_integer_power_accurate.
Theorem C60_integer_power_nar_iff :
  forall lm, c99 lm -> forall k w t j, float_ipow k w -> is_intn (bits w) t -> is_int64 j ->
    (api_integer_power k lm w t j = Val (nar (bits w)) <-> t = nar (bits w) \/ (t = 0 /\ j <= 0)%Z).
Proof. exact integer_power_nar_iff. Qed.
Print Assumptions C60_integer_power_nar_iff.
Example C60_case : c99 ideal /\ float_ipow Logarithmic W64 /\ float_ipow Linear W8 /\ is_int64 (-7) /\ is_intn 8 (2 ^ 6) /\ value Linear 8 (2 ^ 6) = Some 1.
Proof.
  split; [exact ideal_c99|]. split; [right; reflexivity|]. split; [left; reflexivity|]. split; [split; lia|]. destruct (value_one_k Linear 8 ltac:(unfold std_width; tauto)). split; assumption.
Qed.

(** C61: roots of linear takums *)
Theorem C61_linear_root_accurate :
  forall lm, c99 lm -> forall w t j x, is_intn (bits w) t -> is_int64 j -> value Linear (bits w) t = Some x ->
    (0 < x /\ j <> 0%Z) \/ (x = 0 /\ (0 < j)%Z) \/ (x < 0 /\ (j = 1 \/ j = -1)%Z) ->
    exists t', api_root Linear lm w t j = Val t' /\ computes_root (bits w) x j t'.
Proof. exact root_computes. Qed.
Print Assumptions C61_linear_root_accurate.
Theorem C61_linear_root_nar_iff :
  forall lm, c99 lm -> forall w t j, is_intn (bits w) t -> is_int64 j ->
    (api_root Linear lm w t j = Val (nar (bits w)) <->
     t = nar (bits w) \/ j = 0%Z \/ (t < 0 /\ j <> 1 /\ j <> -1)%Z \/ (t = 0 /\ j < 0)%Z).
Proof. exact root_nar_iff. Qed.
Print Assumptions C61_linear_root_nar_iff.
Example C61_case : c99 ideal /\ is_root 3 8 2 /\ is_root (-2) 4 (/ 2) /\ is_int64 (-2) /\ is_intn 32 (2 ^ 30) /\ value Linear 32 (2 ^ 30) = Some 1.
Proof.
  split; [exact ideal_c99|]. split; [|split; [|split; [split; lia|]]].
  - split; [lia|]. split; [lia|]. split; [simpl; lra|lra].
  - split; [lia|]. split; [lra|]. split; [simpl; field|lra].
  - destruct (value_one_k Linear 32 ltac:(unfold std_width; tauto)). split; assumption.
Qed.

(** C37: odd roots of negative linear takums are the real roots: false, they
    are NaR (except for the first root and the inverse of it) *)
Theorem C37_linear_odd_root_refuted :
  forall lm w t j x, c99 lm -> is_intn (bits w) t -> is_int64 j -> value Linear (bits w) t = Some x -> x < 0 ->
    Z.odd j = true -> j <> 1%Z -> j <> (-1)%Z ->
    (exists r, is_root j x r) /\ api_root Linear lm w t j = Val (nar (bits w)).
Proof. exact odd_root_wrong. Qed.
Print Assumptions C37_linear_odd_root_refuted.
(** -1, whose third root is -1 *)
Example C37_case : c99 ideal /\ is_intn 16 (-0x4000) /\ is_int64 3 /\ value Linear 16 (-0x4000) = Some (-1) /\ is_root 3 (-1) (-1) /\ Z.odd 3 = true.
Proof.
  split; [exact ideal_c99|]. split; [vm_compute; split; discriminate || reflexivity|]. split; [split; lia|]. split; [|split; [|reflexivity]].
  - destruct (value_one_k Linear 16 ltac:(unfold std_width; tauto)) as [V1 I1]. exact (value_neg 16 ltac:(lia) Linear _ 1 I1 V1).
  - split; [lia|]. split; [lia|]. split; [simpl; lra|lra].
Qed.

(** C31: results neither vanish nor become NaR through over- or underflow; a
    takum is positive, zero or negative as its bits are as a signed integer,
    and NaR is the least integer *)
Theorem C31_positive_results :
  forall k lm u w t x, c99 lm -> positive_fun u = true -> is_intn (bits w) t -> value k (bits w) t = Some x ->
    exists t', api_unary k lm u w t = Val t' /\ (0 < t')%Z.
Proof. exact positive_results. Qed.
Print Assumptions C31_positive_results.
Theorem C31_sign_of_results :
  forall k lm u w t x, c99 lm -> sign_fun u = true -> is_intn (bits w) t -> value k (bits w) t = Some x -> defined u x ->
    exists t', api_unary k lm u w t = Val t' /\ t' <> nar (bits w) /\ Z.sgn t' = Z.sgn t.
Proof. exact sign_results. Qed.
Print Assumptions C31_sign_of_results.
Theorem C31_hypotenuse_positive :
  forall k lm w s t x y, c99 lm -> is_intn (bits w) s -> is_intn (bits w) t -> value k (bits w) s = Some x -> value k (bits w) t = Some y ->
    exists t', api_binary k lm n_hypotenuse w s t = Val t' /\ (0 <= t')%Z /\ (t' = 0 <-> s = 0 /\ t = 0)%Z.
Proof. exact hypotenuse_positive. Qed.
Print Assumptions C31_hypotenuse_positive.
Theorem C31_power_positive :
  forall k lm w s t x y, c99 lm -> is_intn (bits w) s -> is_intn (bits w) t -> value k (bits w) s = Some x -> value k (bits w) t = Some y -> 0 < x ->
    exists t', api_binary k lm n_power w s t = Val t' /\ (0 < t')%Z.
Proof. exact power_positive. Qed.
Print Assumptions C31_power_positive.
Example C31_case : c99 ideal /\ positive_fun n_exp = true /\ sign_fun n_sinh = true /\ is_intn 8 127 /\ (exists x, value Linear 8 127 = Some x) /\ defined n_sinh 5.
Proof.
  split; [exact ideal_c99|]. split; [reflexivity|]. split; [reflexivity|]. split; [vm_compute; split; discriminate || reflexivity|]. split; [|exact Logic.I].
  destruct (val_cases Linear 8 127) as [[H _]|H]; [vm_compute; split; discriminate || reflexivity|lia|discriminate H|exact H].
Qed.
