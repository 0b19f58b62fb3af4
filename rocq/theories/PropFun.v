(** Properties C33, C34, C54-C58: the elementary functions of one argument.
    Theorems only; proofs are in WrapMain.v, WrapDom.v, WrapSmall.v, WrapPi.v,
    WrapTrig.v and WrapRefute.v.  [c99 lm] (LibmSpec.v): the mathematical library follows
    C99 Annex F and is accurate to 4 units in the last place. *)
From Coq Require Import ZArith Reals Bool Lia Lra.
From Flocq Require Import Core.Core IEEE754.BinarySingleNaN.
From Verif Require Import CModel FloatModel Libm LibmSpec Spec Wrappers LibmIdeal WidthFacts WidthApi WrapApi WrapSpec LinAlgebra LinArithRefute MiscProps RealFacts WrapMain WrapDom WrapSmall WrapPi WrapTrig WrapRefute.
Local Open Scope R_scope.

(** C54: accuracy *)
Theorem C54_elementary_functions_accurate :
  forall k lm u w t x, c99 lm -> is_intn (bits w) t -> value k (bits w) t = Some x -> regular k (bits w) u x ->
    exists t', api_unary k lm u w t = Val t' /\ computes k (bits w) u x t'.
Proof. exact unary_computes. Qed.
Print Assumptions C54_elementary_functions_accurate.
Theorem C54_minus_1_near_0 :
  forall k lm u w t x, c99 lm -> u = n_2_raised_minus_1 \/ u = n_10_raised_minus_1 ->
    is_intn (bits w) t -> value k (bits w) t = Some x -> Rabs x <= bpow radix2 (-10) ->
    exists t', api_unary k lm u w t = Val t' /\ computes_abs k (bits w) u x t'.
Proof. exact small_computes. Qed.
Print Assumptions C54_minus_1_near_0.
(** the tangent of 1, the secant of pi (which must not vanish nearby) and the
    inverse hyperbolic cotangent of 2 *)
Example C54_case : c99 ideal /\ is_intn 64 (2 ^ 62) /\ value Logarithmic 64 (2 ^ 62) = Some 1 /\
  regular Logarithmic 64 n_tan 1 /\ regular Logarithmic 64 n_sec_pi_times 1 /\ regular Linear 64 n_arcoth (1 + 1).
Proof.
  split; [exact ideal_c99|]. destruct (value_one_k Logarithmic 64 ltac:(unfold std_width; tauto)) as [V I]. split; [exact I|]. split; [exact V|]. split; [split; exact Logic.I|]. split.
  - split; [|exact Logic.I]. cbn [applicable conversion_error defined]. intros x' H. rewrite Rabs_R1, Rmult_1_r in H.
    assert (bpow radix2 (-55) <= / 4) as B by (change (/ 4) with (bpow radix2 (-2)); apply bpow_le; lia). apply Rabs_le_inv in H. pose proof PI_RGT_0.
    apply Rlt_not_eq. apply cos_lt_0; nra.
  - assert (bpow radix2 (-40) <= 1) as B by (apply (bpow_le radix2 (-40) 0); lia). split; [cbn [applicable defined]; rewrite Rabs_pos_eq; lra|]. cbn. intros _. rewrite Rabs_pos_eq by lra. simpl in *. lra.
Qed.

(** C34: NaR exactly outside of the domain *)
Theorem C34_nar_iff_undefined :
  forall k lm u w t x, c99 lm -> trigonometric u = false -> (u = n_arcoth -> w <> W64) ->
    is_intn (bits w) t -> value k (bits w) t = Some x ->
    (api_unary k lm u w t = Val (nar (bits w)) <-> ~ defined u x).
Proof. exact nar_iff_undefined. Qed.
Print Assumptions C34_nar_iff_undefined.
Theorem C34_undefined_is_nar :
  forall k lm u w t x, c99 lm -> trigonometric u = false -> is_intn (bits w) t -> value k (bits w) t = Some x ->
    ~ defined u x -> api_unary k lm u w t = Val (nar (bits w)).
Proof. exact unary_undefined. Qed.
Print Assumptions C34_undefined_is_nar.
(** the sine, cosine, tangent, cotangent, secant and cosecant *)
Theorem C34_trigonometric_nar_iff :
  forall k lm u w t x, c99 lm -> trigonometric u = true -> pi_fun u = false -> is_intn (bits w) t -> value k (bits w) t = Some x ->
    (api_unary k lm u w t = Val (nar (bits w)) <-> (u = n_cot \/ u = n_csc) /\ x = 0).
Proof. exact trig_nar_iff. Qed.
Print Assumptions C34_trigonometric_nar_iff.
(** all functions of takums with a linear significand; the functions of pi
    times x at negative x are C55 *)
Theorem C34_linear_nar_iff_undefined :
  forall lm u w t x, c99 lm -> (u = n_arcoth -> w <> W64) -> (pi_fun u = true -> 0 <= x) ->
    is_intn (bits w) t -> value Linear (bits w) t = Some x ->
    (api_unary Linear lm u w t = Val (nar (bits w)) <-> ~ defined u x).
Proof. exact linear_nar_iff. Qed.
Print Assumptions C34_linear_nar_iff_undefined.
Theorem C34_linear_pi_nar_only_if_undefined :
  forall lm u w t x, c99 lm -> pi_fun u = true -> is_intn (bits w) t -> value Linear (bits w) t = Some x ->
    api_unary Linear lm u w t = Val (nar (bits w)) -> ~ defined u x.
Proof. exact linear_pi_nar_only. Qed.
Print Assumptions C34_linear_pi_nar_only_if_undefined.
Example C34_case : c99 ideal /\ is_intn 16 0 /\ value Logarithmic 16 0 = Some 0 /\ ~ defined n_ln 0 /\ ~ defined n_arsech 0 /\
  value Linear 8 (2 ^ 6) = Some 1 /\ defined n_arcosh 1 /\ ~ defined n_artanh 1 /\ ~ defined n_csc_pi_times 1 /\ defined n_sec_pi_times 1.
Proof.
  split; [exact ideal_c99|]. split; [vm_compute; split; discriminate || reflexivity|]. split; [reflexivity|]. split; [cbn; lra|]. split; [cbn; lra|].
  split; [apply (value_one_k Linear 8); unfold std_width; tauto|]. split; [cbn; lra|]. split; [cbn; lra|]. cbn. rewrite Rmult_1_r, cos_PI, sin_PI. split; lra.
Qed.

(** C33: exact values at the multiples of 1/2 that are not negative, and at
    all multiples of 2 (1 for tan and cot), for any mathematical library *)
Theorem C33_linear_pi_functions_exact :
  forall lm u w t x j, pi_fun u = true -> is_intn (bits w) t -> value Linear (bits w) t = Some x ->
    2 * x = IZR j -> 0 <= x \/ (exists k, x = IZR (pi_period_of u) * IZR k) ->
    (defined u x -> exists t', api_unary Linear lm u w t = Val t' /\ value Linear (bits w) t' = Some (real_fun u x)) /\
    (~ defined u x -> api_unary Linear lm u w t = Val (nar (bits w))).
Proof. exact pi_exact_linear. Qed.
Print Assumptions C33_linear_pi_functions_exact.
Theorem C33_log_pi_functions_exact :
  forall lm u w t x, c99 lm -> pi_fun u = true -> is_intn (bits w) t -> value Logarithmic (bits w) t = Some x -> x = 0 \/ x = 1 ->
    (defined u x -> exists t', api_unary Logarithmic lm u w t = Val t' /\ value Logarithmic (bits w) t' = Some (real_fun u x)) /\
    (~ defined u x -> api_unary Logarithmic lm u w t = Val (nar (bits w))).
Proof. exact pi_exact_log. Qed.
Print Assumptions C33_log_pi_functions_exact.
Example C33_case : pi_fun n_tan_pi_times = true /\ value Linear 16 0x4000 = Some 1 /\ 2 * 1 = IZR 2 /\ 0 <= 1 /\
  real_fun n_cos_pi_times 1 = -1 /\ ~ defined n_csc_pi_times 1.
Proof.
  split; [reflexivity|]. split; [apply (value_one_k Linear 16); unfold std_width; tauto|]. split; [lra|]. split; [lra|]. cbn. rewrite Rmult_1_r. rewrite cos_PI, sin_PI. split; [reflexivity|tauto].
Qed.

(** C55: the same for negative multiples of 1/2: false at -1 (sin, csc) and
    -1/2 (cos, tan, cot, sec), where the result is neither 0 nor NaR *)
Theorem C55_pi_functions_exact_refuted :
  forall lm u w t, c99 lm -> pi_fun u = true -> is_intn (bits w) t -> value Linear (bits w) t = Some (bad_point u) ->
    exists t', api_unary Linear lm u w t = Val t' /\ t' <> 0%Z /\ t' <> nar (bits w).
Proof. exact pi_negative_wrong. Qed.
Print Assumptions C55_pi_functions_exact_refuted.
Theorem C55_should_be_0_or_nar :
  forall u, pi_fun u = true -> ~ defined u (bad_point u) \/ real_fun u (bad_point u) = 0.
Proof. exact bad_truth. Qed.
Print Assumptions C55_should_be_0_or_nar.
Example C55_case : value Linear 16 (-0x4000) = Some (bad_point n_sin_pi_times) /\ value Linear 16 (-0x3800) = Some (bad_point n_tan_pi_times).
Proof.
  assert (forall t, t <> 0%Z -> t <> nar 16 -> value Linear 16 t = Some (lin_real 16 t)) as H by (intros t H1 H2; unfold value; destruct (Z.eq_dec t 0); [contradiction|]; destruct (Z.eq_dec t (nar 16)); [contradiction|reflexivity]).
  rewrite !H by discriminate. unfold lin_real, m_.
  replace (S_ 16 (-0x4000)) with 1%Z by (vm_compute; reflexivity). replace (M_ 16 (-0x4000)) with 0%Z by (vm_compute; reflexivity). replace (c_ 16 (-0x4000)) with 0%Z by (vm_compute; reflexivity).
  replace (S_ 16 (-0x3800)) with 1%Z by (vm_compute; reflexivity). replace (M_ 16 (-0x3800)) with 0%Z by (vm_compute; reflexivity). replace (c_ 16 (-0x3800)) with 1%Z by (vm_compute; reflexivity).
  split; f_equal; simpl powerRZ; simpl bad_point; unfold Rdiv; lra.
Qed.

(** C56: arcoth of takums of 64 bits is NaR only inside [-1, 1]: false, as the
    code computes with doubles *)
Theorem C56_arcoth64_domain_refuted :
  forall lm, c99 lm -> value Linear 64 (2 ^ 62 + 1) = Some (1 + bpow radix2 (-59)) /\
    api_unary Linear lm n_arcoth W64 (2 ^ 62 + 1) = Val (nar 64).
Proof. exact arcoth_wrong. Qed.
Print Assumptions C56_arcoth64_domain_refuted.
Example C56_case : c99 ideal /\ 1 < 1 + bpow radix2 (-59).
Proof. split; [exact ideal_c99|]. pose proof (bpow_gt_0 radix2 (-59)). lra. Qed.

(** C57: 2_raised_minus_1 and 10_raised_minus_1 are accurate near 0: false, as
    the code subtracts 1 from a rounded power *)
Theorem C57_minus_1_accurate_refuted :
  forall lm u, c99 lm -> u = n_2_raised_minus_1 \/ u = n_10_raised_minus_1 -> exists t x t' v,
    value Linear 64 t = Some x /\ 0 < real_fun u x <= bpow radix2 (-90) /\
    api_unary Linear lm u W64 t = Val t' /\ value Linear 64 t' = Some v /\ (v = 0 \/ bpow radix2 (-66) <= Rabs v).
Proof. exact minus_1_wrong. Qed.
Print Assumptions C57_minus_1_accurate_refuted.
Example C57_case : c99 ideal.
Proof. exact ideal_c99. Qed.
