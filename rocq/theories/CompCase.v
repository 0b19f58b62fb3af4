(** Concrete computations that meet the hypotheses of C137. *)
From Coq Require Import ZArith Reals Bool List Lia Lra.
From Flocq Require Import Core.Core.
From Verif Require Import CModel LogProps FloatModel Spec Arith LogApi LinOps LinApi MiscProps WidthFacts RangeFacts Libm LibmSpec LibmIdeal Wrappers WrapApi WrapSpec WrapSpec2 ErrorSpec ErrorProps Sums WaySpec TwoWays CompSpec Computations.
Local Open Scope R_scope.

Lemma moderate_lin : forall z, / 4 <= Rabs z <= 16 -> moderate Linear z.
Proof.
  intros z Hz. unfold moderate. rewrite !powerRZ_bpow.
  assert (bpow radix2 (-253) <= / 4) by (change (/ 4) with (bpow radix2 (-2)); apply bpow_le; lia).
  assert (16 <= bpow radix2 253) by (change 16 with (bpow radix2 4); apply bpow_le; lia). lra.
Qed.
Lemma sin1_cos1 : / 2 <= sin 1 <= 1 /\ / 2 <= cos 1 <= 1.
Proof.
  assert (3 < PI) as P3 by (pose proof PI2_3_2; lra). pose proof PI_4 as P4. pose proof (SIN_bound 1). pose proof (COS_bound 1). split; split; try lra.
  - pose proof sin_PI6 as E. assert (sin (PI / 6) < sin 1) by (apply sin_increasing_1; lra). lra.
  - pose proof cos_PI3 as E. destruct (Rle_lt_or_eq_dec 1 (PI / 3) ltac:(lra)) as [K|K]; [|rewrite K, E; lra]. assert (cos (PI / 3) < cos 1) by (apply cos_decreasing_1; lra). lra.
Qed.
Lemma computation_case : c99 ideal /\ is_intn 16 (2 ^ 14) /\ value Linear 16 (2 ^ 14) = Some 1 /\ value Logarithmic 16 (2 ^ 14) = Some 1 /\
  is_intn 16 0x4800 /\ value Linear 16 0x4800 = Some (1 + 1) /\
  linear_multiplication 16 (takum_linear_multiplication x86_64 W16) /\
  linear_division 16 (takum_linear_division x86_64 W16) /\ linear_square_root 16 (takum_linear_square_root x86_64 W16) /\
  moderate Linear (sin 1) /\ moderate Linear (cos 1) /\ moderate Linear (sin 1 / cos 1) /\
  moderate Linear (sinh 1) /\ moderate Linear (cosh 1) /\ moderate Linear (sinh 1 / cosh 1) /\
  moderate Linear (exp 1) /\ moderate Linear (exp (1 + 1)) /\ moderate Linear (1 * 1) /\ moderate Linear (1 * 1 + 1 * 1) /\
  computation ideal Linear W16
    (let! s := (let! a := api_unary Linear ideal n_sin W16 (2 ^ 14) in let! b := Val (2 ^ 14)%Z in api_binary Linear ideal n_addition W16 a b) in
     api_integer_power Linear ideal W16 s 2) (powerRZ (sin 1 + 1) 2) 5 /\
  INR 5 * log_roundoff (bits W16) <= / 2 /\
  computation ideal Logarithmic W64
    (let! s := (let! a := (let! c := (let! a := Val (2 ^ 62)%Z in let! b := Val (2 ^ 62)%Z in api_binary Logarithmic ideal n_addition W64 a b) in
                           api_integer_power Logarithmic ideal W64 c (-2)) in
                let! b := Val (2 ^ 62)%Z in api_binary Logarithmic ideal n_hypotenuse W64 a b) in
     takum64_inversion s)
    (/ sqrt (powerRZ (1 + 1) (-2) * powerRZ (1 + 1) (-2) + 1 * 1)) 11 /\
  INR 11 * log_roundoff (bits W64) <= / 2.
Proof.
  destruct faithful_case as (C & I1 & V1 & V1' & _). destruct ways_case as (_ & I2 & V2 & _). destruct sin1_cos1 as [S1 C1].
  assert (value Linear 16 0x4800 = Some (1 + 1)) as V2' by (rewrite V2; f_equal; lra).
  pose proof exp_le_3 as E3. pose proof (exp_ineq1 1 ltac:(lra)) as E2. pose proof (exp_pos (-1)) as Em.
  assert (exp (Ropp 1) = / exp 1) as Ei by apply exp_Ropp. assert (/ 3 <= / exp 1 <= / 2) as Ei' by (split; apply Rinv_le; lra).
  assert (/ 2 <= sinh 1 <= 3) as Sh by (unfold sinh; rewrite Ei; lra). assert (1 <= cosh 1 <= 3) as Ch by (unfold cosh; rewrite Ei; lra).
  assert (exp (1 + 1) = exp 1 * exp 1) as E11 by apply exp_plus.
  assert (moderate Linear (sin 1)) as M1 by (apply moderate_lin; rewrite Rabs_pos_eq by lra; lra).
  assert (moderate Linear 1) as M2 by (apply moderate_lin; rewrite Rabs_pos_eq by lra; lra).
  assert (moderate Logarithmic 1) as M3.
  { unfold moderate. rewrite Rabs_R1. pose proof (exp_increasing (-126) 0 ltac:(lra)). pose proof (exp_increasing 0 126 ltac:(lra)). rewrite exp_0 in *. lra. }
  split; [assumption|]. repeat (split; [assumption|]). do 3 (split; [constructor|]). split; [assumption|].
  split; [apply moderate_lin; rewrite Rabs_pos_eq by lra; lra|].
  split; [apply moderate_lin; rewrite Rabs_pos_eq by (apply Rmult_le_pos; [lra|left; apply Rinv_0_lt_compat; lra]); split; apply (Rmult_le_reg_r (cos 1)); try lra; unfold Rdiv; rewrite ?Rmult_assoc, ?Rinv_l by lra; lra|].
  split; [apply moderate_lin; rewrite Rabs_pos_eq by lra; lra|].
  split; [apply moderate_lin; rewrite Rabs_pos_eq by lra; lra|].
  split. { assert (/ 3 * cosh 1 <= sinh 1) by (unfold sinh, cosh; rewrite Ei; lra). apply moderate_lin; rewrite Rabs_pos_eq by (apply Rmult_le_pos; [lra|left; apply Rinv_0_lt_compat; lra]). split; apply (Rmult_le_reg_r (cosh 1)); try lra; unfold Rdiv; rewrite ?Rmult_assoc, ?Rinv_l by lra; lra. }
  split; [apply moderate_lin; rewrite Rabs_pos_eq by lra; lra|].
  split; [apply moderate_lin; rewrite E11; rewrite Rabs_pos_eq by nra; nra|].
  split; [rewrite Rmult_1_l; assumption|]. split; [apply moderate_lin; rewrite Rabs_pos_eq by lra; lra|].
  split.
  { apply (comp_integer_power ideal Linear W16 _ (sin 1 + 1) 2 2); [unfold is_int64; lia|discriminate| |].
    - apply (comp_sum ideal Linear W16 _ _ (sin 1) 1 1 0); [| |lra|apply moderate_lin; rewrite Rabs_pos_eq by lra; lra].
      + apply comp_call; [reflexivity| |assumption]. apply (by_function ideal W16 n_sin _ 1); [discriminate|reflexivity|assumption|assumption|split; exact I].
      + apply comp_takum; assumption.
    - apply moderate_lin. change (powerRZ (sin 1 + 1) 2) with ((sin 1 + 1) * ((sin 1 + 1) * 1)). rewrite Rmult_1_r, Rabs_pos_eq by nra. nra. }
  split; [apply few_roundings; [discriminate|lia]|].
  assert (forall z, / 4 <= z <= 16 -> moderate Logarithmic z) as Ml.
  { intros z Hz. unfold moderate. rewrite Rabs_pos_eq by lra. assert (exp (-126) <= / 4) as K1.
    { replace (-126) with (- (126)) by lra. rewrite exp_Ropp. apply Rinv_le; [lra|]. pose proof (exp_ineq1 126 ltac:(lra)). lra. }
    pose proof (exp_ineq1 126 ltac:(lra)). lra. }
  assert (value Logarithmic 64 (2 ^ 62) = Some 1) as V64 by (apply (LogProps.value_one 64); unfold std_width; tauto).
  assert (computation ideal Logarithmic W64 (Val (2 ^ 62)%Z) 1 0) as C64 by (apply comp_takum; [unfold is_intn; cbn; lia|assumption|apply Ml; lra]).
  assert (powerRZ (1 + 1) (-2) = / 4) as E4 by (change (powerRZ (1 + 1) (-2)) with (/ ((1 + 1) * ((1 + 1) * 1))); f_equal; lra).
  split.
  - apply (comp_inversion ideal Logarithmic W64 _ _ _ 10); [cbn; constructor|].
    apply (comp_hypotenuse ideal Logarithmic W64 _ _ (powerRZ (1 + 1) (-2)) 1 8 0); [|exact C64|].
    + apply (comp_integer_power ideal Logarithmic W64 _ (1 + 1) 2 (-2)); [unfold is_int64; lia|discriminate| |rewrite E4; apply Ml; lra].
      apply (comp_sum ideal Logarithmic W64 _ _ 1 1 0 0 C64 C64); [lra|apply Ml; lra].
    + rewrite E4. apply Ml. set (q := / 4 * / 4 + 1 * 1). assert (1 <= q <= 4) as Hq by (unfold q; lra). assert (sqrt 1 <= sqrt q <= sqrt 4) as K by (split; apply sqrt_le_1; lra). rewrite sqrt_1 in K. replace 4 with (2 * 2) in K at 1 by ring. rewrite sqrt_square in K by lra. lra.
  - destruct (log_roundoff_pos (bits W64) ltac:(cbn; lia)) as (P & _ & Q). unfold log_roundoff. 
    assert (roundoff (bits W64) 0 <= / 100) as R. { unfold roundoff. rewrite powerRZ_bpow. apply Rle_trans with (bpow radix2 (-10)); [apply bpow_le; cbn; lia|]. cbn. lra. }
    set (u := roundoff (bits W64) 0) in *. apply (Rmult_le_reg_r (1 - u)); [lra|]. replace (INR 11 * (u / (1 - u)) * (1 - u)) with (INR 11 * u) by (field; lra). replace (INR 11) with 11 by (cbn; lra). lra.
Qed.
