(** Inequalities between the elementary functions and their arguments. *)
From Coq Require Import ZArith Reals Bool Lia Lra Psatz.
From Flocq Require Import Core.Core IEEE754.BinarySingleNaN.
From Verif Require Import CModel FloatModel Libm LibmSpec Spec CodeFacts SpecFacts ValueFacts WidthFacts WidthApi Wrappers WrapApi WrapSpec WrapSpec2 RoundFacts RealFacts WrapSign RangeSpec Faithful RangeFacts MiscProps WidthProps WrapExact.
Local Open Scope R_scope.

Lemma grows : forall (f f' : R -> R) x, 0 <= x -> (forall c, 0 <= c <= x -> derivable_pt_lim f c (f' c)) -> (forall c, 0 <= c <= x -> 0 <= f' c) -> f 0 <= f x.
Proof.
  intros f f' x Hx D P. destruct Hx as [Hx|<-]; [|lra]. destruct (MVT_cor2 f f' 0 x Hx D) as (c & E & Hc). specialize (P c ltac:(lra)). rewrite Rminus_0_r in E.
  assert (0 <= f' c * x) by (apply Rmult_le_pos; lra). lra.
Qed.
Lemma ln_le : forall x y, 0 < x -> x <= y -> ln x <= ln y.
Proof. intros x y P [H|<-]; [left; apply ln_increasing; assumption|lra]. Qed.
Lemma exp_above : forall x, 1 + x <= exp x.
Proof. exact exp_ineq1_le. Qed.
Lemma ln_below : forall x, 0 < x -> ln x <= x - 1.
Proof. intros x P. pose proof (exp_above (ln x)) as H. rewrite exp_ln in H by assumption. lra. Qed.
Lemma sinh_above : forall x, 0 <= x -> x <= sinh x.
Proof.
  intros x Hx. pose proof (grows (fun c => sinh c - c) (fun c => cosh c - 1) x Hx) as G. cbv beta in G. rewrite sinh_0 in G.
  enough (0 - 0 <= sinh x - x) by lra. apply G.
  - intros c _. apply (derivable_pt_lim_minus sinh id); [apply derivable_pt_lim_sinh|apply derivable_pt_lim_id].
  - intros c _. pose proof (cosh_ge1 c). lra.
Qed.
Lemma tanh_below : forall x, 0 <= x -> sinh x <= x * cosh x.
Proof.
  intros x Hx. pose proof (grows (fun c => c * cosh c - sinh c) (fun c => 1 * cosh c + c * sinh c - cosh c) x Hx) as G. cbv beta in G. rewrite sinh_0 in G.
  enough (0 * cosh 0 - 0 <= x * cosh x - sinh x) by lra. apply G.
  - intros c _. apply (derivable_pt_lim_minus (fun c => c * cosh c) sinh); [apply (derivable_pt_lim_mult id cosh); [apply derivable_pt_lim_id|apply derivable_pt_lim_cosh]|apply derivable_pt_lim_sinh].
  - intros c [P _]. pose proof (sinh_above c P). assert (0 <= c * sinh c) by (apply Rmult_le_pos; lra). lra.
Qed.
Lemma sin_below : forall x, 0 <= x -> sin x <= x.
Proof.
  intros x Hx. pose proof (grows (fun c => c - sin c) (fun c => 1 - cos c) x Hx) as G. cbv beta in G. rewrite sin_0 in G.
  enough (0 - 0 <= x - sin x) by lra. apply G.
  - intros c _. apply (derivable_pt_lim_minus id sin); [apply derivable_pt_lim_id|apply derivable_pt_lim_sin].
  - intros c _. pose proof (COS_bound c). lra.
Qed.
Lemma atan_below : forall x, 0 <= x -> atan x <= x.
Proof.
  intros x Hx. pose proof (grows (fun c => c - atan c) (fun c => 1 - / (1 + c ^ 2)) x Hx) as G. cbv beta in G. rewrite atan_0 in G.
  enough (0 - 0 <= x - atan x) by lra. apply G.
  - intros c _. apply (derivable_pt_lim_minus id atan); [apply derivable_pt_lim_id|]. apply derivable_pt_lim_atan.
  - intros c _. assert (/ (1 + c ^ 2) <= / 1) by (apply Rinv_le; [lra|pose proof (pow2_ge_0 c); lra]). rewrite Rinv_1 in *. lra.
Qed.
Lemma asin_above : forall x, 0 <= x <= 1 -> x <= asin x.
Proof.
  intros x Hx. rewrite <- (sin_asin x) at 1 by lra. apply sin_below.
  destruct (Rle_lt_dec 0 (asin x)) as [H|H]; [assumption|]. pose proof (asin_bound x) as [B _]. pose proof PI_RGT_0.
  pose proof (sin_lt_0_var (asin x) ltac:(lra) H) as K. rewrite sin_asin in K by lra. lra.
Qed.
Lemma tan_above : forall x, 0 <= x < PI / 2 -> x <= sin x / cos x.
Proof.
  intros x Hx. change (sin x / cos x) with (tan x). rewrite <- (atan_tan x) at 1 by lra. apply atan_below. pose proof PI_RGT_0.
  destruct Hx as [[P|<-] U]; [left; apply tan_gt_0; assumption|rewrite tan_0; lra].
Qed.
Lemma exp_sinh : forall x, exp x = sinh x + sqrt (sinh x * sinh x + 1).
Proof.
  intros x. replace (sinh x * sinh x + 1) with (cosh x * cosh x).
  - rewrite sqrt_square by (pose proof (cosh_ge1 x); lra). unfold sinh, cosh. lra.
  - unfold sinh, cosh. assert (exp x * exp (- x) = 1) as E by (rewrite <- exp_plus; replace (x + - x) with 0 by ring; apply exp_0). nra.
Qed.
Lemma arsinh_below : forall x, 0 <= x -> ln (x + sqrt (x * x + 1)) <= x.
Proof.
  intros x Hx. rewrite <- (ln_exp x) at 4. apply ln_le; [pose proof (sqrt_pos (x * x + 1)) as S; assert (0 < sqrt (x * x + 1)) by (apply sqrt_lt_R0; nra); lra|].
  rewrite exp_sinh. pose proof (sinh_above x Hx) as S. apply Rplus_le_compat; [assumption|]. apply sqrt_le_1_alt. nra.
Qed.
Lemma arcosh_below : forall x, 1 <= x -> ln (x + sqrt (x * x - 1)) <= x.
Proof.
  intros x Hx. eapply Rle_trans; [|apply arsinh_below; lra]. apply ln_le; [pose proof (sqrt_pos (x * x - 1)); lra|]. apply Rplus_le_compat_l. apply sqrt_le_1_alt. lra.
Qed.
Lemma artanh_above : forall x, 0 <= x < 1 -> x <= ln ((1 + x) / (1 - x)) / 2.
Proof.
  intros x [P U]. set (y := ln ((1 + x) / (1 - x)) / 2).
  assert (0 < (1 + x) / (1 - x)) as Q by (apply Rdiv_lt_0_compat; lra).
  assert (1 <= (1 + x) / (1 - x)) as Q1 by (apply Rmult_le_reg_r with (1 - x); [lra|]; unfold Rdiv; rewrite Rmult_assoc, Rinv_l by lra; lra).
  assert (0 <= y) as Py by (unfold y; pose proof (ln_ge0 _ Q1); lra).
  assert (exp y * exp y = (1 + x) / (1 - x)) as E by (unfold y; rewrite <- exp_plus; replace (ln ((1 + x) / (1 - x)) / 2 + ln ((1 + x) / (1 - x)) / 2) with (ln ((1 + x) / (1 - x))) by field; apply exp_ln; assumption).
  pose proof (tanh_below y Py) as T. unfold sinh, cosh in T.
  assert (exp (- y) = / exp y) as En by apply exp_Ropp. pose proof (exp_pos y) as Pe.
  assert ((exp y * exp y - 1) <= y * (exp y * exp y + 1)) as T2.
  { rewrite En in T. assert (exp y * / exp y = 1) as I by (apply Rinv_r; lra).
    assert ((exp y - / exp y) / 2 * (2 * exp y) <= y * ((exp y + / exp y) / 2) * (2 * exp y)) as T' by (apply Rmult_le_compat_r; lra).
    replace ((exp y - / exp y) / 2 * (2 * exp y)) with (exp y * exp y - exp y * / exp y) in T' by (field; lra).
    replace (y * ((exp y + / exp y) / 2) * (2 * exp y)) with (y * (exp y * exp y + exp y * / exp y)) in T' by (field; lra). rewrite I in T'. lra. }
  rewrite E in T2. assert ((1 + x) / (1 - x) - 1 = 2 * x * / (1 - x)) as E1 by (field; lra). assert ((1 + x) / (1 - x) + 1 = 2 * / (1 - x)) as E2 by (field; lra).
  rewrite E1, E2 in T2. apply Rmult_le_reg_r with (2 * / (1 - x)); [assert (0 < / (1 - x)) by (apply Rinv_0_lt_compat; lra); lra|]. lra.
Qed.
Lemma pow2_above : forall b x, 2 <= b -> x <= Rpower b x.
Proof.
  intros b x Hb. destruct (Rle_lt_dec x 0) as [H|H]; [unfold Rpower; pose proof (exp_pos (x * ln b)); lra|].
  unfold Rpower. set (z := x * ln b). pose proof (exp_above (z - 1)) as K. replace (1 + (z - 1)) with z in K by ring.
  assert (exp z = exp (z - 1) * exp 1) as E by (rewrite <- exp_plus; f_equal; ring).
  pose proof (exp_above 1) as E1. 
  assert (/ 2 <= ln b) as L.
  { apply Rle_trans with (ln 2); [|apply ln_le; lra]. pose proof ln_lt_2. lra. }
  assert (x * / 2 <= z) as Z by (unfold z; apply Rmult_le_compat_l; lra). rewrite E. nra.
Qed.
Lemma logb_below : forall b x, 2 <= b -> 0 < x -> ln x / ln b <= x.
Proof.
  intros b x Hb Px. assert (0 < ln b) as L by (rewrite <- ln_1; apply ln_increasing; lra). apply Rmult_le_reg_r with (ln b); [assumption|]. unfold Rdiv. rewrite Rmult_assoc, Rinv_l, Rmult_1_r by lra.
  rewrite <- (ln_exp (x * ln b)). apply ln_le; [assumption|]. apply (pow2_above b x Hb).
Qed.

Lemma sinh_neg : forall x, sinh (- x) = - sinh x.
Proof. intros x. unfold sinh. rewrite Ropp_involutive. lra. Qed.
Lemma cosh_neg : forall x, cosh (- x) = cosh x.
Proof. intros x. unfold cosh. rewrite Ropp_involutive. lra. Qed.
Lemma arsinh_neg : forall x, ln (- x + sqrt (- x * - x + 1)) = - ln (x + sqrt (x * x + 1)).
Proof.
  intros x. replace (- x * - x + 1) with (x * x + 1) by ring. set (s := sqrt (x * x + 1)).
  assert (s * s = x * x + 1) as S by (apply sqrt_sqrt; nra). assert (0 < s) as Ps by (apply sqrt_lt_R0; nra).
  assert (0 < x + s) as P1 by nra. assert (0 < - x + s) as P2 by nra.
  assert (ln (- x + s) + ln (x + s) = 0); [|lra]. rewrite <- ln_mult by assumption. replace ((- x + s) * (x + s)) with (s * s - x * x) by ring. rewrite S. replace (x * x + 1 - x * x) with 1 by ring. apply ln_1.
Qed.
Lemma artanh_neg : forall x, -1 < x < 1 -> ln ((1 + - x) / (1 - - x)) / 2 = - (ln ((1 + x) / (1 - x)) / 2).
Proof.
  intros x H. assert (0 < (1 + x) / (1 - x)) as P by (apply Rdiv_lt_0_compat; lra). replace ((1 + - x) / (1 - - x)) with (/ ((1 + x) / (1 - x))) by (field; lra). rewrite ln_Rinv by assumption. lra.
Qed.
Lemma odd_abs : forall (f : R -> R) x, (f (- x) = - f x) -> Rabs (f (Rabs x)) = Rabs (f x).
Proof. intros f x O. destruct (Rle_lt_dec 0 x); [rewrite (Rabs_pos_eq x) by assumption; reflexivity|]. rewrite (Rabs_left x), O by assumption. apply Rabs_Ropp. Qed.

Lemma real_versus : forall u x, defined u x -> versus_argument u x (real_fun u x).
Proof.
  intros u x D. pose proof (Rabs_pos x) as Ax.
  destruct u; cbn [versus_argument real_fun defined] in *; try exact I.
  - pose proof (exp_above x). lra.
  - pose proof (exp_above x). lra.
  - apply pow2_above. lra.
  - apply pow2_above. lra.
  - pose proof (ln_below x D). lra.
  - pose proof (ln_below (1 + x)). lra.
  - apply logb_below; lra.
  - apply logb_below; lra.
  - (* sin *) rewrite <- (odd_abs sin) by apply sin_neg. pose proof (sin_below _ Ax) as S. pose proof (SIN_bound (Rabs x)) as B.
    apply Rabs_le. split; [|assumption]. destruct (Rle_lt_dec 1 (Rabs x)) as [H|H]; [lra|].
    pose proof PI2_1. pose proof (sin_ge_0 (Rabs x) Ax ltac:(lra)). lra.
  - (* tan *) intros H. rewrite <- (odd_abs (fun x => sin x / cos x)) by (rewrite sin_neg, cos_neg; unfold Rdiv; ring). pose proof (tan_above (Rabs x) ltac:(lra)) as T. pose proof (Rle_abs (sin (Rabs x) / cos (Rabs x))). lra.
  - (* asin *) rewrite <- (odd_abs asin) by apply asin_opp. pose proof (asin_above (Rabs x) ltac:(split; [assumption|apply Rabs_le; assumption])). pose proof (Rle_abs (asin (Rabs x))). lra.
  - (* atan *) rewrite <- (odd_abs atan) by apply atan_opp. pose proof (atan_below _ Ax). apply Rabs_le. split; [|assumption].
    destruct Ax as [P|<-]; [|rewrite atan_0; lra]. assert (atan 0 < atan (Rabs x)) by (apply atan_increasing; assumption). rewrite atan_0 in *. lra.
  - rewrite <- (odd_abs sinh) by apply sinh_neg. pose proof (sinh_above _ Ax). pose proof (Rle_abs (sinh (Rabs x))). lra.
  - (* tanh *) rewrite <- (odd_abs (fun x => sinh x / cosh x)) by (rewrite sinh_neg, cosh_neg; unfold Rdiv; ring). pose proof (tanh_below _ Ax) as T. pose proof (sinh_above _ Ax) as S. pose proof (cosh_ge1 (Rabs x)) as C.
    assert (0 < / cosh (Rabs x)) as Pi by (apply Rinv_0_lt_compat; lra). rewrite Rabs_pos_eq by (apply Rmult_le_pos; lra).
    unfold Rdiv. apply Rmult_le_reg_r with (cosh (Rabs x)); [lra|]. rewrite Rmult_assoc, Rinv_l, Rmult_1_r by lra. assumption.
  - rewrite <- (odd_abs (fun x => ln (x + sqrt (x * x + 1)))) by apply arsinh_neg. pose proof (arsinh_below _ Ax). apply Rabs_le. split; [|assumption].
    assert (0 <= ln (Rabs x + sqrt (Rabs x * Rabs x + 1))); [|lra]. apply ln_ge0. assert (sqrt 1 <= sqrt (Rabs x * Rabs x + 1)) by (apply sqrt_le_1_alt; nra). rewrite sqrt_1 in *. lra.
  - apply arcosh_below. assumption.
  - rewrite <- (odd_abs (fun x => ln ((1 + x) / (1 - x)) / 2)) by (apply artanh_neg; assumption). pose proof (artanh_above (Rabs x) ltac:(split; [assumption|apply Rabs_def1; lra])).
    pose proof (Rle_abs (ln ((1 + Rabs x) / (1 - Rabs x)) / 2)). lra.
Qed.

Theorem unary_versus : forall lm u w t x, c99 lm -> w <> W64 -> is_intn (bits w) t -> value Linear (bits w) t = Some x -> regular Linear (bits w) u x ->
  exists r y, api_unary Linear lm u w t = Val r /\ value Linear (bits w) r = Some y /\ versus_argument u x y.
Proof.
  intros lm u w t x C Nw It Hx Rg. destruct (unary_range Linear lm u w t x C Nw It Hx Rg) as (r & y & E & Vy & _). exists r, y. split; [assumption|]. split; [assumption|].
  destruct (Req_dec (argument_error u) 0) as [Ha|Ha]; [|destruct u; try exact I; cbn in Ha; lra].
  destruct (unary_faithful lm u w t x C Nw Ha It Hx Rg) as (r' & E' & Rf). assert (r' = r) as -> by congruence. destruct (narrow_bits w Nw) as [Sw _].
  assert (defined u x) as D. { destruct (unary_faithful_near Linear lm u w t x C Nw It Hx Rg) as (r' & x' & _ & Dx & D & _). apply no_dist in Dx; [|unfold spread; rewrite Ha; cbn [conversion_error]; lra]. subst x'. assumption. }
  pose proof (real_versus u x D) as V. set (z := real_fun u x) in *.
  pose proof (fun H => faithful_le Linear _ _ _ _ _ _ Sw Rf Vy It Hx H) as L1. pose proof (fun H => faithful_ge Linear _ _ _ _ _ _ Sw Rf Vy It Hx H) as G1.
  assert (exists a, is_intn (bits w) a /\ value Linear (bits w) a = Some (- x)) as (a & Ia & Va).
  { destruct (negation_negates Linear (bits w) t Sw It) as (I' & _ & x1 & V1 & V2); [intros ->; rewrite value_nar in Hx by (pose proof (std_range _ Sw); lia); discriminate|]. assert (x1 = x) as -> by congruence. exists (- t)%Z. split; assumption. }
  pose proof (fun H => faithful_le Linear _ _ _ _ _ _ Sw Rf Vy Ia Va H) as L2. pose proof (fun H => faithful_ge Linear _ _ _ _ _ _ Sw Rf Vy Ia Va H) as G2.
  assert (Rabs z <= Rabs x -> Rabs y <= Rabs x) as A1.
  { intros H. unfold Rabs at 2 in H. unfold Rabs at 2. destruct (Rcase_abs x); apply Rabs_le_inv in H; apply Rabs_le; split.
    - rewrite Ropp_involutive in *. apply G1. lra.
    - apply L2. lra.
    - apply G2. lra.
    - apply L1. lra. }
  assert (Rabs x <= Rabs z -> Rabs x <= Rabs y) as A2.
  { intros H. unfold Rabs at 1 2 in H. destruct (Rcase_abs z), (Rcase_abs x).
    - specialize (L1 ltac:(lra)). rewrite !Rabs_left by lra. lra.
    - specialize (L2 ltac:(lra)). rewrite (Rabs_pos_eq x) by lra. rewrite Rabs_left1; lra.
    - specialize (G2 ltac:(lra)). rewrite (Rabs_left x), Rabs_pos_eq by lra. lra.
    - specialize (G1 ltac:(lra)). rewrite !Rabs_pos_eq by lra. lra. }
  destruct u; cbn [versus_argument] in *; auto.
Qed.
Lemma below_half_pi : Rabs 1 < PI / 2.
Proof. rewrite Rabs_pos_eq by lra. pose proof PI2_1. lra. Qed.

Lemma abs_takum : forall n t x, std_width n -> is_intn n t -> value Linear n t = Some x -> exists a, is_intn n a /\ value Linear n a = Some (Rabs x).
Proof.
  intros n t x Sw It Hx. unfold Rabs. destruct (Rcase_abs x); [|exists t; split; assumption].
  destruct (negation_negates Linear n t Sw It) as (I' & _ & x1 & V1 & V2); [intros ->; rewrite value_nar in Hx by (pose proof (std_range _ Sw); lia); discriminate|].
  assert (x1 = x) as -> by congruence. exists (- t)%Z. split; assumption.
Qed.
Theorem hypotenuse_legs : forall lm w s t x y, c99 lm -> w <> W64 -> is_intn (bits w) s -> is_intn (bits w) t -> value Linear (bits w) s = Some x -> value Linear (bits w) t = Some y ->
  exists z v, api_binary Linear lm n_hypotenuse w s t = Val z /\ value Linear (bits w) z = Some v /\ Rabs x <= v /\ Rabs y <= v.
Proof.
  intros lm w s t x y C Nw Is It Hx Hy. destruct (narrow_bits w Nw) as [Sw _].
  destruct (binary_faithful lm C n_hypotenuse w s t x y (sqrt (x * x + y * y)) Nw ltac:(discriminate) ltac:(discriminate) Is It Hx Hy eq_refl) as (z & E & Rf).
  destruct (faithful_value _ _ _ _ Sw Rf) as (Iz & v & Vz & _). exists z, v. split; [assumption|]. split; [assumption|].
  assert (forall a, (a = x \/ a = y) -> Rabs a <= sqrt (x * x + y * y)) as K.
  { intros a Ha. rewrite <- sqrt_Rsqr_abs. apply sqrt_le_1_alt. unfold Rsqr. pose proof (Rle_0_sqr x) as P1. pose proof (Rle_0_sqr y) as P2. unfold Rsqr in P1, P2. destruct Ha as [-> | ->]; lra. }
  destruct (abs_takum _ _ _ Sw Is Hx) as (a & Ia & Va). destruct (abs_takum _ _ _ Sw It Hy) as (b & Ib & Vb).
  split; [apply (faithful_ge Linear _ _ _ _ _ _ Sw Rf Vz Ia Va)|apply (faithful_ge Linear _ _ _ _ _ _ Sw Rf Vz Ib Vb)]; apply K; tauto.
Qed.
Lemma pow_ge_self : forall x j, (1 <= j)%nat -> (1 <= x -> x <= x ^ j) /\ (0 <= x <= 1 -> 0 <= x ^ j <= x).
Proof.
  intros x j Hj. destruct j as [|j]; [lia|]. clear Hj. cbn [pow]. split; intros H.
  - pose proof (pow_R1_Rle x j H). nra.
  - assert (0 <= x ^ j <= 1) as K by (split; [apply pow_le; lra|rewrite <- (pow1 j); apply pow_incr; assumption]). nra.
Qed.
Theorem integer_power_versus : forall lm w t j x, c99 lm -> is_intn (bits w) t -> is_int64 j -> (0 < j)%Z -> value Linear (bits w) t = Some x ->
  exists r y, api_integer_power Linear lm w t j = Val r /\ value Linear (bits w) r = Some y /\ (1 <= x -> x <= y) /\ (0 <= x <= 1 -> 0 <= y <= x).
Proof.
  intros lm w t j x C It Hj Pj Hx. assert (std_width (bits w)) as Sw by (destruct w; unfold std_width; simpl; tauto).
  destruct (integer_power_faithful lm C w t j x It Hj Hx (or_intror Pj)) as (r & E & Rf). destruct (faithful_value _ _ _ _ Sw Rf) as (Ir & y & Vy & _). exists r, y. split; [assumption|]. split; [assumption|].
  assert (powerRZ x j = x ^ Z.to_nat j) as Ep by (destruct j; try lia; reflexivity). destruct (pow_ge_self x (Z.to_nat j) ltac:(lia)) as [K1 K2]. rewrite Ep in Rf.
  assert (is_intn (bits w) 0) as I0 by (unfold is_intn; pose proof (std_range _ Sw); pose proof (Z.pow_pos_nonneg 2 (bits w - 1) ltac:(lia) ltac:(lia)); lia).
  split; [intros H; apply (faithful_ge Linear _ _ _ _ _ _ Sw Rf Vy It Hx); auto|]. intros H. specialize (K2 H). split.
  - apply (faithful_ge Linear _ _ _ _ _ _ Sw Rf Vy I0 (value_0 _ _)). lra.
  - apply (faithful_le Linear _ _ _ _ _ _ Sw Rf Vy It Hx). lra.
Qed.
Theorem root_versus : forall lm w t j x, c99 lm -> w <> W64 -> is_intn (bits w) t -> is_int64 j -> (0 < j)%Z -> value Linear (bits w) t = Some x -> 0 < x ->
  exists r y, api_root Linear lm w t j = Val r /\ value Linear (bits w) r = Some y /\ (1 <= x -> 1 <= y <= x) /\ (x <= 1 -> x <= y <= 1).
Proof.
  intros lm w t j x C Nw It Hj Pj Hx Px. destruct (narrow_bits w Nw) as [Sw _].
  assert (exists r0, is_root j x r0) as (r0 & Hr).
  { exists (Rpower x (/ IZR j)). split; [lia|]. assert (0 < Rpower x (/ IZR j)) as P by apply exp_pos. split; [lra|]. split; [|repeat split; lra].
    replace (powerRZ (Rpower x (/ IZR j)) j) with (Rpower x (/ IZR j) ^ Z.to_nat j) by (destruct j; try lia; reflexivity).
    rewrite <- Rpower_pow by assumption. rewrite Rpower_mult, INR_IZR_INZ, Z2Nat.id by lia. rewrite Rinv_l by (apply not_0_IZR; lia). apply Rpower_1. assumption. }
  destruct (root_faithful lm C w t j x r0 Nw It Hj Hx (or_introl Px) Hr) as (r & E & Rf). destruct (faithful_value _ _ _ _ Sw Rf) as (Ir & y & Vy & _). exists r, y. split; [assumption|]. split; [assumption|].
  destruct Hr as (_ & _ & Er & Pr & _). specialize (Pr Px). assert (powerRZ r0 j = r0 ^ Z.to_nat j) as Ep by (destruct j; try lia; reflexivity). rewrite Ep in Er.
  destruct (pow_ge_self r0 (Z.to_nat j) ltac:(lia)) as [K1 K2]. rewrite Er in K1, K2. destruct (value_one_k Linear (bits w) Sw) as [V1 I1].
  split; intros H.
  - assert (1 <= r0) as G by (destruct (Rle_lt_dec 1 r0) as [|L]; [assumption|]; specialize (K2 ltac:(lra)); lra).
    split; [apply (faithful_ge Linear _ _ _ _ _ _ Sw Rf Vy I1 V1)|apply (faithful_le Linear _ _ _ _ _ _ Sw Rf Vy It Hx)]; [assumption|apply K1; assumption].
  - assert (r0 <= 1) as G by (destruct (Rle_lt_dec r0 1) as [|L]; [assumption|]; specialize (K1 ltac:(lra)); lra). specialize (K2 ltac:(lra)).
    split; [apply (faithful_ge Linear _ _ _ _ _ _ Sw Rf Vy It Hx)|apply (faithful_le Linear _ _ _ _ _ _ Sw Rf Vy I1 V1)]; lra.
Qed.
