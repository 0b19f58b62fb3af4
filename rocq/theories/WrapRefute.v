(** Claims that are false of the elementary functions. *)
From Coq Require Import ZArith Reals Bool Lia Lra Psatz.
From Flocq Require Import Core.Core IEEE754.BinarySingleNaN.
From Verif Require Import CModel FloatModel Libm LibmSpec Spec CodeFacts SpecFacts ValueFacts WidthFacts WidthApi Conversion Wrappers LinApi WrapApi WrapSpec FloatFacts RoundFacts Machine LogFacts LinDec LinOps LinArith LinArithRefute LinAlgebra LinProps RealBounds LogProps MiscProps LogConv WrapTotal WrapNar FloatAcc RealFacts FixFacts WrapAcc WrapAcc2 WrapAcc3 WrapMain WrapDom WrapSmall WrapPi.
Local Open Scope R_scope.
Ltac bp := destruct bpow_62 as (Q0 & Q62 & Q61 & Q64 & Qs & Q49 & Q50 & Q48 & Q53 & Q60 & Q59).

(** ** pi as a long double is not pi *)
Lemma pi_gap : exists p, isf (PI_ x86_64) p /\ FF f80 (p * bpow radix2 (-1)) /\ bpow radix2 (-66) <= p - PI <= bpow radix2 (-60).
Proof.
  exists (IZR 14488038916154245685 * bpow radix2 (-62)). split; [apply const_isf; vm_compute; reflexivity|]. split; [rewrite Rmult_assoc, <- bpow_plus; apply FF_dyadic; vm_compute; discriminate|].
  destruct ipi_in as [H1 H2]. 
  assert (IZR 14488038916154245685 * bpow radix2 (-62) = sc (14488038916154245685 * 2 ^ (PB - 62))) as ->.
  { unfold sc. rewrite mult_IZR, Rmult_assoc. f_equal. symmetry. apply (sc_b 62). vm_compute. discriminate. }
  change (bpow radix2 (-66)) with (bpow radix2 (Z.opp 66)). change (bpow radix2 (-60)) with (bpow radix2 (Z.opp 60)).
  rewrite <- (sc_b 66), <- (sc_b 60) by (vm_compute; discriminate).
  assert (sc (2 ^ (PB - 66)) <= sc (14488038916154245685 * 2 ^ (PB - 62)) - sc (hi ipi) /\ sc (14488038916154245685 * 2 ^ (PB - 62)) - sc (lo ipi) <= sc (2 ^ (PB - 60))) as K; [|lra].
  rewrite <- !sc_minus. split; apply sc_le; vm_compute; discriminate.
Qed.
Lemma sin_lower : forall d, 0 < d <= 1 -> d / 2 <= sin d /\ sin d <= d /\ / 2 <= cos d.
Proof.
  intros d H. pose proof PI_bounds as PB_. assert (forall c, 0 <= c <= 1 -> / 2 <= cos c) as Hc.
  { intros c K. rewrite <- cos_PI3 || replace (/ 2) with (1 / 2) by lra. rewrite <- cos_PI3. apply cos_decr_1; lra. }
  split; [|split; [apply Rlt_le, sin_lt_x; lra|apply Hc; lra]].
  destruct (MVT_cor2 sin cos 0 d) as (c & E & Bc); [lra|intros; apply derivable_pt_lim_sin|]. rewrite sin_0, !Rminus_0_r in E. rewrite E. specialize (Hc c ltac:(lra)).
  assert (/ 2 * d <= cos c * d) by (apply Rmult_le_compat_r; lra). lra.
Qed.

Section Refute.
Variable lm : libm.
Hypothesis C : c99 lm.

(** pi times -1 and -1/2 *)
Lemma pi_neg : forall (x : flt f80) a, isf x a -> a = -1 \/ a = - / 2 -> exists b d, isf (fmul (PI_ x86_64) x) b /\ bpow radix2 (-67) <= d <= bpow radix2 (-60) /\ b = PI * a - d.
Proof.
  intros x a Ix Ha. destruct pi_gap as (p & Ip & Fp2 & Hp). pose proof PI_bounds as PB_. assert (bpow radix2 (-60) <= 1) as B60 by (apply (bpow_le radix2 _ 0); lia).
  pose proof (bpow_gt_0 radix2 (-66)) as P66. assert (bpow radix2 (-66) = 2 * bpow radix2 (-67)) as E66 by (change (-66)%Z with (1 + -67)%Z; rewrite bpow_plus; reflexivity).
  exists (p * a), ((p - PI) * - a). split; [|split; [|ring]].
  - replace (p * a) with (RF f80 (p * a)).
    + apply isf_fmul; [assumption|assumption|]. apply (RF_lt_emax f80 _ 3); [vm_compute; split; discriminate || reflexivity|]. simpl. apply Rabs_le. destruct Ha as [-> | ->]; lra.
    + apply RF_id. pose proof (isf_FF _ _ _ Ip) as Fp. destruct Ha as [-> | ->].
      * replace (p * -1) with (- p) by ring. apply FF_opp. assumption.
      * replace (p * - / 2) with (- (p * bpow radix2 (-1))) by (simpl; lra). apply FF_opp. assumption.
  - destruct Ha as [-> | ->]; lra.
Qed.
(** the value of the function at the rounded argument *)
Lemma bad_val : forall u b d, pi_fun u = true -> bpow radix2 (-67) <= d <= bpow radix2 (-60) -> b = PI * bad_point u - d -> defined u (b / PI) /\ win 70 (real_fun u (b / PI)).
Proof.
  intros u b d Hu Hd E. pose proof PI_bounds as PB_. assert (bpow radix2 (-60) <= 1) as B60 by (apply (bpow_le radix2 _ 0); lia). pose proof (bpow_gt_0 radix2 (-67)) as P67.
  destruct (sin_lower d ltac:(lra)) as (S1 & S2 & S3). pose proof (COS_bound d) as [_ S4].
  assert (win 70 (sin d)) as W1.
  { unfold win. rewrite Rabs_pos_eq by lra. split; [|apply Rle_trans with 1; [lra|apply (bpow_le radix2 0); lia]]. apply Rle_trans with (bpow radix2 (-68)); [apply bpow_le; lia|]. change (-68)%Z with (-67 + -1)%Z. rewrite bpow_plus. simpl (bpow radix2 (-1)). lra. }
  assert (win 68 (cos d * / sin d)) as W2.
  { assert (0 < sin d) as Ps by lra. unfold win. rewrite Rabs_pos_eq by (apply Rmult_le_pos; [lra|left; apply Rinv_0_lt_compat; assumption]).
    assert (bpow radix2 (-68) <= sin d) as L by (change (-68)%Z with (-67 + -1)%Z; rewrite bpow_plus; simpl (bpow radix2 (-1)); lra).
    split; [|apply Rle_trans with (1 * / bpow radix2 (-68)); [apply Rmult_le_compat; try lra; [left; apply Rinv_0_lt_compat; assumption|apply Rinv_le_contravar; [apply bpow_gt_0|assumption]]|rewrite <- bpow_opp; simpl (- -68)%Z; lra]].
    apply Rle_trans with (/ 2 * 1); [apply Rle_trans with (bpow radix2 (-1)); [apply bpow_le; lia|simpl; lra]|]. apply Rmult_le_compat; try lra. rewrite <- Rinv_1 at 1. apply Rinv_le_contravar; lra. }
  pose proof (win_inv _ _ W1) as W3.
  assert (forall h y, win h y -> win h (- y)) as Wo by (intros; apply win_opp; assumption).
  assert (forall k y, (0 <= k)%Z -> win 68 y -> win 70 y) as Wk by (intros; eapply win_weaken; [eassumption|lia]).
  assert (sin d <> 0 /\ cos d <> 0) as [N1 N2] by lra.
  assert (PI * (b / PI) = b) as Eb by (field; lra).
  assert (sin (PI * -1 - d) = sin d /\ cos (PI * - / 2 - d) = - sin d /\ sin (PI * - / 2 - d) = - cos d) as (T1 & T2 & T3).
  { replace (PI * -1 - d) with (- (d + PI)) by ring. replace (PI * - / 2 - d) with (- (PI / 2 + d)) by field. rewrite !sin_neg, cos_neg, neg_sin. repeat split; [ring|rewrite cos_sin; replace (PI / 2 + (PI / 2 + d)) with (d + PI) by field; apply neg_sin|rewrite <- cos_sin; reflexivity]. }
  destruct u; try discriminate Hu; cbn [defined real_fun bad_point] in *; rewrite Eb; subst b; rewrite ?T1, ?T2, ?T3.
  - split; [exact I|assumption].
  - split; [exact I|apply Wo; assumption].
  - split; [lra|]. replace (- cos d / - sin d) with (cos d * / sin d) by (field; lra). eapply win_weaken; [exact W2|lia].
  - split; [lra|]. replace (- sin d / - cos d) with (/ (cos d * / sin d)) by (field; lra). eapply win_weaken; [apply win_inv; exact W2|lia].
  - split; [lra|]. replace (/ - sin d) with (- / sin d) by (field; lra). apply Wo. assumption.
  - split; [lra|]. assumption.
Qed.
Lemma bad_ld : forall u (x : flt f80), pi_fun u = true -> isf x (bad_point u) -> exists z, isf (unary_ld x86_64 lm u x) z /\ win 71 z.
Proof.
  intros u x Hu Ix. bp. assert (bad_point u = -1 \/ bad_point u = - / 2) as Hp by (destruct u; simpl; tauto).
  destruct (pi_neg x _ Ix Hp) as (b & d & Ib & Hd & Eb). destruct (bad_val u b d Hu Hd Eb) as [D W].
  assert (win 900 (real_fun u (b / PI))) as W9 by (eapply win_weaken; [exact W|lia]).
  assert (near e8 850 f80 (real_fun u (b / PI)) (unary_ld x86_64 lm u x)) as N.
  { assert (isf (ffmod x (two f80)) (bad_point u)) as I2.
    { replace (bad_point u) with (bad_point u - 2 * IZR (Ztrunc (bad_point u / 2))) at 1; [apply isf_ffmod; [assumption|apply isf_two|lra]|].
      replace (Ztrunc (bad_point u / 2)) with 0%Z; [ring|]. symmetry. rewrite Ztrunc_ceil by lra. apply Zceil_imp. simpl. lra. }
    assert (bad_point u = - / 2 -> isf (ffmod x (one f80)) (bad_point u)) as I1.
    { intros E. replace (bad_point u) with (bad_point u - 1 * IZR (Ztrunc (bad_point u / 1))) at 1; [apply isf_ffmod; [assumption|apply isf_one|lra]|].
      replace (Ztrunc (bad_point u / 1)) with 0%Z; [ring|]. symmetry. rewrite Ztrunc_ceil by lra. apply Zceil_imp. simpl. lra. }
    destruct u; try discriminate Hu; cbn [bad_point unary_ld defined real_fun] in *; rewrite pib in *;
    unfold sinpil, cospil, tanpil, cot_pi_timesl, sec_pi_timesl, csc_pi_timesl; change (ld x86_64) with f80; cbv zeta.
    - rewrite !(feq_isf _ _ _ _ I2 (FloatFacts.isf_zero f80)), (feq_isf _ _ _ _ I2 isf_half), (feq_isf _ _ _ _ I2 isf_1), (feq_isf _ _ _ _ I2 isf_3half), !Req_bool_false by lra. eapply lib8; [assumption|exact Ib|exact I|reflexivity].
    - rewrite !(feq_isf _ _ _ _ I2 (FloatFacts.isf_zero f80)), (feq_isf _ _ _ _ I2 isf_half), (feq_isf _ _ _ _ I2 isf_1), (feq_isf _ _ _ _ I2 isf_3half), !Req_bool_false by lra. eapply lib8; [assumption|exact Ib|exact I|reflexivity].
    - specialize (I1 eq_refl). rewrite !(feq_isf _ _ _ _ I1 (FloatFacts.isf_zero f80)), (feq_isf _ _ _ _ I1 isf_half), !Req_bool_false by lra. eapply lib8; [assumption|exact Ib|exact D|reflexivity].
    - specialize (I1 eq_refl). rewrite !(feq_isf _ _ _ _ I1 (FloatFacts.isf_zero f80)), (feq_isf _ _ _ _ I1 isf_half), !Req_bool_false by lra. apply cot_near; assumption.
    - rewrite !(feq_isf _ _ _ _ I2 (FloatFacts.isf_zero f80)), (feq_isf _ _ _ _ I2 isf_half), (feq_isf _ _ _ _ I2 isf_1), (feq_isf _ _ _ _ I2 isf_3half), !Req_bool_false by lra. apply sec_near; assumption.
    - rewrite !(feq_isf _ _ _ _ I2 (FloatFacts.isf_zero f80)), (feq_isf _ _ _ _ I2 isf_half), (feq_isf _ _ _ _ I2 isf_1), (feq_isf _ _ _ _ I2 isf_3half), !Req_bool_false by lra. apply csc_near; assumption. }
  destruct (near_acc _ _ _ _ _ N (or_intror W9)) as (z & Iz & Hz). exists z. split; [assumption|].
  assert (e8 <= / 2) as E8 by (unfold e8; replace (/ 2) with (bpow radix2 (-1)) by (simpl; lra); apply bpow_le; lia).
  destruct W as [W1 W2]. change (- (70))%Z with (-70)%Z in W1. unfold win. change (- (71))%Z with (-70 + -1)%Z. change 71%Z with (70 + 1)%Z. rewrite !bpow_plus. simpl (bpow radix2 1). simpl (bpow radix2 (-1)).
  set (R_ := real_fun u (b / PI)) in *. pose proof (Rabs_pos R_) as PR. assert (e8 * Rabs R_ <= / 2 * Rabs R_) by (apply Rmult_le_compat_r; lra).
  pose proof (Rabs_triang_inv R_ (R_ - z)) as T1. replace (R_ - (R_ - z)) with z in T1 by ring. rewrite (Rabs_minus_sym R_ z) in T1.
  pose proof (Rabs_triang R_ (z - R_)) as T2. replace (R_ + (z - R_)) with z in T2 by ring. lra.
Qed.
End Refute.

(** neither 0 nor NaR comes out, although the function is 0 or undefined there *)
Lemma bad_truth : forall u, pi_fun u = true -> ~ defined u (bad_point u) \/ real_fun u (bad_point u) = 0.
Proof.
  intros u Hu. destruct sincos_quarter as (S0 & C0 & S1 & C1 & S2 & C2 & S3 & C3).
  assert (sin (PI * -1) = 0) as E1 by (replace (PI * -1) with (- (PI * 1)) by ring; rewrite sin_neg; lra). assert (cos (PI * - / 2) = 0) as E2 by (replace (PI * - / 2) with (- (PI * / 2)) by ring; rewrite cos_neg; lra).
  destruct u; try discriminate Hu; cbn [bad_point defined real_fun]; rewrite ?E1, ?E2; try (right; reflexivity); try (left; lra). right. unfold Rdiv. ring.
Qed.
Theorem pi_negative_wrong : forall lm u w t, c99 lm -> pi_fun u = true -> is_intn (bits w) t -> value Linear (bits w) t = Some (bad_point u) ->
  exists t', api_unary Linear lm u w t = Val t' /\ t' <> 0%Z /\ t' <> nar (bits w).
Proof.
  intros lm u w t C Hu It Hx. cbn [api_unary]. unfold takum_linear_unary, unary_lin. assert (6 <= bits w <= 64)%Z as Hn by (destruct w; simpl; lia).
  assert (forall F (f : flt F -> outcome Z), linear_from_float (bits w) F f -> forall (z : flt F) r, isf z r -> r <> 0 -> exists t, f z = Val t /\ t <> 0%Z /\ t <> nar (bits w)) as Fr.
  { intros F f H z r [Fz Vz] Nr. destruct (lin_from_faithful _ _ _ z H Fz) as (t' & E & _ & Rt). exists t'. split; [assumption|]. rewrite Vz in Rt. destruct Rt as [[? _]|[_ [[_ [H1 H2]] _]]]; [contradiction|]. split; assumption. }
  assert (forall F (x y : flt F), unary_fixer u F x y = y) as Fx by (intros; destruct u; try discriminate Hu; reflexivity).
  assert (w <> W64 -> exists t', (let! arg := lin_to_double x86_64 w t in lin_from_double x86_64 w (unary_fixer u f64 arg (unary_double x86_64 lm u arg))) = Val t' /\ t' <> 0%Z /\ t' <> nar (bits w)) as Dbl.
  { intros Nw. destruct (dbl_arg w t _ Nw It Hx) as (y & Ey & Iy & A & Z0). rewrite Ey. cbn [bind]. rewrite Fx.
    assert (isf (fcast f80 y) (bad_point u)) as Iy' by (apply isf_fcast_up; [split; vm_compute; discriminate|assumption]).
    assert (unary_double x86_64 lm u y = fcast f64 (unary_ld x86_64 lm u (fcast f80 y))) as -> by (destruct u; try discriminate Hu; reflexivity).
    destruct (bad_ld lm C u _ Hu Iy') as (z & Iz & Wz). apply (Fr f64 _ (lin_d_from w) _ (RF f64 z)).
    - apply isf_fcast; [assumption|]. apply (RF_lt_emax f64 _ 71); [vm_compute; split; discriminate || reflexivity|apply Wz].
    - pose proof (RF_rel9 f64 z w64) as K. destruct Wz as [W1 _]. pose proof (bpow_gt_0 radix2 (- (71))) as P. intros E. rewrite E in K. rewrite Rminus_0_l, Rabs_Ropp in K. 
      assert (bpow radix2 (-960) <= Rabs z) as Q by (eapply Rle_trans; [apply bpow_le|exact W1]; lia). specialize (K Q). assert (bpow radix2 (- fprec f64) <= / 2) by (replace (/ 2) with (bpow radix2 (-1)) by (simpl; lra); apply bpow_le; vm_compute; discriminate).
      assert (bpow radix2 (- fprec f64) * Rabs z <= / 2 * Rabs z) by (apply Rmult_le_compat_r; [apply Rabs_pos|lra]). lra. }
  destruct w; try (apply Dbl; discriminate).
  destruct (ld_arg t _ It Hx) as (y & Ey & Iy & A & Z0). rewrite Ey. cbn [bind]. change (ld x86_64) with f80. rewrite Fx.
  destruct (bad_ld lm C u _ Hu Iy) as (z & Iz & Wz). apply (Fr f80 _ (lin_ld_from W64) _ z Iz). eapply win_nz. exact Wz.
Qed.

(** ** arcoth just above 1 *)
Theorem arcoth_wrong : forall lm, c99 lm -> value Linear 64 (2 ^ 62 + 1) = Some (1 + bpow radix2 (-59)) /\ api_unary Linear lm n_arcoth W64 (2 ^ 62 + 1) = Val (nar 64).
Proof.
  intros lm C. split.
  - rewrite value_const by (vm_compute; split; reflexivity || discriminate). f_equal. change (vm 64 (2 ^ 62 + 1)) with (2 ^ 59 + 1)%Z. change (ve 64 (2 ^ 62 + 1)) with (-59)%Z.
    rewrite plus_IZR, IZR_pow2, Rmult_plus_distr_r, <- bpow_plus by lia. simpl (bpow radix2 (59 + -59)). ring.
  - cbn [api_unary]. unfold takum_linear_unary, unary_lin.
    assert (is_intn 64 (2 ^ 62 + 1)) as It by (vm_compute; split; discriminate || reflexivity).
    assert (exists y, lin_to_ld x86_64 W64 (2 ^ 62 + 1) = Val y /\ fcast f64 (fdiv (one f80) y) = one f64) as (y & Ey & E1).
    { eexists. split; [reflexivity|]. apply B2SF_inj. vm_compute. reflexivity. }
    rewrite Ey. cbn [bind]. change (unary_ld x86_64 lm n_arcoth y) with (fcast f80 (m1 lm Fatanh (fcast f64 (fdiv (one f80) y)))). rewrite E1.
    destruct (lib_pole lm C Fatanh f64 (one f64) 1 (isf_one f64)) as (s & -> & _); [cbn [pole1]; tauto|].
    eapply (from_float_nar lm Linear 64); [apply from_float_lin; apply (lin_ld_from W64)|reflexivity].
Qed.

(** ** 2_raised_minus_1 of a tiny number *)
Lemma tiny_R1 : is_real_takum 64 (125 * 2 ^ 53).
Proof. split; [vm_compute; split; discriminate || reflexivity|split; intros X; vm_compute in X; discriminate X]. Qed.
Lemma tiny_L1 : l_ 64 (125 * 2 ^ 53) = IZR (-66).
Proof. unfold l_, sgn, m_; replace (S_ 64 (125 * 2 ^ 53)) with 0%Z by (vm_compute; reflexivity); replace (c_ 64 (125 * 2 ^ 53)) with (-66)%Z by (vm_compute; reflexivity); replace (M_ 64 (125 * 2 ^ 53)) with 0%Z by (vm_compute; reflexivity); unfold Rdiv; ring. Qed.
Lemma tiny_R2 : is_real_takum 64 (- (125 * 2 ^ 53)).
Proof. split; [vm_compute; split; discriminate || reflexivity|split; intros X; vm_compute in X; discriminate X]. Qed.
Lemma tiny_L2 : l_ 64 (- (125 * 2 ^ 53)) = IZR (-66).
Proof. unfold l_, sgn, m_; replace (S_ 64 (- (125 * 2 ^ 53))) with 1%Z by (vm_compute; reflexivity); replace (c_ 64 (- (125 * 2 ^ 53))) with 66%Z by (vm_compute; reflexivity); replace (M_ 64 (- (125 * 2 ^ 53))) with 0%Z by (vm_compute; reflexivity); unfold Rdiv; ring. Qed.
Theorem minus_1_wrong : forall lm u, c99 lm -> u = n_2_raised_minus_1 \/ u = n_10_raised_minus_1 -> exists t x t' v,
  value Linear 64 t = Some x /\ 0 < real_fun u x <= bpow radix2 (-90) /\ api_unary Linear lm u W64 t = Val t' /\ value Linear 64 t' = Some v /\ (v = 0 \/ bpow radix2 (-66) <= Rabs v).
Proof.
  intros lm u C Hu. assert (exists b, small_fun u = Some b) as (b & Hb) by (destruct Hu as [-> | ->]; eexists; reflexivity).
  destruct (small_base lm C u b Hb) as (Hln & _ & _ & Er & _).
  set (t := (91 * 2 ^ 53)%Z). set (x := bpow radix2 (-100)).
  assert (is_intn 64 t) as It by (vm_compute; split; discriminate || reflexivity).
  assert (value Linear 64 t = Some x) as Hx.
  { rewrite value_const by (vm_compute; split; reflexivity || discriminate). f_equal. change (vm 64 t) with (2 ^ 59)%Z. change (ve 64 t) with (-159)%Z. rewrite IZR_pow2, <- bpow_plus by lia. reflexivity. }
  pose proof (bpow_gt_0 radix2 (-100)) as Px. fold x in Px. assert (x <= bpow radix2 (-10)) as Lx by (apply bpow_le; lia).
  destruct (ld_arg t x It Hx) as (y & Ey & Iy & A & Z0).
  destruct (small_ld lm C u b y x Hb Iy) as (z & Iz & _ & Hz & _); [rewrite Rabs_pos_eq by lra; eapply Rle_trans; [exact Lx|apply bpow_le; lia]|].
  assert (linear_from_float 64 f80 (lin_from_ld x86_64 W64)) as Hf by apply (lin_ld_from W64). destruct Iz as [Fz Vz].
  destruct (lin_from_faithful 64 f80 _ _ Hf Fz) as (t' & E & It' & Rt0). assert (rounds_faithfully Linear 64 z t') as Rt by (rewrite <- Vz; exact Rt0).
  assert (exists v, value Linear 64 t' = Some v /\ (v = 0 \/ bpow radix2 (-66) <= Rabs v)) as (v & Hv & Kv).
  { destruct Rt as [[_ ->]|[Nz (Rr & Sg & K)]]; [exists 0; split; [apply value_0|left; reflexivity]|]. destruct Hz as [Hz|Hz]; [contradiction|].
    exists (sg (t' <? 0)%Z * Lin (l_ 64 t')). split; [apply lin_value; [lia|assumption]|]. right. rewrite Rabs_mult, sg_abs, Rmult_1_l, Rabs_pos_eq by (left; apply Lin_pos).
    rewrite <- (Lin_bpow (-66)). apply Lin_le. destruct (Rle_or_lt (IZR (-66)) (l_ 64 t')) as [Q|Q]; [assumption|exfalso].
    assert (IZR (-66) <= lin_coord z) as Lz by (apply lin_coord_ge_iff; [assumption|]; rewrite Lin_bpow; eapply Rle_trans; [|exact Hz]; apply bpow_le; lia).
    destruct (Rlt_bool z 0).
    - destruct (K _ tiny_R2 ltac:(vm_compute; reflexivity)) as [K1 _]. apply K1. rewrite tiny_L2. split; assumption.
    - destruct (K _ tiny_R1 ltac:(vm_compute; reflexivity)) as [K1 _]. apply K1. rewrite tiny_L1. split; assumption. }
  exists t, x, t', v. split; [exact Hx|]. split; [|split; [|split; assumption]].
  - rewrite Er. assert (0 < x * ln b) as Ps by (apply Rmult_lt_0_compat; lra). pose proof (exp_ineq1 (x * ln b) ltac:(lra)) as G. split; [lra|].
    assert (x * ln b <= x * 9) as L1 by (apply Rmult_le_compat_l; lra). assert (bpow radix2 (-90) = 1024 * x) as E90 by (unfold x; change (-90)%Z with (10 + -100)%Z; rewrite bpow_plus; reflexivity).
    set (s := x * ln b) in *. pose proof (exp_ineq1_le (- s)) as K. rewrite exp_Ropp in K. pose proof (exp_pos s). assert (exp s * (1 + - s) <= exp s * / exp s) as L by (apply Rmult_le_compat_l; lra). rewrite Rinv_r in L by lra.
    assert (s <= / 2). { change (bpow radix2 (-10)) with (/ 1024) in Lx. lra. }
    assert (exp s <= 2) by nra. nra.
  - cbn [api_unary]. unfold takum_linear_unary, unary_lin. rewrite Ey. cbn [bind]. rewrite (fix_small u b _ y _ z Hb (conj Fz Vz)). exact E.
Qed.
