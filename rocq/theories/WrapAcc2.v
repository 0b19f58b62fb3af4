(** Accuracy of the functions computed from a rounded intermediate result. *)
From Coq Require Import ZArith Reals Bool Lia Lra Psatz.
From Flocq Require Import Core.Core IEEE754.BinarySingleNaN.
From Verif Require Import CModel FloatModel Libm LibmSpec Spec Conversion Wrappers WrapSpec FloatFacts RoundFacts RealBounds LogConv FloatAcc RealFacts FixFacts WrapAcc.
Local Open Scope R_scope.

Ltac bp := destruct bpow_62 as (Q0 & Q62 & Q61 & Q64 & Qs & Q49 & Q50 & Q48 & Q53 & Q60 & Q59).

Section Core2.
Variable lm : libm.
Hypothesis C : c99 lm.

(** ** Subtracting 1 *)
Lemma sub1 : forall R_ (y : flt f80) k, (k <= 3)%Z -> close k f80 R_ y -> 0 < R_ -> R_ <= 2048 * Rabs (R_ - 1) -> 1 <= 2048 * Rabs (R_ - 1) ->
  near e9 850 f80 (R_ - 1) (fsub y (one f80)).
Proof.
  intros R_ y k Hk Cl P H1 H2. bp. pose proof (isf_one f80) as I1. pose proof (close_near _ _ _ _ w80 Hk Cl) as (N1 & N2 & N3).
  assert (bpow radix2 (k - fprec f80) <= bpow radix2 (-61)) as Ek by (apply bpow_le; simpl; lia).
  assert (bpow radix2 901 = 2 * bpow radix2 900) as E901 by (change 901%Z with (1 + 900)%Z; rewrite bpow_plus; reflexivity).
  assert (1 < bpow radix2 900) as B9 by (apply (bpow_lt radix2 0); lia).
  assert (bpow radix2 (-900) < / 2048) as B9' by (replace (/ 2048) with (bpow radix2 (-11)) by (simpl; lra); apply bpow_lt; lia).
  destruct (Rle_or_lt (Rabs (R_ - 1)) (bpow radix2 900)) as [K|K].
  - apply acc_near; [|right; unfold win; change (- (900))%Z with (-900)%Z; split; lra].
    assert (R_ <= bpow radix2 901) as HR by (apply Rabs_le_inv in K; lra).
    destruct Cl as (_ & _ & S & Cf & Ca & Cs & _). rewrite (Rabs_pos_eq R_) in * by lra.
    assert (bpow radix2 901 <= bpow radix2 (femax f80 - 1)) as Bm by (apply bpow_le; vm_compute; discriminate).
    specialize (Cf ltac:(lra)). set (r := B2R y). assert (isf y r) as Iy by (split; [assumption|reflexivity]).
    assert (Rabs (r - R_) <= bpow radix2 (-50) * Rabs (R_ - 1)) as Hr.
    { destruct (Rle_or_lt (bpow radix2 (3 - femax f80)) R_) as [Q|Q].
      - eapply Rle_trans; [apply Ca; lra|]. apply Rle_trans with (bpow radix2 (-61) * R_); [apply Rmult_le_compat_r; lra|].
        replace (bpow radix2 (-50)) with (bpow radix2 (-61) * 2048) by lra. rewrite Rmult_assoc. apply Rmult_le_compat_l; lra.
      - specialize (Cs Q). fold r in Cs.
        assert (bpow radix2 (3 - femax f80) <= bpow radix2 (-62)) as U1 by (apply bpow_le; vm_compute; discriminate).
        assert (bpow radix2 (4 - femax f80) <= bpow radix2 (-62)) as U2 by (apply bpow_le; vm_compute; discriminate).
        apply Rle_trans with (bpow radix2 (-61)); [|replace (bpow radix2 (-50)) with (bpow radix2 (-61) * 2048) by lra; rewrite Rmult_assoc; rewrite <- (Rmult_1_r (bpow radix2 (-61))) at 1; apply Rmult_le_compat_l; lra].
        apply Rabs_le. apply Rabs_le_inv in Cs. lra. }
    destruct (acc_round (bpow radix2 (-50)) e9 f80 (r - 1) (R_ - 1)) as [A1 A2]; [apply w80|replace (r - 1 - (R_ - 1)) with (r - R_) by ring; assumption|lra| | |].
    + right. unfold win. change (- (950))%Z with (-950)%Z. assert (bpow radix2 (-950) <= bpow radix2 (-900)) by (apply bpow_le; lia). assert (bpow radix2 900 <= bpow radix2 950) by (apply bpow_le; lia). lra.
    + rewrite fp80. unfold e9. rewrite Q50, Q64, Q49. assert (bpow radix2 (-63) * bpow radix2 (-63) <= bpow radix2 (-63) * 1) by (apply Rmult_le_compat_l; lra). nra.
    + exists (RF f80 (r - 1)). split; [apply isf_fsub; assumption|assumption].
  - assert (bpow radix2 900 < R_) as HR.
    { unfold Rabs in K. destruct (Rcase_abs (R_ - 1)); lra. }
    split; [|split].
    + intros [Q|[_ Q]]; [rewrite Q, Rabs_R0 in K; lra|lra].
    + intros _ Q. lra.
    + intros _. rewrite (Rabs_pos_eq R_) in N3 by lra. destruct (N3 HR) as [-> | (r & Ir & Br & Sr)].
      * left. rewrite !Rlt_bool_false by lra. reflexivity.
      * right. assert (0 < r) as Pr by nra. rewrite Rabs_pos_eq in Br by lra.
        assert (bpow radix2 890 = bpow radix2 39 * (2 * bpow radix2 850)) as E8. { change 2 with (bpow radix2 1). rewrite <- !bpow_plus. reflexivity. }
        assert (1 < bpow radix2 850) as B8 by (apply (bpow_lt radix2 0); lia). assert (1 < bpow radix2 39) as B39 by (apply (bpow_lt radix2 0); lia).
        assert (bpow radix2 850 <= r - 1) as Bl by nra.
        assert (RF f80 (bpow radix2 850) <= RF f80 (r - 1) <= RF f80 r) as [M1 M2] by (split; apply RF_mono; lra).
        rewrite RF_id in M1 by (apply FF_bpow; vm_compute; discriminate). rewrite (RF_id f80 r) in M2 by (eapply isf_FF; eassumption).
        pose proof (isf_lt _ _ _ Ir) as Lr. rewrite Rabs_pos_eq in Lr by lra.
        exists (RF f80 (r - 1)). split; [apply isf_fsub; [assumption|assumption|rewrite Rabs_pos_eq; lra]|]. rewrite Rabs_pos_eq by lra. split; [assumption|]. apply Rmult_lt_0_compat; lra.
Qed.

Lemma expm1_gap : forall s, 13 / 10 * bpow radix2 (-11) <= Rabs s -> exp s <= 2048 * Rabs (exp s - 1) /\ 1 <= 2048 * Rabs (exp s - 1).
Proof.
  intros s H. change (bpow radix2 (-11)) with (/ 2048) in H.
  assert (forall t, 13 / 10 * / 2048 <= t -> 1 / 2048 <= 1 - exp (- t)) as K.
  { intros t Ht. rewrite exp_Ropp. pose proof (exp_ineq1_le t). assert (/ exp t <= / (1 + t)) by (apply Rinv_le_contravar; lra).
    assert (/ (1 + t) <= / (1 + 13 / 10 * / 2048)) by (apply Rinv_le_contravar; lra). lra. }
  unfold Rabs in H. destruct (Rcase_abs s) as [N|N].
  - specialize (K (- s) H). rewrite Ropp_involutive in K. rewrite Rabs_left1 by lra. lra.
  - specialize (K s H). rewrite exp_Ropp in K. pose proof (exp_pos s) as E. assert (exp s * (1 / 2048) <= exp s * (1 - / exp s)) as L by (apply Rmult_le_compat_l; lra).
    rewrite Rmult_minus_distr_l, Rinv_r in L by lra. rewrite Rabs_pos_eq by lra. pose proof (exp_ineq1_le s). lra.
Qed.
Lemma arg_tiny : forall v a, arg v a -> bpow radix2 (-10) <= Rabs v -> 999 / 1000 * bpow radix2 (-10) <= Rabs a.
Proof.
  intros v a A H. pose proof (arg_rel _ _ A) as D. assert (bpow radix2 (-56) < / 1000) as B by (apply Rle_lt_trans with (bpow radix2 (-10)); [apply bpow_le; lia|simpl; lra]).
  pose proof (Rabs_triang a (v - a)) as T. replace (a + (v - a)) with v in T by ring. rewrite (Rabs_minus_sym v a) in T.
  assert (bpow radix2 (-56) * Rabs v <= / 1000 * Rabs v) by (apply Rmult_le_compat_r; [apply Rabs_pos|lra]). lra.
Qed.
Lemma side_expm1 : forall u a s, high_ok u = true -> u <> n_csch -> u <> n_sinh -> exp s <= 2048 * Rabs (exp s - 1) -> 1 <= 2048 * Rabs (exp s - 1) -> side u a (exp s - 1).
Proof.
  intros u a s Hh N1 N2 H1 H2. pose proof (exp_pos s).
  assert (bpow radix2 (-900) < / 2048) as B9' by (replace (/ 2048) with (bpow radix2 (-11)) by (simpl; lra); apply bpow_lt; lia).
  apply side_high; [assumption|lra|]. intros _ K. assert (1 < bpow radix2 900) as B9 by (apply (bpow_lt radix2 0); lia).
  unfold Rabs in K. destruct (Rcase_abs (exp s - 1)); lra.
Qed.
Lemma core_sub1 : forall u n b (g : flt f80 -> flt f80), high_ok u = true -> trigonometric u = false -> u <> n_csch -> u <> n_sinh -> 7 / 10 <= 2 * ln b -> 67 / 100 <= ln b ->
  (forall a, defined u a) -> (forall a, real_fun u a = exp (a * ln b) - 1) -> (forall r v, regular r n u v -> bpow radix2 (-10) <= Rabs v) ->
  (forall x a, isf x a -> exists k, (k <= 3)%Z /\ close k f80 (exp (a * ln b)) (g x)) -> core u n e9 f80 (fun x => fsub (g x) (one f80)).
Proof.
  intros u n b g Hh T N1 N2 _ Hb D E Hv Hg r x a v Ix Z0 A _ Rg. exists a. split; [apply arg_self_dist|]. split; [apply D|]. rewrite E.
  pose proof (arg_tiny v a A (Hv _ _ Rg)) as Ha. replace (bpow radix2 (-10)) with (2 * bpow radix2 (-11)) in Ha by (change (-10)%Z with (1 + -11)%Z; rewrite bpow_plus; reflexivity).
  assert (13 / 10 * bpow radix2 (-11) <= Rabs (a * ln b)) as Hs.
  { rewrite Rabs_mult, (Rabs_pos_eq (ln b)) by lra. pose proof (bpow_gt_0 radix2 (-11)).
    apply Rle_trans with (Rabs a * (67 / 100)); [lra|]. apply Rmult_le_compat_l; [apply Rabs_pos|]. lra. }
  destruct (expm1_gap _ Hs) as [G1 G2]. split; [|apply side_expm1; assumption]. destruct (Hg x a Ix) as (k & Hk & Cl). eapply sub1; try eassumption. apply exp_pos.
Qed.
Lemma ln2_65 : 67 / 100 <= ln 2.
Proof. rewrite <- (ln_exp (67 / 100)). assert (exp (67 / 100) <= 2) by (apply (exp_ln2_le (67 / 100) 1); [simpl; lra|lia]). destruct (Req_dec (exp (67 / 100)) 2) as [-> | K]; [lra|]. left. apply ln_increasing; [apply exp_pos|lra]. Qed.
Lemma core_2m1 : forall n, core n_2_raised_minus_1 n e9 f80 (two_raised_minus_1l x86_64 lm).
Proof.
  intros n. pose proof ln2_65. apply (core_sub1 n_2_raised_minus_1 n 2); try discriminate; try reflexivity; try lra; [intros r v (_ & K); exact K|].
  intros x a [Fx Vx]. exists 3%Z. split; [lia|]. pose proof (c_in lm C Fexp2 f80 x Fx) as K. rewrite Vx in K. exact (K I).
Qed.
Lemma core_10m1 : forall n, core n_10_raised_minus_1 n e9 f80 (ten_raised_minus_1l x86_64 lm).
Proof.
  intros n. pose proof ln10_bounds. apply (core_sub1 n_10_raised_minus_1 n 10); try discriminate; try reflexivity; try lra; [intros r v (_ & K); exact K|].
  intros x a [Fx Vx]. exists 2%Z. split; [lia|]. destruct (isf_fint (f := f80) 10) as [F10 V10]; [simpl; lia|].
  pose proof (c_pow_pos lm C f80 (fint f80 10) x F10 Fx ltac:(rewrite V10; lra)) as K. rewrite V10, Vx in K. exact K.
Qed.

(** ** Functions of the reciprocal *)
Record recip (a z : R) (d : R) : Prop := {
  r_rel : Rabs (z - / a) <= d * Rabs (/ a);
  r_le : 1 <= Rabs a -> Rabs z <= 1;
  r_ge : Rabs a <= 1 -> 1 <= Rabs z;
  r_win : win 261 z;
  r_sign : 0 < a * z }.
Lemma recip_round : forall F a z d d', wide F -> FF F 1 -> win 260 a -> recip a z d -> 0 <= d <= bpow radix2 (-52) -> d + bpow radix2 (- fprec F) * (1 + d) <= d' -> d' <= bpow radix2 (-20) ->
  recip a (RF F z) d' /\ Rabs (RF F z) < bpow radix2 (femax F).
Proof.
  intros F a z d d' W F1 Wa [H1 H2 H3 H4 H5] Hd Hd' Hd2. pose proof (win_inv _ _ Wa) as Wi. pose proof (win_nz _ _ Wa) as Na. pose proof (win_nz _ _ Wi) as Ni.
  assert (bpow radix2 (-52) <= 1 / 4 /\ bpow radix2 (-20) <= 1 / 4) as [B B'] by (split; replace (1 / 4) with (bpow radix2 (-2)) by (simpl; lra); apply bpow_le; lia).
  destruct (acc_round d d' F z (/ a) W H1 ltac:(lra) ltac:(right; eapply win_weaken; [exact Wi|lia]) Hd') as [A1 A2]. split; [|assumption].
  assert (Rabs (RF F z * a - 1) <= 1 / 4) as Ra.
  { replace (RF F z * a - 1) with ((RF F z - / a) * a) by (field; assumption). rewrite Rabs_mult. rewrite Rabs_inv in A1. apply Rabs_pos_lt in Na.
    apply Rle_trans with (d' * / Rabs a * Rabs a); [apply Rmult_le_compat_r; lra|]. rewrite Rmult_assoc, Rinv_l by lra. lra. }
  split; [assumption| | | |apply Rabs_le_inv in Ra; lra].
  - intros K. apply RF_abs_le; [assumption|apply H2; assumption].
  - intros K. apply abs_round_ge_generic; [apply fexpo_valid|apply valid_rnd_N|assumption|apply H3; assumption].
  - destruct Wi as [W1 W2]. pose proof (Rabs_triang (RF F z - / a) (/ a)) as T1. pose proof (Rabs_triang (RF F z) (/ a - RF F z)) as T2.
    replace (RF F z - / a + / a) with (RF F z) in T1 by ring. replace (RF F z + (/ a - RF F z)) with (/ a) in T2 by ring. rewrite (Rabs_minus_sym (/ a)) in T2.
    assert (d' * Rabs (/ a) <= 1 / 4 * Rabs (/ a)) by (apply Rmult_le_compat_r; [apply Rabs_pos|lra]).
    unfold win. replace (bpow radix2 (- (261))) with (/ 2 * bpow radix2 (- (260))) by (change (- (261))%Z with (-1 + - (260))%Z; rewrite bpow_plus; reflexivity).
    replace (bpow radix2 261) with (2 * bpow radix2 260) by (change 261%Z with (1 + 260)%Z; rewrite bpow_plus; reflexivity). pose proof (Rabs_pos (/ a)). lra.
Qed.
Lemma recip_exact : forall a, win 260 a -> recip a (/ a) 0.
Proof.
  intros a Wa. pose proof (win_nz _ _ Wa) as Na. pose proof (Rabs_pos_lt _ Na) as Pa. split; try (rewrite Rabs_inv).
  - replace (/ a - / a) with 0 by ring. rewrite Rabs_R0. lra.
  - intros K. rewrite <- Rinv_1. apply Rinv_le_contravar; lra.
  - intros K. rewrite <- Rinv_1 at 1. apply Rinv_le_contravar; lra.
  - eapply win_weaken; [apply win_inv; exact Wa|lia].
  - rewrite Rinv_r by assumption. lra.
Qed.
Lemma FF1 : forall F, FF F 1.
Proof. intros F. apply (isf_FF _ _ _ (isf_one F)). Qed.
Lemma recip_80 : forall (x : flt f80) a, isf x a -> win 260 a -> exists z, isf (fdiv (one f80) x) z /\ recip a z (bpow radix2 (-64)).
Proof.
  intros x a Ix Wa. bp. pose proof (win_nz _ _ Wa) as Na. destruct (recip_round f80 a (/ a) 0 (bpow radix2 (-64)) w80 (FF1 _) Wa (recip_exact a Wa)) as [H1 H2].
  - pose proof (bpow_gt_0 radix2 (-52)). lra.
  - rewrite fp80. lra.
  - apply bpow_le. lia.
  - exists (RF f80 (/ a)). split; [|assumption]. replace (/ a) with (1 / a) in * by (field; assumption). apply isf_fdiv; try assumption. apply isf_one.
Qed.
Lemma recip_64 : forall (x : flt f80) a, isf x a -> win 260 a -> exists z, isf (fcast f64 (fdiv (one f80) x)) z /\ recip a z (bpow radix2 (-52)).
Proof.
  intros x a Ix Wa. bp. destruct (recip_80 x a Ix Wa) as (z & Iz & Rz).
  assert (bpow radix2 (-52) = 2 * bpow radix2 (-53)) as Q52 by (change (-52)%Z with (1 + -53)%Z; rewrite bpow_plus; reflexivity).
  destruct (recip_round f64 a z (bpow radix2 (-64)) (bpow radix2 (-52)) w64 (FF1 _) Wa Rz) as [H1 H2].
  - split; [apply bpow_ge_0|apply bpow_le; lia].
  - change (- fprec f64)%Z with (-53)%Z. rewrite Q52, Q64, Q53. nra.
  - apply bpow_le; lia.
  - exists (RF f64 z). split; [apply isf_fcast; assumption|assumption].
Qed.

Lemma recip_back : forall a z d, win 260 a -> recip a z d -> 0 <= d <= bpow radix2 (-52) -> Rabs (/ z - a) <= 2 * d * Rabs a.
Proof.
  intros a z d Wa [H1 _ _ Wz _] Hd. pose proof (win_nz _ _ Wa) as Na. pose proof (win_nz _ _ Wz) as Nz.
  assert (bpow radix2 (-52) <= / 1024) as Qs by (replace (/ 1024) with (bpow radix2 (-10)) by (simpl; lra); apply bpow_le; lia).
  pose proof (Rabs_pos_lt _ Na) as Pa. pose proof (Rabs_pos_lt _ Nz) as Pz.
  assert (Rabs (z * a - 1) <= d) as E.
  { replace (z * a - 1) with ((z - / a) * a) by (field; assumption). rewrite Rabs_mult. rewrite Rabs_inv in H1.
    apply Rle_trans with (d * / Rabs a * Rabs a); [apply Rmult_le_compat_r; lra|]. rewrite Rmult_assoc, Rinv_l by lra. lra. }
  assert (1 / 2 <= Rabs (z * a)) as L by (apply Rabs_le_inv in E; rewrite Rabs_pos_eq; lra).
  replace (/ z - a) with (- (z * a - 1) * / (z * a) * a) by (field; split; assumption). rewrite !Rabs_mult, Rabs_Ropp. apply Rmult_le_compat_r; [lra|]. rewrite Rabs_inv.
  assert (/ Rabs (z * a) <= 2) by (replace 2 with (/ (1 / 2)) by field; apply Rinv_le_contravar; lra).
  replace (2 * d) with (d * 2) by ring. apply Rmult_le_compat; [apply Rabs_pos|left; apply Rinv_0_lt_compat; lra|assumption|assumption].
Qed.

Lemma d64 : 0 <= bpow radix2 (-64) <= bpow radix2 (-52) /\ 2 * bpow radix2 (-64) <= bpow radix2 (-61).
Proof. bp. split; [split; [lra|apply bpow_le; lia]|lra]. Qed.
Lemma d52 : 0 <= bpow radix2 (-52) <= bpow radix2 (-52) /\ 2 * bpow radix2 (-52) <= bpow radix2 (-51).
Proof. split; [split; [apply bpow_ge_0|lra]|]. change (-51)%Z with (1 + -52)%Z. rewrite (bpow_plus radix2 1). simpl (bpow radix2 1). lra. Qed.
Lemma core_inv : forall u n e fl d, trigonometric u = false -> 0 <= d <= bpow radix2 (-52) -> 2 * d <= argument_error u ->
  (forall r x a v, isf x a -> arg v a -> regular r n u v -> win 260 a -> exists z, recip a z d /\ defined u (/ z) /\ near e 850 f80 (real_fun u (/ z)) (fl x) /\ side u a (real_fun u (/ z))) ->
  (defined u 0 -> near e 850 f80 (real_fun u 0) (fl (B754_zero false)) /\ side u 0 (real_fun u 0)) -> core u n e f80 fl.
Proof.
  intros u n e fl d T Hd Hu H H0 r x a v Ix Z0 A _ Rg. destruct (arg_cases' v a A) as [E|Wa].
  - exists a. split; [apply arg_self_dist|]. pose proof (def_arg u v a A T (app_def r u v T (proj1 Rg))) as D. split; [assumption|]. rewrite (Z0 E). subst a. apply H0. assumption.
  - destruct (H r x a v Ix A Rg Wa) as (z & Rz & D & N & S). exists (/ z). split; [eapply Rle_trans; [eapply recip_back; eassumption|]; apply Rmult_le_compat_r; [apply Rabs_pos|assumption]|]. split; [assumption|]. split; assumption.
Qed.
Lemma near_e8 : forall e h (R_ : R) (y : flt f80), near e h f80 R_ y -> e <= e8 -> (850 <= h)%Z -> near e8 850 f80 R_ y.
Proof. intros. eapply near_weaken; eassumption. Qed.
Lemma lib8 : forall g (x : flt f80) a R_, isf x a -> dom1 g a -> real1 g a = R_ -> near e8 850 f80 R_ (m1 lm g x).
Proof. intros. eapply near_e8; [eapply lib_near; try eassumption; apply w80| |lia]. rewrite e1_80. apply bpow_le. lia. Qed.
Lemma win3 : forall z, win 261 z -> win 300 z.
Proof. intros. eapply win_weaken; [eassumption|lia]. Qed.

(** sums without cancellation *)
Lemma acc_add : forall d e e' A B (x y : flt f80), acc d f80 A x -> acc e f80 B y -> 0 <= d <= bpow radix2 (-50) -> 0 <= e <= bpow radix2 (-50) -> Rabs A <= Rabs (A + B) -> Rabs B <= 2 * Rabs (A + B) -> win 5 (A + B) ->
  d + 2 * e + bpow radix2 (-62) <= e' -> acc e' f80 (A + B) (fadd x y).
Proof.
  intros d e e' A B x y (a & Ia & Ha) (b & Ib & Hb) Hd He H1 H2 W He'. bp.
  assert (Rabs (a + b - (A + B)) <= (d + 2 * e) * Rabs (A + B)) as H.
  { replace (a + b - (A + B)) with ((a - A) + (b - B)) by ring. eapply Rle_trans; [apply Rabs_triang|].
    assert (d * Rabs A <= d * Rabs (A + B)) by (apply Rmult_le_compat_l; lra). assert (e * Rabs B <= e * (2 * Rabs (A + B))) by (apply Rmult_le_compat_l; lra). lra. }
  destruct (acc_round (d + 2 * e) e' f80 (a + b) (A + B) w80 H) as [R1 R2].
  - rewrite Q50 in *. lra.
  - right. eapply win_weaken; [exact W|lia].
  - rewrite fp80. rewrite Q50, Q62, Q64 in *. assert (bpow radix2 (-63) * (d + 2 * e) <= bpow radix2 (-63) * 1) by (apply Rmult_le_compat_l; lra). lra.
  - exists (RF f80 (a + b)). split; [apply isf_fadd; assumption|assumption].
Qed.

Lemma acot_pos : forall z, 0 < z -> PI / 2 - atan (/ z) = atan z.
Proof. intros z H. rewrite atan_inv by assumption. ring. Qed.
Lemma acot_neg : forall z, z < 0 -> PI / 2 - atan (/ z) = atan z + PI.
Proof. intros z H. replace (/ z) with (- / (- z)) by (field; lra). rewrite atan_opp, atan_inv by lra. rewrite atan_opp. field. Qed.
Lemma atan_half : forall z, z < 0 -> - (PI / 2) < atan z < 0.
Proof. intros z H. pose proof (atan_bound z). split; [lra|]. rewrite <- atan_0. apply atan_increasing. assumption. Qed.
Lemma acc_near8 : forall e R_ (y : flt f80) h, acc e f80 R_ y -> e <= e8 -> (h <= 900)%Z -> R_ = 0 \/ win h R_ -> near e8 850 f80 R_ y.
Proof. intros e R_ y h A He Hh HR. apply acc_near; [eapply acc_weaken; [exact A|assumption]|]. destruct HR as [H|H]; [left; assumption|right; eapply win_weaken; eassumption]. Qed.

Lemma div0_inf : fdiv (one f80) (B754_zero false) = B754_infinity false.
Proof. reflexivity. Qed.
Lemma pi2_near : near (e1 f80) 850 f80 (PI / 2) (m1 lm Fatan (B754_infinity false)).
Proof. pose proof (c_inf_atan lm C f80 false) as K. apply close_near in K; [|apply w80|lia]. eapply near_weaken; [exact K|apply bpow_le; simpl; lia|lia]. Qed.
Lemma wpi2 : win 5 (PI / 2).
Proof. pose proof PI_bounds. apply win_of. lra. Qed.

Lemma core_acot : forall n, core n_arccot n e8 f80 (arccotl x86_64 lm).
Proof.
  intros n. bp. assert (e8 = 16 * bpow radix2 (-63)) as E8 by exact Q59. apply (core_inv _ _ _ _ (bpow radix2 (-64))); [reflexivity|apply d64|apply d64| |].
  - intros r x a v Ix A _ Wa. destruct (recip_80 x a Ix Wa) as (z & Iz & Rz). exists z. split; [assumption|]. split; [exact I|]. cbn [real_fun].
    pose proof (win3 _ (r_win _ _ _ Rz)) as Wz. pose proof (r_sign _ _ _ Rz) as Sz. unfold arccotl. change (ld x86_64) with f80. rewrite (fge_isf x (fzero f80) a 0 Ix (isf_zero _)).
    pose proof (win_nz _ _ Wa) as Na. pose proof (atan_win z Wz) as Wt.
    destruct (Rle_bool_spec 0 a) as [Q|Q].
    + assert (0 < z) as Pz by nra. rewrite acot_pos by assumption. split; [eapply lib8; [exact Iz|exact I|reflexivity]|]. eapply (side_win _ _ _ 305); [lia|assumption].
    + assert (z < 0) as Pz by nra. rewrite acot_neg by assumption. pose proof (atan_half z Pz) as Hh. pose proof PI_bounds as PB.
      assert (win 5 (atan z + PI)) as Ws by (apply win_of; lra). split; [|eapply (side_win _ _ _ 5); [lia|assumption]].
      assert (acc (bpow radix2 (-61)) f80 (atan z) (m1 lm Fatan (fdiv (one f80) x))) as At.
      { apply (near_acc _ 850); [rewrite <- e1_80; eapply (lib_near lm C); [apply w80|exact Iz|exact I|reflexivity]|]. right. eapply win_weaken; [exact Wt|lia]. }
      eapply (acc_near8 e8 _ _ 5); [|lra|lia|right; assumption].
      eapply acc_add; [exact At|exact pi_acc| | | | |assumption|]; try lra.
      * rewrite Rabs_left1, Rabs_pos_eq by lra. lra.
      * rewrite !Rabs_pos_eq by lra. lra.
  - intros _. cbn [real_fun]. rewrite atan_0, Rminus_0_r. split; [|eapply (side_win _ _ _ 5); [lia|apply wpi2]].
    unfold arccotl. change (ld x86_64) with f80. change (fge (B754_zero false) (fzero f80)) with true. rewrite div0_inf. eapply near_e8; [apply pi2_near| |lia]. rewrite e1_80. lra.
Qed.
Lemma core_acotpi : forall n, core n_arccot_over_pi n e8 f80 (arccot_over_pil x86_64 lm).
Proof.
  intros n. bp. 
  assert (bpow radix2 (-61) + bpow radix2 (-60) <= e8) as Qe by (unfold e8; lra). assert (e8 = 16 * bpow radix2 (-63)) as E8 by exact Q59.
  apply (core_inv _ _ _ _ (bpow radix2 (-64))); [reflexivity|apply d64|apply d64| |].
  - intros r x a v Ix A _ Wa. destruct (recip_80 x a Ix Wa) as (z & Iz & Rz). exists z. split; [assumption|]. split; [exact I|]. cbn [real_fun].
    pose proof (win3 _ (r_win _ _ _ Rz)) as Wz. pose proof (r_sign _ _ _ Rz) as Sz. unfold arccot_over_pil. change (ld x86_64) with f80. rewrite (fge_isf x (fzero f80) a 0 Ix (isf_zero _)).
    pose proof (win_nz _ _ Wa) as Na. pose proof (atan_win z Wz) as Wt.
    assert (near (bpow radix2 (-61)) 850 f80 (atan z) (m1 lm Fatan (fdiv (one f80) x))) as At by (rewrite <- e1_80; eapply (lib_near lm C); [apply w80|exact Iz|exact I|reflexivity]).
    destruct (over_pi _ _ _ _ At ltac:(lra) (or_intror Wt)) as [Ap Wp].
    destruct (Rle_bool_spec 0 a) as [Q|Q].
    + assert (0 < z) as Pz by nra. rewrite acot_pos by assumption. split; [eapply acc_near8; [exact Ap|assumption| |exact Wp]; lia|]. eapply (side_or _ _ _ 310); [lia|reflexivity|assumption].
    + assert (z < 0) as Pz by nra. rewrite acot_neg by assumption. pose proof (atan_half z Pz) as Hh. pose proof PI_bounds as PB.
      replace ((atan z + PI) / PI) with (atan z / PI + 1) by (field; lra).
      assert (- (1 / 2) <= atan z / PI <= 0) as Hq. { split; apply Rmult_le_reg_r with PI; try lra; unfold Rdiv; rewrite (Rmult_assoc (atan z)), Rinv_l by lra; lra. }
      assert (win 5 (atan z / PI + 1)) as Ws by (apply win_of; lra). split; [|eapply (side_win _ _ _ 5); [lia|assumption]].
      eapply (acc_near8 e8 _ _ 5); [|lra|lia|right; assumption].
      eapply acc_add; [exact Ap|apply (acc_isf _ _ _ 0); [apply isf_one|lra]| | | | |assumption|]; try lra.
      * rewrite Rabs_left1, Rabs_pos_eq by lra. lra.
      * rewrite !Rabs_pos_eq by lra. lra.
  - intros _. cbn [real_fun]. rewrite atan_0, Rminus_0_r. unfold arccot_over_pil. change (ld x86_64) with f80. change (fge (B754_zero false) (fzero f80)) with true. rewrite div0_inf.
    destruct (over_pi _ _ _ _ pi2_near ltac:(rewrite e1_80; lra) ltac:(right; eapply win_weaken; [apply wpi2|lia])) as [Ap Wp]. rewrite e1_80 in Ap.
    split; [eapply acc_near8; [exact Ap|assumption| |exact Wp]; lia|]. eapply (side_or _ _ _ 310); [lia|reflexivity|assumption].
Qed.

Lemma abs_le1 : forall z, Rabs z <= 1 -> -1 <= z <= 1.
Proof. intros z H. apply Rabs_le_inv in H. lra. Qed.
Lemma inv_abs_ge : forall z, z <> 0 -> Rabs z <= 1 -> 1 <= Rabs (/ z).
Proof. intros z N H. apply Rabs_pos_lt in N. rewrite Rabs_inv, <- Rinv_1 at 1. apply Rinv_le_contravar; lra. Qed.
(** arcsec, arccsc: a library function g on [-1, 1] of the reciprocal *)
Lemma core_sec : forall u g h n, trigonometric u = false -> 2 * bpow radix2 (-64) <= argument_error u -> low_ok u = false -> (forall a, defined u a = (1 <= Rabs a)) -> (forall a, real_fun u a = h (/ a)) ->
  (forall z, dom1 g z = (-1 <= z <= 1)) -> (forall z, real1 g z = h z) -> (forall z, FF f80 z -> -1 <= z <= 1 -> win 300 z -> h z = 0 \/ win 305 (h z)) -> core u n e8 f80 (fun x => m1 lm g (fdiv (one f80) x)).
Proof.
  intros u g h n T Hu Lo ED ER Dg Rg Hw. apply (core_inv _ _ _ _ (bpow radix2 (-64))); [assumption|apply d64|assumption| |].
  - intros r x a v Ix A (D & _) Wa. destruct (recip_80 x a Ix Wa) as (z & Iz & Rz). exists z. split; [assumption|].
    pose proof (def_arg u v a A T (app_def _ u v T D)) as Da. rewrite ED in Da. pose proof (r_le _ _ _ Rz Da) as Bz. pose proof (r_win _ _ _ Rz) as Wz. pose proof (win_nz _ _ Wz) as Nz.
    rewrite ED, ER, Rinv_inv. split; [apply inv_abs_ge; assumption|]. split; [eapply lib8; [exact Iz|rewrite Dg; apply abs_le1; assumption|apply Rg]|].
    eapply (side_or _ _ _ 305); [lia|assumption|]. apply Hw; [eapply isf_FF; exact Iz|apply abs_le1; assumption|apply win3; assumption].
  - rewrite ED. rewrite Rabs_R0. lra.
Qed.
Lemma core_secpi : forall u g h n, trigonometric u = false -> 2 * bpow radix2 (-64) <= argument_error u -> low_ok u = false -> (forall a, defined u a = (1 <= Rabs a)) -> (forall a, real_fun u a = h (/ a) / PI) ->
  (forall z, dom1 g z = (-1 <= z <= 1)) -> (forall z, real1 g z = h z) -> (forall z, FF f80 z -> -1 <= z <= 1 -> win 300 z -> h z = 0 \/ win 305 (h z)) ->
  core u n e8 f80 (fun x => fdiv (m1 lm g (fdiv (one f80) x)) (PI_ x86_64)).
Proof.
  intros u g h n T Hu Lo ED ER Dg Rg Hw. bp. assert (e8 = 16 * bpow radix2 (-63)) as E8 by exact Q59. 
  apply (core_inv _ _ _ _ (bpow radix2 (-64))); [assumption|apply d64|assumption| |].
  - intros r x a v Ix A (D & _) Wa. destruct (recip_80 x a Ix Wa) as (z & Iz & Rz). exists z. split; [assumption|].
    pose proof (def_arg u v a A T (app_def _ u v T D)) as Da. rewrite ED in Da. pose proof (r_le _ _ _ Rz Da) as Bz. pose proof (r_win _ _ _ Rz) as Wz. pose proof (win_nz _ _ Wz) as Nz.
    assert (h z = 0 \/ win 305 (h z)) as Hz by (apply Hw; [eapply isf_FF; exact Iz|apply abs_le1; assumption|apply win3; assumption]).
    rewrite ED, ER, Rinv_inv. split; [apply inv_abs_ge; assumption|].
    pose proof (lib_near lm C g f80 _ z (h z) w80 Iz ltac:(rewrite Dg; apply abs_le1; assumption) (Rg z)) as N.
    destruct (over_pi _ _ _ _ N ltac:(rewrite e1_80; lra) Hz) as [Ap Wp]. rewrite e1_80 in Ap.
    split; [eapply acc_near8; [exact Ap|lra| |exact Wp]; lia|]. eapply (side_or _ _ _ 310); [lia|assumption|assumption].
  - rewrite ED. rewrite Rabs_R0. lra.
Qed.
Lemma core_asec : forall n, core n_arcsec n e8 f80 (arcsecl x86_64 lm).
Proof. intros n. apply (core_sec n_arcsec Facos acos n); try reflexivity; [apply d64|]. intros z F B _. eapply acos_win; [apply w80|assumption|assumption]. Qed.
Lemma core_asecpi : forall n, core n_arcsec_over_pi n e8 f80 (arcsec_over_pil x86_64 lm).
Proof. intros n. apply (core_secpi n_arcsec_over_pi Facos acos n); try reflexivity; [apply d64|]. intros z F B _. eapply acos_win; [apply w80|assumption|assumption]. Qed.
Lemma core_acsc : forall n, core n_arccsc n e8 f80 (arccscl x86_64 lm).
Proof. intros n. apply (core_sec n_arccsc Fasin asin n); try reflexivity; [apply d64|]. intros z _ B W. right. apply asin_win; assumption. Qed.
Lemma core_acscpi : forall n, core n_arccsc_over_pi n e8 f80 (arccsc_over_pil x86_64 lm).
Proof. intros n. apply (core_secpi n_arccsc_over_pi Fasin asin n); try reflexivity; [apply d64|]. intros z _ B W. right. apply asin_win; assumption. Qed.

Lemma core_arsech : forall n, core n_arsech n e8 f80 (arsechl x86_64 lm).
Proof.
  intros n. apply (core_inv _ _ _ _ (bpow radix2 (-64))); [reflexivity|apply d64|apply d64| |cbn [defined]; lra].
  intros r x a v Ix A (D & _) Wa. destruct (recip_80 x a Ix Wa) as (z & Iz & Rz). exists z. split; [assumption|].
  pose proof (def_arg n_arsech v a A eq_refl D) as Da. cbn [defined real_fun] in *. pose proof (r_ge _ _ _ Rz ltac:(rewrite Rabs_pos_eq; lra)) as Bz. pose proof (r_sign _ _ _ Rz) as Sz.
  assert (0 < z) as Pz by nra. rewrite Rabs_pos_eq in Bz by lra. rewrite Rinv_inv. change (ln (z + sqrt (z * z - 1))) with (arc z).
  split; [split; [apply Rinv_0_lt_compat; assumption|rewrite <- Rinv_1; apply Rinv_le_contravar; lra]|].
  split; [eapply lib8; [exact Iz|exact Bz|reflexivity]|]. eapply (side_or _ _ _ 305); [lia|reflexivity|].
  eapply arc_win; [apply w80|eapply isf_FF; exact Iz|assumption|]. eapply win_weaken; [apply (r_win _ _ _ Rz)|lia].
Qed.
Lemma cast8 : forall (R_ : R) (y : flt f64), near (e1 f64) 850 f64 R_ y -> near e9 850 f80 R_ (fcast f80 y).
Proof.
  intros R_ y N. bp. eapply near_cast; [apply w64|apply w80|exact N| |lia|]; change (e1 f64) with (bpow radix2 (-50)).
  - lra.
  - rewrite fp80. unfold e9. lra.
Qed.
Lemma core_arcsch : forall n, core n_arcsch n e9 f80 (arcschl x86_64 lm).
Proof.
  intros n. apply (core_inv _ _ _ _ (bpow radix2 (-52))); [reflexivity|apply d52|apply d52| |cbn [defined]; lra].
  intros r x a v Ix A (D & _) Wa. destruct (recip_64 x a Ix Wa) as (z & Iz & Rz). exists z. split; [assumption|].
  pose proof (win_nz _ _ (r_win _ _ _ Rz)) as Nz. cbn [defined real_fun]. split; [apply Rinv_neq_0_compat; assumption|]. rewrite Rinv_inv. change (ln (z + sqrt (z * z + 1))) with (ars z).
  split; [|eapply (side_win _ _ _ 305); [lia|apply ars_win, win3, (r_win _ _ _ Rz)]].
  apply cast8. eapply (lib_near lm C); [apply w64|exact Iz|exact I|]. cbn [real1]. unfold arcsinh, ars. repeat f_equal. ring.
Qed.
Lemma arg_gt1 : forall v a, arg v a -> 1 + bpow radix2 (-40) <= Rabs v -> 1 + bpow radix2 (-42) <= Rabs a.
Proof.
  intros v a A H. pose proof (arg_rel _ _ A) as D. set (q := bpow radix2 (-56)) in *. assert (0 < q) as Pq by apply bpow_gt_0.
  assert (q <= / 1024) as Qs by (unfold q; replace (/ 1024) with (bpow radix2 (-10)) by (simpl; lra); apply bpow_le; lia).
  assert (bpow radix2 (-40) = 65536 * q) as E40 by (unfold q; change (-40)%Z with (16 + -56)%Z; rewrite bpow_plus; reflexivity).
  assert (bpow radix2 (-42) = 16384 * q) as E42 by (unfold q; change (-42)%Z with (14 + -56)%Z; rewrite bpow_plus; reflexivity).
  rewrite E40 in H. rewrite E42. pose proof (Rabs_triang a (v - a)) as T. replace (a + (v - a)) with v in T by ring. rewrite (Rabs_minus_sym v a) in T.
  assert ((1 - q) * (1 + 65536 * q) <= (1 - q) * Rabs v) by (apply Rmult_le_compat_l; lra). nra.
Qed.
Lemma core_arcoth : core n_arcoth 64 e9 f80 (arcothl x86_64 lm).
Proof.
  apply (core_inv _ _ _ _ (bpow radix2 (-52))); [reflexivity|apply d52|apply d52| |cbn [defined]; rewrite Rabs_R0; lra].
  intros r x a v Ix A (D & G) Wa. destruct (recip_64 x a Ix Wa) as (z & Iz & Rz). exists z. split; [assumption|]. specialize (G eq_refl).
  pose proof (arg_gt1 v a A G) as Ga. pose proof (win_nz _ _ (r_win _ _ _ Rz)) as Nz. cbn [defined real_fun].
  assert (Rabs z < 1) as Hz.
  { pose proof (r_rel _ _ _ Rz) as E. set (q := bpow radix2 (-56)) in *. assert (0 < q) as Pq by apply bpow_gt_0.
    assert (q <= / 1024 / 1024) as Qs by (unfold q; replace (/ 1024 / 1024) with (bpow radix2 (-20)) by (simpl; lra); apply bpow_le; lia).
    assert (bpow radix2 (-52) = 16 * q) as E52 by (unfold q; change (-52)%Z with (4 + -56)%Z; rewrite bpow_plus; reflexivity).
    assert (bpow radix2 (-42) = 16384 * q) as E42 by (unfold q; change (-42)%Z with (14 + -56)%Z; rewrite bpow_plus; reflexivity). rewrite E42 in Ga. rewrite E52, Rabs_inv in E.
    pose proof (Rabs_triang (z - / a) (/ a)) as T. replace (z - / a + / a) with z in T by ring. rewrite Rabs_inv in T.
    apply Rle_lt_trans with ((1 + 16 * q) * / Rabs a); [lra|]. apply Rmult_lt_reg_r with (Rabs a); [lra|]. rewrite Rmult_assoc, Rinv_l by lra. lra. }
  assert (-1 < z < 1) as Bz by (apply Rabs_lt_inv in Hz; lra).
  split; [rewrite Rabs_inv, <- Rinv_1 at 1; apply Rinv_lt_contravar; [rewrite Rmult_1_r; apply Rabs_pos_lt; assumption|assumption]|].
  replace ((/ z + 1) / (/ z - 1)) with ((1 + z) / (1 - z)) by (field; repeat split; lra). change (ln ((1 + z) / (1 - z)) / 2) with (art z).
  split; [|eapply (side_win _ _ _ 305); [lia|eapply (art_win f64); [apply w64|eapply isf_FF; exact Iz|assumption|apply win3, (r_win _ _ _ Rz)]]].
  apply cast8. eapply (lib_near lm C); [apply w64|exact Iz|exact Bz|reflexivity].
Qed.
End Core2.
