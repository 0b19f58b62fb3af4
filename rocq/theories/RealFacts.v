(** Bounds of elementary functions at floating-point arguments. *)
From Coq Require Import ZArith Reals Bool Lia Lra Psatz.
From Flocq Require Import Core.Core IEEE754.BinarySingleNaN.
From Verif Require Import CModel FloatModel FloatFacts LogConv FloatAcc.
Local Open Scope R_scope.

Lemma wide_prec : forall F, wide F -> (53 <= fprec F <= 64)%Z.
Proof. intros F [-> | ->]; simpl; lia. Qed.

Lemma gap_below : forall F x, wide F -> FF F x -> x < 1 -> bpow radix2 (-65) <= 1 - x.
Proof.
  intros F x W H Hx. destruct (Rlt_or_le x (/ 2)) as [K|K].
  - apply Rle_trans with (bpow radix2 (-1)); [apply bpow_le; lia|]. simpl. lra.
  - pose proof (FF_not_1 F x H ltac:(lra) ltac:(lra)) as L. pose proof (wide_prec F W).
    assert (bpow radix2 (-64) <= bpow radix2 (- fprec F)) by (apply bpow_le; lia).
    pose proof (ln_ge_sub x ltac:(lra)). assert (ln x < 0) by (rewrite <- ln_1; apply ln_increasing; lra).
    rewrite Rabs_left in L by assumption. assert (bpow radix2 (-64) = 2 * bpow radix2 (-65)) as E by (change (-64)%Z with (1 + -65)%Z; rewrite bpow_plus; reflexivity).
    assert (/ x <= 2 * (1 - x) + 1); [|lra]. apply Rmult_le_reg_r with x; [lra|]. rewrite Rinv_l by lra. nra.
Qed.
Lemma gap_above : forall F x, wide F -> FF F x -> 1 < x -> bpow radix2 (-65) <= x - 1.
Proof.
  intros F x W H Hx. pose proof (FF_not_1 F x H ltac:(lra) ltac:(lra)) as L. pose proof (wide_prec F W).
  assert (bpow radix2 (-65) <= bpow radix2 (- fprec F)) by (apply bpow_le; lia).
  pose proof (ln_lt_sub x ltac:(lra)). assert (0 < ln x) by (rewrite <- ln_1; apply ln_increasing; lra). rewrite Rabs_pos_eq in L by lra. lra.
Qed.

Lemma bpow_step : forall h k, (0 <= k)%Z -> bpow radix2 (h + k) = IZR (2 ^ k) * bpow radix2 h.
Proof. intros h k H. rewrite bpow_plus, (IZR_Zpower radix2) by assumption. ring. Qed.
Lemma win_abs : forall h x, win h x <-> win h (Rabs x).
Proof. intros h x. unfold win. rewrite Rabs_Rabsolu. tauto. Qed.
Lemma win_opp : forall h x, win h x -> win h (- x).
Proof. intros h x H. unfold win. rewrite Rabs_Ropp. exact H. Qed.
(** m <= |R| <= M *)
Lemma win_btw : forall h x m M, m <= Rabs x <= M -> bpow radix2 (- h) <= m -> M <= bpow radix2 h -> win h x.
Proof. intros h x m M [H1 H2] Hm HM. split; lra. Qed.
Lemma b300 : bpow radix2 (-305) = / 32 * bpow radix2 (-300) /\ bpow radix2 305 = 32 * bpow radix2 300 /\ 0 < bpow radix2 (-300) < / 1024 /\ 1024 < bpow radix2 300.
Proof.
  split; [|split; [|split; [split|]]].
  - replace (/ 32) with (bpow radix2 (-5)) by (simpl; lra). rewrite <- bpow_plus. reflexivity.
  - change 305%Z with (5 + 300)%Z. rewrite bpow_plus. reflexivity.
  - apply bpow_gt_0.
  - replace (/ 1024) with (bpow radix2 (-10)) by (simpl; lra). apply bpow_lt. lia.
  - replace 1024 with (bpow radix2 10) by (simpl; lra). apply bpow_lt. lia.
Qed.
Ltac b300 := destruct b300 as (B5 & B5' & [B3 B3'] & B3'').

(** odd functions *)
Lemma odd_win : forall (f : R -> R) (P : R -> Prop) h, (forall x, P (- x) -> P x -> f (- x) = - f x) -> (forall x, P x -> P (- x)) -> (forall x, P x -> 0 < x -> win h (f x)) ->
  forall x, P x -> x <> 0 -> win h (f x).
Proof.
  intros f P h Ho HP H x Hx N. destruct (Rlt_or_le 0 x) as [K|K]; [apply H; assumption|].
  replace x with (- - x) by ring. rewrite Ho by (rewrite ?Ropp_involutive; auto). apply win_opp. apply H; [auto|lra].
Qed.

Lemma frac_lower : forall x, 0 < x -> win 300 x -> / 2 * bpow radix2 (-300) <= x / (1 + x).
Proof.
  intros x Px [H _]. b300. rewrite Rabs_pos_eq in H by lra. change (- (300))%Z with (-300)%Z in H. destruct (Rle_or_lt x 1) as [K|K].
  - apply Rle_trans with (x / 2); [lra|]. unfold Rdiv. apply Rmult_le_compat_l; [lra|]. apply Rinv_le_contravar; lra.
  - apply Rle_trans with (/ 2); [lra|]. apply Rmult_le_reg_r with (1 + x); [lra|]. unfold Rdiv. rewrite (Rmult_assoc x), Rinv_l by lra. lra.
Qed.

(** ** exp, ln *)
Lemma expm1_lower : forall a, win 300 a -> bpow radix2 (-305) <= Rabs (exp a - 1).
Proof.
  intros a H. b300. destruct (Rlt_or_le 0 a) as [K|K].
  - destruct H as [H _]. rewrite Rabs_pos_eq in H by lra. change (- (300))%Z with (-300)%Z in H.
    pose proof (exp_ineq1_le a). rewrite Rabs_pos_eq by lra. lra.
  - assert (a <> 0) by (eapply win_nz; eassumption). pose proof (frac_lower (- a) ltac:(lra) (win_opp _ _ H)) as L.
    pose proof (exp_ineq1_le (- a)) as E. rewrite exp_Ropp in E. pose proof (exp_pos a) as P.
    assert (exp a <= / (1 - a)). { rewrite <- (Rinv_inv (exp a)). apply Rinv_le_contravar; lra. }
    assert (- a / (1 + - a) = 1 - / (1 - a)) as EQ by (field; lra). rewrite EQ in L. rewrite Rabs_left1 by lra. lra.
Qed.

Lemma ln_abs_le : forall h x, 0 < x -> win h x -> Rabs (ln x) <= bpow radix2 h.
Proof.
  intros h x P H. pose proof (win_inv h x H) as [_ Hi]. destruct H as [_ H]. rewrite Rabs_pos_eq in H, Hi by (left; try apply Rinv_0_lt_compat; assumption).
  apply Rabs_le. pose proof (ln_lt_sub x P). pose proof (ln_ge_sub x P). lra.
Qed.
Lemma ln_win : forall F x, wide F -> FF F x -> 0 < x -> win 300 x -> ln x = 0 \/ win 300 (ln x).
Proof.
  intros F x W HF P H. destruct (Req_dec x 1) as [-> | N]; [left; apply ln_1|right]. split; [|apply ln_abs_le; assumption].
  eapply Rle_trans; [|apply (FF_not_1 F); eassumption]. apply bpow_le. pose proof (wide_prec F W). lia.
Qed.
Lemma ln1p_lower : forall a, 0 < a -> a / (1 + a) <= ln (1 + a).
Proof. intros a P. pose proof (ln_ge_sub (1 + a) ltac:(lra)). replace (a / (1 + a)) with (1 - / (1 + a)) by (field; lra). assumption. Qed.
Lemma ln1p_win : forall F a, wide F -> FF F a -> -1 < a -> win 300 a -> win 305 (ln (1 + a)).
Proof.
  intros F a W HF P H. b300. change (- (305))%Z with (-305)%Z. destruct (Rlt_or_le 0 a) as [K|K].
  - pose proof (frac_lower a K H) as L. pose proof (ln1p_lower a K). pose proof (ln_lt_sub (1 + a) ltac:(lra)).
    destruct H as [_ H]. rewrite Rabs_pos_eq in H by lra. unfold win. change (- (305))%Z with (-305)%Z. rewrite Rabs_pos_eq by lra. lra.
  - assert (a <> 0) by (eapply win_nz; eassumption). pose proof (gap_below F (- a) W (FF_opp _ _ HF) ltac:(lra)) as G.
    pose proof (ln_lt_sub (1 + a) ltac:(lra)) as L1. pose proof (ln_ge_sub (1 + a) ltac:(lra)) as L2.
    assert (/ (1 + a) <= bpow radix2 65). { replace (bpow radix2 65) with (/ bpow radix2 (-65)) by (rewrite <- bpow_opp; reflexivity). apply Rinv_le_contravar; [apply bpow_gt_0|lra]. }
    assert (bpow radix2 65 <= bpow radix2 300) by (apply bpow_le; lia).
    destruct H as [H _]. rewrite Rabs_left1 in H by lra. change (- (300))%Z with (-300)%Z in H. unfold win. change (- (305))%Z with (-305)%Z. rewrite Rabs_left1 by lra. lra.
Qed.
Lemma ln2_bounds : / 2 < ln 2 < 1.
Proof. pose proof (ln_lt_sub 2 ltac:(lra)). pose proof ln_lt_2. assert (ln 2 < 1); [|lra]. rewrite <- (ln_exp 1). apply ln_increasing; [lra|]. pose proof (exp_ineq1 1 ltac:(lra)). lra. Qed.
Lemma ln10_bounds : 1 < ln 10 < 9.
Proof.
  pose proof (ln_lt_sub 10 ltac:(lra)). split.
  - rewrite <- (ln_exp 1). apply ln_increasing; [apply exp_pos|]. pose proof exp_le_3. lra.
  - assert (ln 10 < 9); [|lra]. rewrite <- (ln_exp 9). apply ln_increasing; [lra|]. pose proof (exp_ineq1 9 ltac:(lra)). lra.
Qed.
Lemma win_of : forall x, / 16 <= x <= 16 -> win 5 x.
Proof. intros x H. unfold win. rewrite Rabs_pos_eq by lra. simpl. lra. Qed.

(** ** Inverse circular functions *)
Lemma sin_le_abs : forall y, Rabs (sin y) <= Rabs y.
Proof.
  assert (forall y, 0 <= y -> Rabs (sin y) <= y) as K.
  { intros y Hy. destruct (Req_dec y 0) as [-> | N]; [rewrite sin_0, Rabs_R0; lra|]. destruct (Rle_or_lt y 1) as [L|L].
    - pose proof (sin_lt_x y ltac:(lra)). pose proof PI2_1. pose proof (sin_ge_0 y Hy ltac:(lra)). rewrite Rabs_pos_eq by assumption. lra.
    - pose proof (SIN_bound y). apply Rabs_le. lra. }
  intros y. destruct (Rle_or_lt 0 y); [rewrite (Rabs_pos_eq y) by assumption; apply K; assumption|].
  rewrite <- Rabs_Ropp, <- sin_neg, (Rabs_left y) by assumption. apply K. lra.
Qed.
Lemma PI_bounds : 3 < PI < 4.
Proof. pose proof PI2_3_2. pose proof PI_4. split; [lra|]. destruct (Req_dec PI 4) as [E|E]; [|lra]. exfalso. pose proof (PI_ineq 1) as [_ HH]. unfold PI_tg, tg_alt in HH. simpl in HH. lra. Qed.
Lemma asin_win : forall a, -1 <= a <= 1 -> win 300 a -> win 305 (asin a).
Proof.
  intros a Ha [H _]. b300. pose proof (asin_bound a) as B. pose proof PI_bounds. pose proof (sin_le_abs (asin a)) as S. rewrite sin_asin in S by assumption.
  unfold win. change (- (305))%Z with (-305)%Z. change (- (300))%Z with (-300)%Z in H. split; [lra|]. assert (Rabs (asin a) <= 2) by (apply Rabs_le; lra). lra.
Qed.
Lemma acos_win : forall F z, wide F -> FF F z -> -1 <= z <= 1 -> acos z = 0 \/ win 305 (acos z).
Proof.
  intros F z W HF Hz. b300. pose proof (acos_bound z) as B. pose proof PI_bounds as PB. destruct (Req_dec z 1) as [-> | N]; [left; apply acos_1|right].
  pose proof (gap_below F z W HF ltac:(lra)) as G. set (y := acos z) in *. assert (cos y = z) as E by (apply cos_acos; assumption).
  assert (1 - z <= y * y) as K.
  { pose proof (cos_2a_sin (y / 2)) as C. replace (2 * (y / 2)) with y in C by field. pose proof (sin_le_abs (y / 2)) as S.
    assert (Rabs (sin (y / 2)) * Rabs (sin (y / 2)) <= Rabs (y / 2) * Rabs (y / 2)) as S2 by (apply Rmult_le_compat; assumption || apply Rabs_pos).
    rewrite <- !Rabs_mult, !Rabs_pos_eq in S2 by nra. nra. }
  unfold win. rewrite Rabs_pos_eq by lra. change (- (305))%Z with (-305)%Z. split; [|lra].
  assert (bpow radix2 (-65) = bpow radix2 (-32) * bpow radix2 (-33)) as E65 by (rewrite <- bpow_plus; reflexivity).
  assert (bpow radix2 (-305) <= bpow radix2 (-33)) by (apply bpow_le; lia).
  destruct (Rle_or_lt (bpow radix2 (-33)) y) as [Q|Q]; [lra|exfalso].
  assert (bpow radix2 (-33) <= bpow radix2 (-32)) by (apply bpow_le; lia). pose proof (bpow_gt_0 radix2 (-33)). nra.
Qed.
Lemma atan_win_pos : forall z, 0 < z -> win 300 z -> win 305 (atan z) /\ 0 < atan z.
Proof.
  intros z P H. b300. pose proof (frac_lower z P H) as L. pose proof (atan_bound z) as B. pose proof PI_bounds as PB.
  assert (0 < atan z) as A by (rewrite <- atan_0; apply atan_increasing; assumption). split; [|assumption].
  unfold win. change (- (305))%Z with (-305)%Z. rewrite Rabs_pos_eq by lra. split; [|lra].
  set (y := atan z) in *. assert (z = tan y) as E by (symmetry; apply tan_atan).
  assert (z / (1 + z) <= y) as K; [|lra].
  destruct (Rle_or_lt 1 y) as [Q|Q].
  - apply Rle_trans with 1; [|assumption]. apply Rmult_le_reg_r with (1 + z); [lra|]. unfold Rdiv. rewrite Rmult_assoc, Rinv_l by lra. lra.
  - assert (cos y >= 1 - y) as C.
    { pose proof (cos_2a_sin (y / 2)) as C. replace (2 * (y / 2)) with y in C by field. pose proof (sin_le_abs (y / 2)) as S.
      assert (Rabs (sin (y / 2)) * Rabs (sin (y / 2)) <= Rabs (y / 2) * Rabs (y / 2)) as S2 by (apply Rmult_le_compat; assumption || apply Rabs_pos).
      rewrite <- !Rabs_mult, !Rabs_pos_eq in S2 by nra. nra. }
    pose proof (sin_lt_x y A) as S. assert (0 < cos y) by lra.
    assert (z * (1 - y) <= y).
    { rewrite E. unfold tan, Rdiv. apply Rle_trans with (sin y * / cos y * cos y).
      - apply Rmult_le_compat_l; [|lra]. change (0 <= tan y). rewrite <- E. lra.
      - rewrite Rmult_assoc, Rinv_l by lra. lra. }
    apply Rmult_le_reg_r with (1 + z); [lra|]. unfold Rdiv. rewrite Rmult_assoc, Rinv_l by lra. lra.
Qed.
Lemma atan_win : forall z, win 300 z -> win 305 (atan z).
Proof.
  intros z H. apply (odd_win atan (win 300)); [intros; apply atan_opp|apply win_opp|intros; apply atan_win_pos; assumption|assumption|eapply win_nz; eassumption].
Qed.

(** ** Hyperbolic functions *)
Lemma sinh_lower_pos : forall a, 0 < a -> win 300 a -> bpow radix2 (-305) <= sinh a.
Proof.
  intros a P H. b300. pose proof (frac_lower a P H) as L. unfold sinh. pose proof (exp_ineq1_le a) as E. pose proof (exp_pos a). rewrite exp_Ropp.
  assert (/ exp a <= / (1 + a)) by (apply Rinv_le_contravar; lra). assert (a / (1 + a) = 1 - / (1 + a)) as EQ by (field; lra). rewrite EQ in L. lra.
Qed.
Lemma sinh_odd : forall a, sinh (- a) = - sinh a.
Proof. intros a. unfold sinh. rewrite Ropp_involutive. field. Qed.
Lemma sinh_lower : forall a, win 300 a -> bpow radix2 (-305) <= Rabs (sinh a).
Proof.
  intros a H. pose proof (bpow_gt_0 radix2 (-305)). destruct (Rlt_or_le 0 a) as [K|K].
  - pose proof (sinh_lower_pos a K H). rewrite Rabs_pos_eq by lra. assumption.
  - pose proof (win_nz _ _ H). replace a with (- - a) by ring. rewrite sinh_odd, Rabs_Ropp.
    pose proof (sinh_lower_pos (- a) ltac:(lra) (win_opp _ _ H)). rewrite Rabs_pos_eq by lra. assumption.
Qed.
Lemma sinh_sign : forall a, win 300 a -> 0 < a * sinh a.
Proof.
  intros a H. pose proof (bpow_gt_0 radix2 (-305)). pose proof (win_nz _ _ H). destruct (Rlt_or_le 0 a) as [K|K].
  - pose proof (sinh_lower_pos a K H). apply Rmult_lt_0_compat; lra.
  - pose proof (sinh_lower_pos (- a) ltac:(lra) (win_opp _ _ H)) as L. rewrite sinh_odd in L. nra.
Qed.
Lemma cosh_ge_1 : forall a, 1 <= cosh a.
Proof. intros a. unfold cosh. pose proof (exp_ineq1_le a). pose proof (exp_ineq1_le (- a)). lra. Qed.
Lemma tanh_win : forall a, win 300 a -> win 305 (tanh a).
Proof.
  intros a H. apply (odd_win tanh (win 300)); [|apply win_opp| |assumption|eapply win_nz; eassumption].
  - intros x _ _. unfold tanh. rewrite sinh_odd. replace (cosh (- x)) with (cosh x) by (unfold cosh; rewrite Ropp_involutive; field). unfold Rdiv. ring.
  - intros x Hx P. b300. pose proof (frac_lower x P Hx) as L. pose proof (cosh_ge_1 x) as C.
    assert (tanh x = (exp (2 * x) - 1) / (exp (2 * x) + 1)) as E.
    { unfold tanh, sinh, cosh. replace (2 * x) with (x + x) by ring. rewrite exp_plus, exp_Ropp. pose proof (exp_pos x). field. split; nra. }
    pose proof (exp_ineq1_le (2 * x)) as X. assert (x / (1 + x) <= tanh x <= 1) as [T1 T2].
    { rewrite E. split; (apply Rmult_le_reg_r with (exp (2 * x) + 1); [lra|]; unfold Rdiv; rewrite (Rmult_assoc (exp (2 * x) - 1)), Rinv_l by lra).
      - apply Rmult_le_reg_r with (1 + x); [lra|]. replace (x * / (1 + x) * (exp (2 * x) + 1) * (1 + x)) with (x * (exp (2 * x) + 1)) by (field; lra). lra.
      - lra. }
    unfold win. change (- (305))%Z with (-305)%Z. rewrite Rabs_pos_eq by lra. lra.
Qed.

Lemma sqrt_ub : forall x y, 0 <= x -> 0 <= y -> x <= y * y -> sqrt x <= y.
Proof. intros x y Hx Hy H. rewrite <- (sqrt_square y) by assumption. apply sqrt_le_1; nra. Qed.
Definition ars (x : R) : R := ln (x + sqrt (x * x + 1)).
Lemma ars_pos : forall x, 0 < x + sqrt (x * x + 1).
Proof.
  intros x. assert (Rabs x < sqrt (x * x + 1)). { rewrite <- sqrt_Rsqr_abs. apply sqrt_lt_1; unfold Rsqr; nra. }
  apply Rabs_def2 in H. lra.
Qed.
Lemma ars_odd : forall x, ars (- x) = - ars x.
Proof.
  intros x. unfold ars. rewrite <- ln_Rinv by apply ars_pos. f_equal. pose proof (ars_pos x). apply Rmult_eq_reg_r with (x + sqrt (x * x + 1)); [|lra].
  rewrite Rinv_l by lra. replace (- x * - x) with (x * x) by ring. replace ((- x + sqrt (x * x + 1)) * (x + sqrt (x * x + 1))) with (sqrt (x * x + 1) * sqrt (x * x + 1) - x * x) by ring.
  rewrite sqrt_sqrt by nra. ring.
Qed.
Lemma ars_win : forall a, win 300 a -> win 305 (ars a).
Proof.
  intros a H. apply (odd_win ars (win 300)); [intros; apply ars_odd|apply win_opp| |assumption|eapply win_nz; eassumption].
  intros x Hx P. b300. pose proof (frac_lower x P Hx) as L. pose proof (ln1p_lower x P) as L1.
  assert (1 <= sqrt (x * x + 1) <= x + 1) as [S1 S2].
  { split; [apply Rle_trans with (sqrt 1); [rewrite sqrt_1; lra|apply sqrt_le_1; nra]|]. apply sqrt_ub; nra. }
  assert (ln (1 + x) <= ars x) as Q1.
  { unfold ars. destruct (Req_dec (1 + x) (x + sqrt (x * x + 1))) as [-> | N]; [lra|]. left. apply ln_increasing; lra. }
  pose proof (ln_lt_sub (x + sqrt (x * x + 1)) ltac:(lra)) as Q2. change (ln (x + sqrt (x * x + 1))) with (ars x) in Q2.
  destruct Hx as [_ Hx]. rewrite Rabs_pos_eq in Hx by lra. unfold win. change (- (305))%Z with (-305)%Z. rewrite Rabs_pos_eq by lra. lra.
Qed.
Definition arc (x : R) : R := ln (x + sqrt (x * x - 1)).
Lemma arc_win : forall F a, wide F -> FF F a -> 1 <= a -> win 301 a -> arc a = 0 \/ win 305 (arc a).
Proof.
  intros F a W HF Ha H. b300. destruct (Req_dec a 1) as [-> | N].
  - left. unfold arc. replace (1 * 1 - 1) with 0 by ring. rewrite sqrt_0, Rplus_0_r. apply ln_1.
  - right. pose proof (FF_not_1 F a HF ltac:(lra) N) as L. assert (0 < ln a) by (rewrite <- ln_1; apply ln_increasing; lra). rewrite Rabs_pos_eq in L by lra.
    assert (0 <= sqrt (a * a - 1) <= a) as [S1 S2] by (split; [apply sqrt_pos|apply sqrt_ub; nra]).
    assert (ln a <= arc a) as Q1. { unfold arc. destruct (Req_dec (sqrt (a * a - 1)) 0) as [-> | M]; [rewrite Rplus_0_r; lra|]. left. apply ln_increasing; lra. }
    pose proof (ln_lt_sub (a + sqrt (a * a - 1)) ltac:(lra)) as Q2. change (ln (a + sqrt (a * a - 1))) with (arc a) in Q2.
    pose proof (wide_prec F W). assert (bpow radix2 (-305) <= bpow radix2 (- fprec F)) by (apply bpow_le; lia).
    assert (bpow radix2 301 = 2 * bpow radix2 300) as E1 by (change 301%Z with (1 + 300)%Z; rewrite bpow_plus; reflexivity).
    destruct H as [_ H]. rewrite Rabs_pos_eq in H by lra. unfold win. change (- (305))%Z with (-305)%Z. rewrite Rabs_pos_eq by lra. lra.
Qed.
Definition art (x : R) : R := ln ((1 + x) / (1 - x)) / 2.
Lemma art_odd : forall x, -1 < x < 1 -> art (- x) = - art x.
Proof.
  intros x H. unfold art. replace (1 - - x) with (1 + x) by ring. replace (1 + - x) with (1 - x) by ring.
  replace ((1 - x) / (1 + x)) with (/ ((1 + x) / (1 - x))) by (field; split; lra). rewrite ln_Rinv; [field|]. apply Rdiv_lt_0_compat; lra.
Qed.
Lemma art_win : forall F a, wide F -> FF F a -> -1 < a < 1 -> win 300 a -> win 305 (art a).
Proof.
  intros F a W HF Ha H. apply (odd_win art (fun x => FF F x /\ -1 < x < 1 /\ win 300 x)); [|intros x (A & B & C); split; [apply FF_opp; assumption|split; [lra|apply win_opp; assumption]]| |tauto|eapply win_nz; eassumption].
  - intros x _ (_ & B & _). apply art_odd. assumption.
  - intros x (A & B & C) P. b300. pose proof (frac_lower x P C) as L. pose proof (ln1p_lower x P) as L1. pose proof (gap_below F x W A ltac:(lra)) as G.
    assert (1 + x <= (1 + x) / (1 - x)) as Q.
    { apply Rmult_le_reg_r with (1 - x); [lra|]. unfold Rdiv. rewrite Rmult_assoc, Rinv_l by lra. nra. }
    assert (ln (1 + x) <= ln ((1 + x) / (1 - x))) as Q1. { destruct (Req_dec (1 + x) ((1 + x) / (1 - x))) as [<- | N]; [lra|]. left. apply ln_increasing; lra. }
    pose proof (ln_lt_sub ((1 + x) / (1 - x)) ltac:(lra)) as Q2.
    assert ((1 + x) / (1 - x) <= 2 * bpow radix2 65).
    { unfold Rdiv. apply Rmult_le_compat; [lra|left; apply Rinv_0_lt_compat; lra|lra|]. replace (bpow radix2 65) with (/ bpow radix2 (-65)) by (rewrite <- bpow_opp; reflexivity). apply Rinv_le_contravar; [apply bpow_gt_0|lra]. }
    assert (bpow radix2 65 <= bpow radix2 300) by (apply bpow_le; lia).
    unfold win, art. change (- (305))%Z with (-305)%Z. rewrite Rabs_pos_eq by lra. lra.
Qed.
