(** Signs of results: no result vanishes, becomes infinite or changes its sign
    through over- or underflow. *)
From Coq Require Import ZArith Reals Bool Lia Lra Psatz.
From Flocq Require Import Core.Core IEEE754.BinarySingleNaN.
From Verif Require Import CModel FloatModel Libm LibmSpec Spec CodeFacts SpecFacts ValueFacts WidthFacts Wrappers WrapApi WrapSpec WrapSpec2 FloatFacts RealFacts LinArith WrapAcc WrapMain WrapBin WrapPow WrapRoot.
Local Open Scope R_scope.

Lemma faithful_sgn : forall k n z t, rounds_faithfully k n z t -> (0 < z -> (0 < t)%Z) /\ (z < 0 -> (t < 0)%Z /\ t <> nar n) /\ (z = 0 -> t = 0%Z).
Proof.
  intros k n z t [[-> ->]|[Nz (Hr & Hs & _)]]; [repeat split; lra|]. destruct Hr as (_ & N0 & Nn).
  split; [|split]; intros H; [rewrite Rlt_bool_false in Hs by lra|rewrite Rlt_bool_true in Hs by assumption|contradiction]; unfold has_sign in Hs; cbn in Hs; [lia|split; [lia|assumption]].
Qed.
Lemma near_sgn : forall r z e, Rabs (z - r) <= e * Rabs r -> e <= / 4 -> (0 < r -> 0 < z) /\ (r < 0 -> z < 0) /\ (r = 0 -> z = 0).
Proof.
  intros r z e H He.
  assert (Rabs (z - r) <= / 4 * Rabs r) as K by (eapply Rle_trans; [exact H|]; apply Rmult_le_compat_r; [apply Rabs_pos|assumption]). apply Rabs_le_inv in K.
  split; [|split]; intros Q; [rewrite Rabs_pos_eq in K by lra|rewrite Rabs_left in K by lra|rewrite Q, Rabs_R0 in K]; lra.
Qed.

(** ** The real functions *)
Lemma positive_is : forall u x, positive_fun u = true -> defined u x -> 0 < real_fun u x.
Proof.
  intros u x H D. pose proof PI_bounds as PB. pose proof (atan_bound x) as Ab. assert (0 < cosh x) as Pc by (unfold cosh; pose proof (exp_pos x); pose proof (exp_pos (- x)); lra).
  destruct u; try discriminate; cbn [real_fun].
  - apply exp_pos.
  - apply exp_pos.
  - apply exp_pos.
  - lra.
  - unfold Rdiv. apply Rmult_lt_0_compat; [lra|apply Rinv_0_lt_compat; lra].
  - assumption.
  - apply Rinv_0_lt_compat; assumption.
Qed.
Definition same_sign (x y : R) : Prop := (0 < x -> 0 < y) /\ (x < 0 -> y < 0) /\ (x = 0 -> y = 0).
Lemma same_div : forall x y c, 0 < c -> same_sign x y -> same_sign x (y / c).
Proof.
  intros x y c P (A & B & D). assert (0 < / c) as Pi by (apply Rinv_0_lt_compat; assumption). unfold Rdiv. split; [|split]; intros H; [specialize (A H)|specialize (B H)|rewrite (D H)]; nra.
Qed.
Lemma ln_sign : forall p, 0 < p -> (1 < p -> 0 < ln p) /\ (p < 1 -> ln p < 0).
Proof. intros p P. split; intros H; rewrite <- ln_1; apply ln_increasing; lra. Qed.
Lemma arsinh_sign : forall x, same_sign x (ln (x + sqrt (x * x + 1))).
Proof.
  intros x. pose proof (sqrt_pos (x * x + 1)) as Ps. pose proof (sqrt_sqrt (x * x + 1) ltac:(nra)) as E. set (s := sqrt (x * x + 1)) in *.
  assert (Rabs x < s) as Hs. { destruct (Rlt_or_le (Rabs x) s) as [Q|Q]; [assumption|]. pose proof (Rabs_pos x). assert (s * s <= Rabs x * Rabs x) by nra. rewrite <- Rabs_mult, Rabs_pos_eq in H0 by nra. lra. }
  apply Rabs_def2 in Hs. destruct (ln_sign (x + s) ltac:(lra)) as [L1 L2]. split; [|split]; intros H.
  - apply L1. nra.
  - apply L2. nra.
  - assert (s = 1) as -> by (subst x; nra). subst x. rewrite Rplus_0_l. apply ln_1.
Qed.
Lemma sinh_sign : forall x, same_sign x (sinh x).
Proof.
  intros x. unfold sinh. split; [|split]; intros H.
  - pose proof (exp_increasing (- x) x ltac:(lra)). lra.
  - pose proof (exp_increasing x (- x) ltac:(lra)). lra.
  - subst x. rewrite Ropp_0. lra.
Qed.
Lemma ln1p_sign : forall x, -1 < x -> same_sign x (ln (1 + x)).
Proof. intros x D. destruct (ln_sign (1 + x) ltac:(lra)) as [L1 L2]. split; [|split]; intros H; [apply L1; lra|apply L2; lra|subst x; rewrite Rplus_0_r; apply ln_1]. Qed.
Lemma inv_sign : forall x, x <> 0 -> same_sign x (/ x).
Proof. intros x N. split; [|split]; intros H; [apply Rinv_0_lt_compat; assumption|apply Rinv_lt_0_compat; assumption|contradiction]. Qed.
Lemma same_trans : forall x y z, x <> 0 -> same_sign x y -> same_sign y z -> same_sign x z.
Proof. intros x y z N (A & B & D) (A' & B' & D'). split; [|split]; intros H; [auto|auto|contradiction]. Qed.
Lemma sign_is : forall u x, sign_fun u = true -> defined u x -> same_sign x (real_fun u x).
Proof.
  intros u x H D. pose proof PI_bounds as PB. assert (0 < cosh x) as Pc by (unfold cosh; pose proof (exp_pos x); pose proof (exp_pos (- x)); lra).
  assert (0 < ln 2) as P2 by (rewrite <- ln_1; apply ln_increasing; lra). assert (0 < ln 10) as P10 by (rewrite <- ln_1; apply ln_increasing; lra).
  assert (same_sign x (atan x)) as At. { split; [|split]; intros Q; [rewrite <- atan_0; apply atan_increasing; lra|rewrite <- atan_0; apply atan_increasing; lra|subst x; apply atan_0]. }
  assert (-1 <= x <= 1 -> same_sign x (asin x)) as As.
  { intros B. pose proof (asin_bound x) as AB. assert (sin (asin x) = x) as E by (apply sin_asin; assumption). split; [|split]; intros Q.
    - destruct (Rtotal_order (asin x) 0) as [K|[K|K]]; [|rewrite K, sin_0 in E; lra|assumption]. pose proof (sin_lt_0_var (asin x) ltac:(lra) K). lra.
    - destruct (Rtotal_order (asin x) 0) as [K|[K|K]]; [assumption|rewrite K, sin_0 in E; lra|]. pose proof (sin_gt_0 (asin x) K ltac:(lra)). lra.
    - subst x. apply asin_0. }
  destruct u; try discriminate; cbn [real_fun defined] in *.
  - split; [|split]; intros Q; [pose proof (exp_increasing 0 x Q) as K|pose proof (exp_increasing x 0 Q) as K|subst x]; rewrite exp_0 in *; lra.
  - apply ln1p_sign; assumption.
  - apply same_div; [assumption|apply ln1p_sign; assumption].
  - apply same_div; [assumption|apply ln1p_sign; assumption].
  - apply As; assumption.
  - apply same_div; [lra|apply As; assumption].
  - assumption.
  - apply same_div; [lra|assumption].
  - apply sinh_sign.
  - apply same_div; [assumption|apply sinh_sign].
  - replace (cosh x / sinh x) with (/ sinh x / / cosh x). 2: { destruct (sinh_sign x) as (S1 & S2 & _). field. split; [lra|]. destruct (Rtotal_order x 0) as [Q|[Q|Q]]; [specialize (S2 Q); lra|contradiction|specialize (S1 Q); lra]. }
    apply same_div; [apply Rinv_0_lt_compat; assumption|]. destruct (sinh_sign x) as (S1 & S2 & S3). apply (same_trans x (sinh x)); [assumption|split; [assumption|]; split; assumption|]. apply inv_sign. destruct (Rtotal_order x 0) as [Q|[Q|Q]]; [specialize (S2 Q); lra|contradiction|specialize (S1 Q); lra].
  - destruct (sinh_sign x) as (S1 & S2 & S3). apply (same_trans x (sinh x)); [assumption|split; [assumption|]; split; assumption|]. apply inv_sign. destruct (Rtotal_order x 0) as [Q|[Q|Q]]; [specialize (S2 Q); lra|contradiction|specialize (S1 Q); lra].
  - apply arsinh_sign.
  - apply same_div; [lra|]. destruct (ln_sign ((1 + x) / (1 - x))) as [L1 L2]; [apply Rmult_lt_0_compat; [lra|apply Rinv_0_lt_compat; lra]|].
    assert ((1 + x) / (1 - x) = 1 + 2 * x / (1 - x)) as E by (field; lra). assert (0 < / (1 - x)) as Pi by (apply Rinv_0_lt_compat; lra).
    split; [|split]; intros Q; [apply L1; rewrite E; unfold Rdiv; nra|apply L2; rewrite E; unfold Rdiv; nra|subst x; replace ((1 + 0) / (1 - 0)) with 1 by field; apply ln_1].
  - apply (same_trans x (/ x)); [assumption|apply inv_sign; assumption|apply arsinh_sign].
Qed.

(** ** Results *)
Lemma tolerance_small : forall k n u, tolerance k n u <= / 4.
Proof.
  intros k n u. pose proof (float_error_rng k n) as [_ B]. assert (bpow radix2 (-48) <= / 4) by (change (/ 4) with (bpow radix2 (-2)); apply bpow_le; lia).
  destruct u; assumption.
Qed.
Lemma spread_small : forall k u, spread k u <= / 4.
Proof.
  intros k u. pose proof (argument_error_rng u) as [_ A]. unfold spread, conversion_error. assert (bpow radix2 (-55) <= / 8 /\ bpow radix2 (-51) <= / 8) as [B D] by (change (/ 8) with (bpow radix2 (-3)); split; apply bpow_le; lia).
  destruct k; lra.
Qed.
Definition nontrig_regular (u : unary_name) : bool := positive_fun u || sign_fun u.
Lemma regular_of : forall k n u x, nontrig_regular u = true -> defined u x -> regular k n u x.
Proof. intros k n u x H D. split; destruct u; try discriminate H; exact D || exact I. Qed.
Theorem positive_results : forall k lm u w t x, c99 lm -> positive_fun u = true -> is_intn (bits w) t -> value k (bits w) t = Some x ->
  exists t', api_unary k lm u w t = Val t' /\ (0 < t')%Z.
Proof.
  intros k lm u w t x C H It Hx. assert (defined u x) as D by (destruct u; try discriminate H; exact I).
  destruct (unary_computes k lm u w t x C It Hx) as (t' & E & (x' & z & _ & D' & Hz & [Rz _])); [apply regular_of; [unfold nontrig_regular; rewrite H; reflexivity|assumption]|].
  exists t'. split; [assumption|]. apply (faithful_sgn k (bits w) z t' Rz). apply (near_sgn _ _ _ Hz (tolerance_small _ _ _)). apply positive_is; assumption.
Qed.
Theorem sign_results : forall k lm u w t x, c99 lm -> sign_fun u = true -> is_intn (bits w) t -> value k (bits w) t = Some x -> defined u x ->
  exists t', api_unary k lm u w t = Val t' /\ t' <> nar (bits w) /\ Z.sgn t' = Z.sgn t.
Proof.
  intros k lm u w t x C H It Hx D. assert (8 <= bits w <= 64)%Z as Hn by (destruct w; simpl; lia).
  destruct (unary_computes k lm u w t x C It Hx) as (t' & E & (x' & z & Hd & D' & Hz & [Rz _])); [apply regular_of; [unfold nontrig_regular; rewrite H, orb_true_r; reflexivity|assumption]|].
  exists t'. split; [assumption|]. destruct (near_sgn _ _ _ Hd (spread_small _ _)) as (A1 & A2 & A3). destruct (sign_is u x' H D') as (B1 & B2 & B3). destruct (near_sgn _ _ _ Hz (tolerance_small _ _ _)) as (C1 & C2 & C3). destruct (faithful_sgn k (bits w) z t' Rz) as (D1 & D2 & D3).
  pose proof (value_sign k (bits w) t x It Hn Hx) as Sx. assert (nar (bits w) < 0)%Z as Nn by (unfold nar; pose proof (Z.pow_pos_nonneg 2 (bits w - 1)); lia).
  destruct (Rtotal_order x 0) as [Q|[Q|Q]].
  - assert (t < 0)%Z by tauto. destruct (D2 (C2 (B2 (A2 Q)))). split; [assumption|]. rewrite !Z.sgn_neg by assumption. reflexivity.
  - rewrite (D3 (C3 (B3 (A3 Q)))). split; [lia|]. rewrite Q in Hx. apply value_zero_iff in Hx; try assumption. rewrite Hx. reflexivity.
  - specialize (D1 (C1 (B1 (A1 Q)))). split; [lia|]. rewrite Z.sgn_pos by assumption. symmetry. apply Z.sgn_pos. assert (~ (t < 0)%Z) by (intros K; apply Sx in K; lra). assert (t <> 0%Z) by (intros ->; rewrite value_0 in Hx; injection Hx as <-; lra). lia.
Qed.
Theorem hypotenuse_positive : forall k lm w s t x y, c99 lm -> is_intn (bits w) s -> is_intn (bits w) t -> value k (bits w) s = Some x -> value k (bits w) t = Some y ->
  exists t', api_binary k lm n_hypotenuse w s t = Val t' /\ (0 <= t')%Z /\ (t' = 0 <-> s = 0 /\ t = 0)%Z.
Proof.
  intros k lm w s t x y C Is It Hx Hy. assert (8 <= bits w <= 64)%Z as Hn by (destruct w; simpl; lia).
  destruct (binary_computes lm C k n_hypotenuse w s t x y) as (t' & E & (x' & y' & r & z & Hdx & Hdy & Hr & Hz & [Rz _])); try assumption; try discriminate.
  assert (slack k <= / 4) as Sl by (destruct k; [change (/ 4) with (bpow radix2 (-2)); apply bpow_le; lia|cbn [slack]; lra]).
  assert (forall u v, Rabs (v - u) <= slack k * Rabs u -> (u = 0 <-> v = 0)) as Zi.
  { intros u v K. assert (Rabs (v - u) <= / 4 * Rabs u) as K' by (eapply Rle_trans; [exact K|]; apply Rmult_le_compat_r; [apply Rabs_pos|assumption]). destruct (near_sgn _ _ _ K' (Rle_refl _)) as (A & B & D). split; [assumption|]. intros ->. destruct (Rtotal_order u 0) as [Q|[Q|Q]]; [specialize (B Q); lra|assumption|specialize (A Q); lra]. }
  assert (x = 0 <-> s = 0%Z) as Xs by (split; [intros ->; eapply value_zero_iff; eassumption|intros ->; rewrite value_0 in Hx; congruence]).
  assert (y = 0 <-> t = 0%Z) as Yt by (split; [intros ->; eapply value_zero_iff; eassumption|intros ->; rewrite value_0 in Hy; congruence]).
  exists t'. split; [assumption|]. destruct (faithful_sgn k (bits w) z t' Rz) as (D1 & D2 & D3). destruct (near_sgn _ _ _ Hz (proj2 (float_error_rng _ _))) as (C1 & C2 & C3). cbn in Hr.
  assert (r = 0 <-> x' = 0 /\ y' = 0) as R0.
  { subst r. split; [intros K; apply sqrt_eq_0 in K; [split; nra|nra]|intros [-> ->]; replace (0 * 0 + 0 * 0) with 0 by ring; apply sqrt_0]. }
  assert (0 <= r) as Pr by (subst r; apply sqrt_pos). pose proof (Zi _ _ Hdx) as Zx. pose proof (Zi _ _ Hdy) as Zy.
  destruct Pr as [Pr|Pr]; [specialize (D1 (C1 Pr)); split; [lia|]; split; [lia|]|symmetry in Pr; rewrite (D3 (C3 Pr)); split; [lia|]; tauto].
  intros K. exfalso. assert (r = 0) by tauto. lra.
Qed.
Theorem power_positive : forall k lm w s t x y, c99 lm -> is_intn (bits w) s -> is_intn (bits w) t -> value k (bits w) s = Some x -> value k (bits w) t = Some y -> 0 < x ->
  exists t', api_binary k lm n_power w s t = Val t' /\ (0 < t')%Z.
Proof.
  intros k lm w s t x y C Is It Hx Hy Px. destruct (power_computes lm C k w s t x y Is It Hx Hy) as (t' & E & (x' & y' & r & z & Hdx & Hdy & Hr & Hz & [Rz _])); [left; assumption|].
  exists t'. split; [assumption|]. apply (faithful_sgn k (bits w) z t' Rz). apply (near_sgn _ _ _ Hz (proj2 (float_error_rng _ _))).
  assert (slack k <= / 4) as Sl by (destruct k; [change (/ 4) with (bpow radix2 (-2)); apply bpow_le; lia|cbn [slack]; lra]).
  assert (Rabs (x' - x) <= / 4 * Rabs x) as K by (eapply Rle_trans; [exact Hdx|]; apply Rmult_le_compat_r; [apply Rabs_pos|assumption]).
  destruct (near_sgn _ _ _ K (Rle_refl _)) as (A & _). specialize (A Px). destruct Hr as [[_ ->]|[[N _]|[N _]]]; [apply exp_pos|lra|lra].
Qed.
