(** Accuracy of the functions of one argument, for all of them. *)
From Coq Require Import ZArith Reals Bool Lia Lra Psatz.
From Flocq Require Import Core.Core IEEE754.BinarySingleNaN.
From Verif Require Import CModel FloatModel Libm LibmSpec Spec CodeFacts SpecFacts ValueFacts WidthFacts WidthApi Conversion Wrappers LinApi WrapApi WrapSpec FloatFacts RoundFacts Machine LogFacts LinDec LinOps LinArith LinProps RealBounds LogConv NearCode WrapTotal FloatAcc RealFacts FixFacts WrapAcc WrapAcc2 WrapAcc3.
Local Open Scope R_scope.

(** ** Distance of narrow takums from 1 *)
Lemma narrow_gap : forall k w t v, w <> W64 -> is_intn (bits w) t -> value k (bits w) t = Some v -> 1 < Rabs v -> 1 + bpow radix2 (-40) <= Rabs v.
Proof.
  intros k w t v Nw It Hv H. assert (8 <= bits w <= 32)%Z as Hn by (destruct w; simpl; try lia; contradiction). set (n := bits w) in *.
  assert (bpow radix2 (-27) = 8192 * bpow radix2 (-40)) as E27 by (change (-27)%Z with (13 + -40)%Z; rewrite bpow_plus; reflexivity). pose proof (bpow_gt_0 radix2 (-40)) as P40.
  destruct (takum_cases n t It) as [-> | [-> | Hr]].
  - rewrite value_0 in Hv. injection Hv as <-. rewrite Rabs_R0 in H. lra.
  - rewrite value_nar in Hv by lia. discriminate.
  - assert (0 < l_ n t -> bpow radix2 (-27) <= l_ n t) as L.
    { intros Pl. destruct (l_dyadic n t ltac:(lia) Hr) as (j & E). rewrite E in *. pose proof (bpow_gt_0 radix2 (- (n - 5))) as Pb.
      assert (0 < j)%Z as Pj by (apply lt_IZR; apply Rmult_lt_reg_r with (bpow radix2 (- (n - 5))); lra).
      apply Rle_trans with (1 * bpow radix2 (- (n - 5))); [rewrite Rmult_1_l; apply bpow_le; lia|]. apply Rmult_le_compat_r; [lra|]. apply IZR_le. lia. }
    destruct k.
    + rewrite value_log_real in Hv by (assumption || lia). injection Hv as <-. rewrite Rabs_mult, sg_abs, Rmult_1_l, Rabs_pos_eq in * by (left; apply exp_pos).
      assert (0 < l_ n t) as Pl. { destruct (Rle_or_lt (l_ n t) 0) as [Q|Q]; [|assumption]. destruct (Rle_lt_or_eq_dec _ _ Q) as [Q'|Q']; [pose proof (exp_increasing (l_ n t / 2) 0 ltac:(lra)) as X; rewrite exp_0 in X; lra|rewrite Q' in H; replace (0 / 2) with 0 in H by field; rewrite exp_0 in H; lra]. }
      specialize (L Pl). pose proof (exp_ineq1_le (l_ n t / 2)). lra.
    + rewrite lin_value in Hv by (assumption || lia). injection Hv as <-. pose proof (Lin_pos (l_ n t)). rewrite Rabs_mult, sg_abs, Rmult_1_l, Rabs_pos_eq in * by lra.
      assert (0 < l_ n t) as Pl. { destruct (Rle_or_lt (l_ n t) 0) as [Q|Q]; [|assumption]. apply Lin_le in Q. rewrite (Lin_bpow 0) in Q. change (bpow radix2 0) with 1 in Q. lra. }
      specialize (L Pl). pose proof (Lin_tangent (l_ n t) 0) as T. change (bpow radix2 0) with 1 in T. lra.
Qed.
Lemma regular_64 : forall k w t v u, is_intn (bits w) t -> value k (bits w) t = Some v -> regular k (bits w) u v -> regular k 64 u v.
Proof.
  intros k w t v u It Hv (H1 & H3). split; [assumption|]. destruct u; try exact H3. intros _.
  destruct (Z.eq_dec (bits w) 64) as [E|E]; [apply H3; assumption|]. apply (narrow_gap k w t v); [intros ->; apply E; reflexivity|exact It|exact Hv|exact H1].
Qed.

Lemma dbl_arg : forall w t v, w <> W64 -> is_intn (bits w) t -> value Linear (bits w) t = Some v ->
  exists y, lin_to_double x86_64 w t = Val y /\ isf y v /\ arg v v /\ (v = 0 -> y = B754_zero false).
Proof.
  intros w t v Nw It Hv. assert (std_width (bits w)) as Sw by (destruct w; unfold std_width; simpl; tauto).
  destruct w; [exact (lin_arg 8 _ t v Sw (lin_d_to W8) It Hv)|exact (lin_arg 16 _ t v Sw (lin_d_to W16) It Hv)|exact (lin_arg 32 _ t v Sw (lin_d_to W32) It Hv)|contradiction].
Qed.
Lemma ld_arg : forall t v, is_intn 64 t -> value Linear 64 t = Some v ->
  exists y, lin_to_ld x86_64 W64 t = Val y /\ isf y v /\ arg v v /\ (v = 0 -> y = B754_zero false).
Proof. intros t v It Hv. assert (std_width 64) as Sw by (unfold std_width; tauto). exact (lin_arg 64 _ t v Sw (lin_ld_to W64) It Hv). Qed.

Lemma conv_log : forall v a, arg v a -> Rabs (a - v) <= conversion_error Logarithmic * Rabs v.
Proof. intros v a [H _ _ _]. eapply Rle_trans; [exact H|]. apply Rmult_le_compat_r; [apply Rabs_pos|]. apply bpow_le. lia. Qed.
Lemma conv_lin : forall v, Rabs (v - v) <= conversion_error Linear * Rabs v.
Proof. intros v. rewrite Rminus_eq_0, Rabs_R0. cbn [conversion_error]. lra. Qed.
Lemma tolerance_rng : forall k n u, 0 <= float_error k n <= bpow radix2 (-48) /\ 0 <= tolerance k n u <= bpow radix2 (-48).
Proof.
  intros k n u. assert (0 <= bpow radix2 (-59) <= bpow radix2 (-48)) as B by (split; [apply bpow_ge_0|apply bpow_le; lia]). pose proof (bpow_ge_0 radix2 (-48)).
  assert (0 <= float_error k n <= bpow radix2 (-48)) as E by (destruct k; cbn [float_error]; [|destruct (n =? 64)%Z]; lra). split; [assumption|]. destruct u; cbn [tolerance]; lra.
Qed.
Lemma eu_tolerance : forall k n u, float_error k n = bpow radix2 (-59) -> eu u <= tolerance k n u.
Proof. intros k n u E. assert (e9 <= bpow radix2 (-48)) by (apply bpow_le; lia). assert (e8 = bpow radix2 (-59)) by reflexivity. destruct u; cbn [eu tolerance]; lra. Qed.
Theorem unary_computes : forall k lm u w t x, c99 lm -> is_intn (bits w) t -> value k (bits w) t = Some x -> regular k (bits w) u x ->
  exists t', api_unary k lm u w t = Val t' /\ computes k (bits w) u x t'.
Proof.
  intros k lm u w t x C It Hx Rg. apply (regular_64 k w t) in Rg; try assumption. assert (6 <= bits w <= 64)%Z as Hn by (destruct w; simpl; lia).
  assert (forall F (y : flt F) a fl e f, wide F -> isf y a -> (a = 0 -> y = B754_zero false) -> arg x a -> Rabs (a - x) <= conversion_error k * Rabs x -> (forall x', Rabs (x' - a) <= argument_error u * Rabs a -> Rabs (x' - x) <= spread k u * Rabs x) -> core u 64 e F fl -> e <= tolerance k (bits w) u ->
    (forall z : flt F, is_finite z = true -> exists t, f z = Val t /\ rounds_nearly k (bits w) (code_error k (bits w)) (B2R z) t) ->
    exists t', f (unary_fixer u F y (fl y)) = Val t' /\ computes k (bits w) u x t') as Main.
  { intros F y a fl e f W Iy Z0 A Ca Cl Co He Hf. destruct (tolerance_rng k (bits w) u) as [_ Tr]. destruct (Co k y a x Iy Z0 A Ca Rg) as (x' & D & Dx & N & S).
    pose proof (fixer_good u F y (fl y) a _ e (tolerance k (bits w) u) 850 W N He ltac:(lra) ltac:(lia) Iy S) as G.
    destruct (good_from k (bits w) (tolerance k (bits w) u) F _ _ f ltac:(lra) Hn Hf G) as (t' & z & E & Bz & Rz). exists t'. split; [assumption|]. exists x', z. split; [apply Cl; assumption|]. split; [assumption|]. split; assumption. }
  destruct k; cbn [api_unary].
  - destruct (log_arg lm (bits w) _ t x C (log_ld_to lm w) It Hx) as (y & a & Ey & Iy & A & Z0).
    unfold takum_unary, unary_log. rewrite Ey. cbn [bind]. change (ld x86_64) with f80.
    eapply (Main f80 y a); [apply w80|assumption|assumption|assumption|apply conv_log; assumption|intros x' Hx'; eapply spread_log; eassumption|apply (core_ld lm C)|apply eu_tolerance; reflexivity|].
    intros z Fz. eapply log_from_near; [exact C|apply log_ld_from|exact Fz].
  - assert (forall F (f : flt F -> outcome Z), linear_from_float (bits w) F f -> F <> f32 -> forall z : flt F, is_finite z = true -> exists t, f z = Val t /\ rounds_nearly Linear (bits w) (code_error Linear (bits w)) (B2R z) t) as Fr.
    { intros F f H HF z Fz. apply (lin_from_near _ _ _ z H HF Fz). }
    unfold takum_linear_unary, unary_lin.
    assert (w <> W64 -> exists t', (let! arg := lin_to_double x86_64 w t in lin_from_double x86_64 w (unary_fixer u f64 arg (unary_double x86_64 lm u arg))) = Val t' /\ computes Linear (bits w) u x t') as Dbl.
    { intros Nw. destruct (dbl_arg w t x Nw It Hx) as (y & Ey & Iy & A & Z0). rewrite Ey. cbn [bind]. eapply (Main f64 y x); [apply w64|assumption|assumption|assumption|apply conv_lin|intros x' Hx'; apply spread_lin; assumption|apply (core_double lm C)| |apply Fr; [apply lin_d_from|discriminate]].
      destruct w; try contradiction; destruct u; apply Rle_refl. }
    destruct w; try (apply Dbl; discriminate).
    destruct (ld_arg t x It Hx) as (y & Ey & Iy & A & Z0).
    rewrite Ey. cbn [bind]. change (ld x86_64) with f80. eapply (Main f80 y x); [apply w80|assumption|assumption|assumption|apply conv_lin|intros x' Hx'; apply spread_lin; assumption|apply (core_ld lm C)|apply eu_tolerance; reflexivity|]. apply Fr; [apply lin_ld_from|discriminate].
Qed.
