(** The correctly rounded library is monotone. *)
From Coq Require Import ZArith Reals Bool Lia Lra.
From Flocq Require Import Core.Core IEEE754.BinarySingleNaN.
From Verif Require Import CModel FloatModel Libm LibmSpec FloatFacts LibmIdeal MonoFloat MonoSpec.
Local Open Scope R_scope.

Lemma ln_le' : forall a b, 0 < a <= b -> ln a <= ln b.
Proof. intros a b [H [K| ->]]; [left; apply ln_increasing; assumption|lra]. Qed.
Lemma exp_le' : forall a b, a <= b -> exp a <= exp b.
Proof. intros a b [K| ->]; [left; apply exp_increasing; assumption|lra]. Qed.
Lemma div_le : forall a b c, 0 < c -> a <= b -> a / c <= b / c.
Proof. intros a b c H K. apply Rmult_le_compat_r; [apply Rlt_le, Rinv_0_lt_compat; assumption|assumption]. Qed.

Lemma asin_le : forall x y, -1 <= x -> x <= y -> y <= 1 -> asin x <= asin y.
Proof.
  intros x y Hx H Hy. destruct (Rle_or_lt (asin x) (asin y)) as [K|K]; [assumption|]. exfalso.
  pose proof (asin_bound x). pose proof (asin_bound y). assert (sin (asin y) < sin (asin x)) by (apply sin_increasing_1; lra).
  rewrite !sin_asin in * by lra. lra.
Qed.
Lemma acos_ge : forall x y, -1 <= x -> x <= y -> y <= 1 -> acos y <= acos x.
Proof. intros x y Hx H Hy. rewrite !acos_asin by lra. pose proof (asin_le x y Hx H Hy). lra. Qed.
Lemma tanh_exp : forall x, tanh x = 1 - 2 / (exp (2 * x) + 1).
Proof.
  intros x. unfold tanh, sinh, cosh. replace (2 * x) with (x + x) by ring. rewrite exp_plus, exp_Ropp. pose proof (exp_pos x) as P.
  field. assert (0 < exp x * exp x) by (apply Rmult_lt_0_compat; assumption). repeat split; nra.
Qed.
Lemma cosh_le : forall x y, 0 <= x <= y -> cosh x <= cosh y.
Proof.
  intros x y [Hx H]. unfold cosh. set (a := exp x). set (b := exp y). assert (1 <= a) as A by (unfold a; rewrite <- exp_0; apply exp_le'; assumption).
  assert (a <= b) as B by (apply exp_le'; assumption). rewrite !exp_Ropp. fold a b.
  apply div_le; [lra|]. apply Rmult_le_reg_r with (a * b); [nra|]. replace ((a + / a) * (a * b)) with (a * a * b + b) by (field; lra). replace ((b + / b) * (a * b)) with (a * b * b + a) by (field; lra).
  assert (1 <= a * b) by nra. pose proof (Rmult_le_pos (b - a) (a * b - 1) ltac:(lra) ltac:(lra)). lra.
Qed.

Lemma real1_inc : forall g x y, inc1 g = true -> dom1 g x -> dom1 g y -> x <= y -> real1 g x <= real1 g y.
Proof.
  intros g x y Hg Dx Dy H. assert (0 < ln 2) as L2 by (rewrite <- ln_1; apply ln_increasing; lra). assert (0 < ln 10) as L10 by (rewrite <- ln_1; apply ln_increasing; lra).
  destruct g; try discriminate Hg; cbn [real1 dom1] in *.
  - apply ln_le'. lra.
  - apply div_le; [assumption|apply ln_le'; lra].
  - apply div_le; [assumption|apply ln_le'; lra].
  - apply ln_le'. lra.
  - apply exp_le'. assumption.
  - apply exp_le'. apply Rmult_le_compat_r; lra.
  - pose proof (exp_le' x y H). lra.
  - apply asin_le; lra.
  - destruct H as [H| ->]; [left; apply atan_increasing; assumption|lra].
  - unfold sinh. pose proof (exp_le' x y H). pose proof (exp_le' (- y) (- x) ltac:(lra)). lra.
  - rewrite !tanh_exp. pose proof (exp_le' (2 * x) (2 * y) ltac:(lra)) as E. pose proof (exp_pos (2 * x)). enough (2 / (exp (2 * y) + 1) <= 2 / (exp (2 * x) + 1)) by lra.
    apply Rmult_le_compat_l; [lra|]. apply Rinv_le_contravar; lra.
  - unfold arcsinh. destruct (Rle_lt_dec (arcsinh x) (arcsinh y)) as [K|K]; [exact K|]. exfalso. pose proof (sinh_lt _ _ K) as S. rewrite !sinh_arcsinh in S. lra.
  - apply ln_le'. assert (sqrt (x * x - 1) <= sqrt (y * y - 1)) by (apply sqrt_le_1_alt; nra). pose proof (sqrt_pos (x * x - 1)). lra.
  - apply div_le; [lra|]. apply ln_le'. split; [apply Rdiv_lt_0_compat; lra|]. 
    apply Rmult_le_reg_r with ((1 - x) * (1 - y)); [apply Rmult_lt_0_compat; lra|].
    replace ((1 + x) / (1 - x) * ((1 - x) * (1 - y))) with ((1 + x) * (1 - y)) by (field; lra). replace ((1 + y) / (1 - y) * ((1 - x) * (1 - y))) with ((1 + y) * (1 - x)) by (field; lra). nra.
Qed.

Lemma real_le : forall F r r', r <= r' -> fle (of_real F r) (of_real F r') = true.
Proof. intros F r r' H. exact (xrnd_le F _ _ _ _ (xrnd_real F r) (xrnd_real F r') H). Qed.
Lemma one_x : forall F, isf (fint F 1) 1.
Proof. intros F. apply isf_fint. destruct F; simpl; lia. Qed.
Lemma one_xrnd : forall F, xrnd (fint F 1) 1.
Proof.
  intros F. assert (RF F 1 = 1) as E by (apply RF_id; apply (FF_bpow F 0); destruct F; vm_compute; discriminate).
  apply xrnd_fin; rewrite E; [|apply one_x]. rewrite Rabs_R1. change 1 with (bpow radix2 0). apply bpow_lt. destruct F; reflexivity.
Qed.
Lemma ideal_pow_x : forall F (x y : flt F), is_finite x = true -> is_finite y = true -> 0 < B2R x -> xrnd (ideal_pow F x y) (Rpower (B2R x) (B2R y)).
Proof.
  intros F x y Fx Fy P. destruct (zero_or F y Fy) as [[s ->]|N].
  - simpl. rewrite Rpower_O by assumption. apply one_xrnd.
  - rewrite ideal_pow_finite by assumption. destruct (Req_bool_spec (B2R x) 1) as [->|].
    + unfold Rpower. rewrite ln_1, Rmult_0_r, exp_0. apply one_xrnd.
    + rewrite Rlt_bool_true by assumption. apply xrnd_real.
Qed.

Theorem ideal_monotone : monotone ideal.
Proof.
  split.
  - intros g F x y Hg Fx Fy H. cbn [lib1 ideal]. rewrite !ideal1_finite by assumption.
    destruct (domb g (B2R x)) eqn:Dx, (domb g (B2R y)) eqn:Dy.
    + intros _ _. apply real_le. apply real1_inc; try assumption; apply domb_spec; assumption.
    + destruct (poleb g (B2R y)) eqn:Py; [|discriminate]. intros N _. apply domb_spec in Dx. apply poleb_spec in Py.
      destruct g; try discriminate Hg; cbn [dom1 pole1] in *; try (exfalso; lra). rewrite Rlt_bool_false by lra.
      apply le_xv; [apply xrnd_real|reflexivity|apply xv_bound].
    + destruct (poleb g (B2R x)) eqn:Px; [|discriminate]. intros _ N. apply domb_spec in Dy. apply poleb_spec in Px.
      destruct g; try discriminate Hg; cbn [dom1 pole1] in *; try (exfalso; lra); try (apply le_xv; [reflexivity|apply xrnd_real|apply xv_bound]).
      rewrite Rlt_bool_true by lra. apply le_xv; [reflexivity|apply xrnd_real|apply xv_bound].
    + destruct (poleb g (B2R x)) eqn:Px; [|discriminate]. destruct (poleb g (B2R y)) eqn:Py; [|discriminate]. intros _ _. 
      destruct g; try reflexivity. destruct (Rlt_bool_spec (B2R x) 0), (Rlt_bool_spec (B2R y) 0); try reflexivity. exfalso. lra.
  - intros F x y Fx Fy H. cbn [lib1 ideal]. rewrite !ideal1_finite by assumption.
    destruct (domb Facos (B2R x)) eqn:Dx; [|discriminate]. destruct (domb Facos (B2R y)) eqn:Dy; [|discriminate]. intros _ _. apply domb_spec in Dx, Dy. cbn [dom1] in *.
    apply real_le. cbn [real1]. apply acos_ge; lra.
  - intros F x y Fx Fy H. cbn [lib1 ideal]. rewrite !ideal1_finite by assumption. apply real_le. apply cosh_le. assumption.
  - intros F b x y Fb Fx Fy Hb H. cbn [lib2 ideal ideal2]. apply (xrnd_le F _ _ _ _ (ideal_pow_x F b x Fb Fx ltac:(lra)) (ideal_pow_x F b y Fb Fy ltac:(lra))).
    unfold Rpower. apply exp_le'. apply Rmult_le_compat_r; [|assumption]. rewrite <- ln_1. apply ln_le'. lra.
  - intros F b x y Fb Fx Fy Hb H. cbn [lib2 ideal ideal2]. apply (xrnd_le F _ _ _ _ (ideal_pow_x F b y Fb Fy ltac:(lra)) (ideal_pow_x F b x Fb Fx ltac:(lra))).
    unfold Rpower. apply exp_le'. assert (ln (B2R b) <= 0) by (rewrite <- ln_1; apply ln_le'; lra). nra.
  - intros F x y e Fx Fy Fe H He. cbn [lib2 ideal ideal2]. apply (xrnd_le F _ _ _ _ (ideal_pow_x F x e Fx Fe ltac:(lra)) (ideal_pow_x F y e Fy Fe ltac:(lra))).
    unfold Rpower. apply exp_le'. apply Rmult_le_compat_l; [assumption|]. apply ln_le'. lra.
  - intros F x y e Fx Fy Fe H He. cbn [lib2 ideal ideal2]. apply (xrnd_le F _ _ _ _ (ideal_pow_x F y e Fy Fe ltac:(lra)) (ideal_pow_x F x e Fx Fe ltac:(lra))).
    unfold Rpower. apply exp_le'. assert (ln (B2R x) <= ln (B2R y)) by (apply ln_le'; lra). nra.
  - intros F x y z Fx Fy Fz H. cbn [lib2 ideal ideal2]. rewrite Fx, Fy, Fz. simpl. assert (B2R x * B2R x <= B2R y * B2R y) by nra.
    split; apply real_le; apply sqrt_le_1_alt; lra.
Qed.
