(** Which arguments of the trigonometric functions give NaR. *)
From Coq Require Import ZArith Reals Bool Lia Lra.
From Flocq Require Import Core.Core IEEE754.BinarySingleNaN.
From Verif Require Import CModel FloatModel Libm LibmSpec Spec CodeFacts SpecFacts ValueFacts WidthFacts WidthApi Conversion Wrappers LinApi WrapApi WrapSpec FloatFacts RoundFacts Machine LogFacts LinDec LinOps LinArith LinAlgebra LinProps RealBounds LogProps MiscProps LogConv WrapTotal WrapNar FloatAcc RealFacts FixFacts WrapAcc WrapAcc2 TrigGap WrapAcc3 WrapMain WrapDom WrapSmall WrapPi.
Local Open Scope R_scope.

Lemma cot_csc_inf : forall lm u (x : flt f80), c99 lm -> u = n_cot \/ u = n_csc -> isf x 0 -> is_finite (unary_ld x86_64 lm u x) = false.
Proof.
  intros lm u x C [-> | ->] Ix; cbn [unary_ld]; unfold cotl, cscl; change (ld x86_64) with f80.
  - destruct (lib_zero lm C Ftan x 0 Ix) as (s & ->); [cbn [dom1]; rewrite cos_0; lra|apply tan_0|]. rewrite one_over_0. reflexivity.
  - destruct (lib_zero lm C Fsin x 0 Ix) as (s & ->); [exact I|apply sin_0|]. rewrite one_over_0. reflexivity.
Qed.
Lemma cast_inf : forall F G (y : flt F), is_finite y = false -> is_finite (fcast G y) = false.
Proof. intros F G [s|s| |s m e He] H; try discriminate H; reflexivity. Qed.

Theorem cot_csc_zero : forall k lm u w t, c99 lm -> u = n_cot \/ u = n_csc -> is_intn (bits w) t -> value k (bits w) t = Some 0 -> api_unary k lm u w t = Val (nar (bits w)).
Proof.
  intros k lm u w t C Hu It Hx. assert (6 <= bits w <= 64)%Z as Hn by (destruct w; simpl; lia).
  assert (forall F (x y : flt F), unary_fixer u F x y = y) as Fx by (intros; destruct Hu as [-> | ->]; reflexivity).
  destruct k; cbn [api_unary].
  - destruct (log_arg lm (bits w) _ t 0 C (log_ld_to lm w) It Hx) as (y & a & Ey & Iy & A & Z0).
    assert (a = 0) as ->.
    { pose proof (arg_rel 0 a A) as K. rewrite Rabs_R0, Rmult_0_r, Rminus_0_r in K. pose proof (Rabs_pos a). destruct (Req_EM_T a 0) as [E'|E']; [assumption|]. apply Rabs_no_R0 in E'. lra. }
    unfold takum_unary, unary_log. rewrite Ey. cbn [bind]. change (ld x86_64) with f80. rewrite Fx.
    eapply log_from_nan; [apply log_ld_from|]. apply cot_csc_inf; assumption.
  - unfold takum_linear_unary, unary_lin.
    assert (w <> W64 -> (let! arg := lin_to_double x86_64 w t in lin_from_double x86_64 w (unary_fixer u f64 arg (unary_double x86_64 lm u arg))) = Val (nar (bits w))) as Dbl.
    { intros Nw. destruct (dbl_arg w t 0 Nw It Hx) as (y & Ey & Iy & A & Z0). rewrite Ey. cbn [bind]. rewrite Fx.
      assert (unary_double x86_64 lm u y = fcast f64 (unary_ld x86_64 lm u (fcast f80 y))) as -> by (destruct Hu as [-> | ->]; reflexivity).
      eapply (from_float_nar lm Linear); [apply from_float_lin; apply lin_d_from|]. apply cast_inf. apply cot_csc_inf; [assumption|assumption|]. apply isf_fcast_up; [split; vm_compute; discriminate|assumption]. }
    destruct w; try (apply Dbl; discriminate).
    destruct (ld_arg t 0 It Hx) as (y & Ey & Iy & A & Z0).
    rewrite Ey. cbn [bind]. change (ld x86_64) with f80. rewrite Fx. eapply (from_float_nar lm Linear); [apply from_float_lin; apply (lin_ld_from W64)|]. apply cot_csc_inf; assumption.
Qed.

Lemma regular_not_nar : forall k lm u w t x, c99 lm -> is_intn (bits w) t -> value k (bits w) t = Some x -> regular k (bits w) u x -> api_unary k lm u w t <> Val (nar (bits w)).
Proof.
  intros k lm u w t x C It Hx Hr E. assert (6 <= bits w <= 64)%Z as Hn by (destruct w; simpl; lia).
  destruct (unary_computes k lm u w t x C It Hx Hr) as (t' & E' & x' & y & _ & _ & _ & [R _]). rewrite E in E'. injection E' as <-. eapply faithful_not_nar; eassumption.
Qed.

(** the functions that are not of pi times x *)
Theorem trig_nar_iff : forall k lm u w t x, c99 lm -> trigonometric u = true -> pi_fun u = false -> is_intn (bits w) t -> value k (bits w) t = Some x ->
  (api_unary k lm u w t = Val (nar (bits w)) <-> (u = n_cot \/ u = n_csc) /\ x = 0).
Proof.
  intros k lm u w t x C T Np It Hx. split; [|intros [Hu ->]; apply cot_csc_zero; assumption].
  intros E. assert (~ regular k (bits w) u x) as N by (intros Hr; exact (regular_not_nar k lm u w t x C It Hx Hr E)).
  destruct u; try discriminate T; try discriminate Np; try (exfalso; apply N; split; exact I);
    (split; [tauto|]); destruct (Req_EM_T x 0) as [E0|N0]; try assumption; exfalso; apply N; split; [exact N0|exact I|exact N0|exact I].
Qed.

(** takums with a linear significand are floating-point numbers *)
Lemma linear_float : forall w t x, is_intn (bits w) t -> value Linear (bits w) t = Some x -> x = 0 \/ (sin x <> 0 /\ cos x <> 0).
Proof.
  intros w t x It Hx. assert (exists F (y : flt F), wide F /\ isf y x /\ arg x x) as (F & y & W & Iy & A).
  { assert (w <> W64 -> exists F (y : flt F), wide F /\ isf y x /\ arg x x) as D.
    { intros Nw. destruct (dbl_arg w t x Nw It Hx) as (y & _ & Iy & A & _). exists f64, y. split; [left; reflexivity|split; assumption]. }
    destruct w; try (apply D; discriminate). destruct (ld_arg t x It Hx) as (y & _ & Iy & A & _). exists f80, y. split; [right; reflexivity|split; assumption]. }
  destruct (arg_cases' x x A) as [E|Wa]; [left; assumption|right]. destruct (trig_ok F y x W Iy (win_weaken 260 266 x Wa ltac:(lia))) as (S & K & _). split; assumption.
Qed.

(** poles are multiples of 1/2 *)
Lemma pole_half : forall u x, pi_fun u = true -> ~ defined u x -> exists j, 2 * x = IZR j.
Proof.
  intros u x Hu D. pose proof PI_RGT_0 as P.
  assert (sin (PI * x) = 0 -> exists j, 2 * x = IZR j) as HS.
  { intros E. destruct (sin_eq_0_0 _ E) as (k & Ek). exists (2 * k)%Z. rewrite mult_IZR. apply (Rmult_eq_reg_r PI); [lra|apply Rgt_not_eq; assumption]. }
  assert (cos (PI * x) = 0 -> exists j, 2 * x = IZR j) as HC.
  { intros E. destruct (cos_eq_0_0 _ E) as (k & Ek). exists (2 * k + 1)%Z. rewrite plus_IZR, mult_IZR. apply (Rmult_eq_reg_r PI); [lra|apply Rgt_not_eq; assumption]. }
  destruct u; try discriminate Hu; cbn [defined] in D; try tauto;
    first [apply HS; destruct (Req_EM_T (sin (PI * x)) 0); tauto|apply HC; destruct (Req_EM_T (cos (PI * x)) 0); tauto].
Qed.

Theorem linear_nar_iff : forall lm u w t x, c99 lm -> (u = n_arcoth -> w <> W64) -> (pi_fun u = true -> 0 <= x) -> is_intn (bits w) t -> value Linear (bits w) t = Some x ->
  (api_unary Linear lm u w t = Val (nar (bits w)) <-> ~ defined u x).
Proof.
  intros lm u w t x C Ha Hp It Hx. destruct (trigonometric u) eqn:T; [|apply nar_iff_undefined; assumption]. destruct (pi_fun u) eqn:Pf.
  - split.
    + intros E D. apply (regular_not_nar Linear lm u w t x C It Hx); [|assumption]. split; [|destruct u; try discriminate Pf; exact I].
      assert (forall x', Rabs (x' - x) <= conversion_error Linear * Rabs x -> defined u x') as G; [|destruct u; try discriminate Pf; exact G].
      intros x' H. cbn [conversion_error] in H. rewrite Rmult_0_l in H. replace x' with x; [assumption|]. pose proof (Rabs_pos (x' - x)). destruct (Req_EM_T (x' - x) 0) as [E'|E']; [lra|]. apply Rabs_no_R0 in E'. lra.
    + intros D. destruct (pole_half u x Pf D) as (j & Ej). destruct (pi_exact_linear lm u w t x j Pf It Hx Ej) as [_ H]; [left; auto|]. apply H. assumption.
  - rewrite (trig_nar_iff Linear lm u w t x C T Pf It Hx). destruct (linear_float w t x It Hx) as [-> | [S K]].
    + destruct u; try discriminate T; try discriminate Pf; cbn [defined]; rewrite ?cos_0, ?sin_0; (split; [intros [[E|E] _]|intros H]); try discriminate E; try (exfalso; apply H; lra || exact I); try tauto.
    + split; [intros [Hu ->]; exfalso; apply S, sin_0|]. intros H. exfalso. apply H. destruct u; try discriminate T; try discriminate Pf; cbn [defined]; try exact I; assumption.
Qed.
(** a pole of a function of pi times x is never missed in the other direction:
    NaR only where the function is undefined *)
Theorem linear_pi_nar_only : forall lm u w t x, c99 lm -> pi_fun u = true -> is_intn (bits w) t -> value Linear (bits w) t = Some x ->
  api_unary Linear lm u w t = Val (nar (bits w)) -> ~ defined u x.
Proof.
  intros lm u w t x C Pf It Hx E D. apply (regular_not_nar Linear lm u w t x C It Hx); [|assumption]. split; [|destruct u; try discriminate Pf; exact I].
  assert (forall x', Rabs (x' - x) <= conversion_error Linear * Rabs x -> defined u x') as G; [|destruct u; try discriminate Pf; exact G].
  intros x' H. cbn [conversion_error] in H. rewrite Rmult_0_l in H. replace x' with x; [assumption|]. pose proof (Rabs_pos (x' - x)). destruct (Req_EM_T (x' - x) 0) as [E'|E']; [lra|]. apply Rabs_no_R0 in E'. lra.
Qed.
