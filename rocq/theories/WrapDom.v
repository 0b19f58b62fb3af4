(** Arguments outside of the domain of a function give NaR. *)
From Coq Require Import ZArith Reals Bool Lia Lra Psatz.
From Flocq Require Import Core.Core IEEE754.BinarySingleNaN.
From Verif Require Import CModel FloatModel Libm LibmSpec Spec CodeFacts SpecFacts ValueFacts WidthFacts WidthApi Conversion Wrappers LinApi WrapApi WrapSpec FloatFacts RoundFacts Machine LogFacts LinDec LinOps LinArith LinProps RealBounds LogConv WrapTotal WrapNar FloatAcc RealFacts FixFacts WrapAcc WrapAcc2 WrapAcc3 WrapMain.
Local Open Scope R_scope.

(** the infinite results that are not replaced *)
Definition okinf (u : unary_name) (s : bool) : bool :=
  match u with
  | n_ln | n_ln_1_plus | n_lb | n_lb_1_plus | n_lg | n_lg_1_plus => s
  | n_coth | n_csch | n_arcsch | n_artanh | n_arcoth | n_arsech => true
  | _ => false
  end.
Definition und (u : unary_name) (F : fmt) (y : flt F) : Prop := y = B754_nan \/ exists s, y = B754_infinity s /\ okinf u s = true.
Lemma und_fixer : forall u F (x y : flt F), und u F y -> is_finite (unary_fixer u F x y) = false.
Proof. intros u F x y [-> | (s & -> & H)]; [destruct u; reflexivity|]. destruct u; try discriminate H; destruct s; try discriminate H; reflexivity. Qed.
Lemma und_cast : forall u F G (y : flt F), und u F y -> und u G (fcast G y).
Proof. intros u F G y [-> | (s & -> & H)]; [left; reflexivity|right; exists s; split; [reflexivity|assumption]]. Qed.

Section Dom.
Variable lm : libm.
Hypothesis C : c99 lm.

Lemma lib_out : forall g F (x : flt F) a, isf x a -> ~ dom1 g a -> ~ pole1 g a -> m1 lm g x = B754_nan.
Proof. intros g F x a [Fx Vx] D P. apply (c_out lm C); [assumption|rewrite Vx; assumption|rewrite Vx; assumption]. Qed.
Lemma lib_pole : forall g F (x : flt F) a, isf x a -> pole1 g a -> exists s, m1 lm g x = B754_infinity s /\ (g <> Fatanh -> g <> Ftan -> s = true).
Proof.
  intros g F x a [Fx Vx] P. destruct (c_pole lm C g F x Fx) as [H1 H2]; [rewrite Vx; assumption|]. unfold m1. destruct (lib1 lm g F x) as [|s| |]; try discriminate H1. exists s. split; [reflexivity|exact H2].
Qed.
(** functions that are a library function *)
Lemma und_dir : forall u g F (x : flt F) a, dir u = Some g -> isf x a -> ~ defined u a -> und u F (m1 lm g x).
Proof.
  intros u g F x a Hg Ix D. assert ({pole1 g a} + {~ pole1 g a}) as [P|P].
  { destruct g; cbn [pole1]; try (right; tauto); try (destruct (Req_EM_T a 0); [left|right]; assumption); try (destruct (Req_EM_T a (-1)); [left|right]; assumption).
    - destruct (Req_EM_T (cos a) 0); [left|right]; assumption.
    - destruct (Req_EM_T a (-1)); [left; left; assumption|]. destruct (Req_EM_T a 1); [left; right; assumption|right; tauto]. }
  - destruct (lib_pole g F x a Ix P) as (s & E & Hs). right. exists s. split; [assumption|]. destruct u; try discriminate Hg; injection Hg as <-; cbn [pole1] in P; try contradiction; try reflexivity; apply Hs; discriminate.
  - left. eapply lib_out; [exact Ix| |exact P]. destruct u; try discriminate Hg; injection Hg as <-; cbn [dom1 defined] in *; tauto.
Qed.
Lemma mul_ninf : forall (y : flt f80) c, isf y c -> 0 < c -> fmul y (B754_infinity true) = B754_infinity true.
Proof.
  intros y c [Fy Vy] P. destruct y as [s|s| |s m e He]; try discriminate; [simpl in Vy; lra|]. destruct s; [|reflexivity].
  exfalso. unfold B2R, F2R in Vy. cbn [Defs.Fnum Defs.Fexp cond_Zopp] in Vy. assert (IZR (- Z.pos m) < 0) by (apply IZR_lt; lia). pose proof (bpow_gt_0 radix2 e). nra.
Qed.
Lemma nan_mul : forall (y : flt f80), fisnan y = false -> fmul y B754_nan = B754_nan.
Proof. intros [| | |]; reflexivity. Qed.
Lemma acc_pos : forall e R_ (y : flt f80), acc e f80 R_ y -> 0 < R_ -> e <= / 2 -> exists c, isf y c /\ 0 < c.
Proof. intros e R_ y (c & Ic & H) P He. exists c. split; [assumption|]. rewrite (Rabs_pos_eq R_) in H by lra. apply Rabs_le_inv in H. nra. Qed.
Lemma und_mul : forall u e R_ (y : flt f80) x a, u = n_lb_1_plus \/ u = n_lg_1_plus -> acc e f80 R_ y -> 0 < R_ -> e <= / 2 -> isf x a -> ~ -1 < a -> und u f80 (fmul y (m1 lm Flog1p x)).
Proof.
  intros u e R_ y x a Hu A P He Ix D. destruct (acc_pos e R_ y A P He) as (c & Ic & Pc). destruct (Req_EM_T a (-1)) as [E|E].
  - destruct (lib_pole Flog1p f80 x a Ix E) as (s & -> & Hs). rewrite Hs by discriminate. rewrite (mul_ninf y c) by assumption. right. exists true. split; [reflexivity|]. destruct Hu as [-> | ->]; reflexivity.
  - left. rewrite (lib_out Flog1p f80 x a Ix D E). apply nan_mul. destruct Ic as [Fy _]. destruct y; try discriminate; reflexivity.
Qed.

(** ** Reciprocals *)
Lemma f80_step : FF f80 (1 + bpow radix2 (-63)) /\ FF f80 (1 - bpow radix2 (-64)).
Proof.
  split.
  - replace (1 + bpow radix2 (-63)) with (IZR (2 ^ 63 + 1) * bpow radix2 (-63)); [apply FF_dyadic; vm_compute; discriminate|]. rewrite plus_IZR, IZR_pow2, Rmult_plus_distr_r, <- bpow_plus by lia. simpl (bpow radix2 (63 + -63)). lra.
  - replace (1 - bpow radix2 (-64)) with (IZR (2 ^ 64 - 1) * bpow radix2 (-64)); [apply FF_dyadic; vm_compute; discriminate|]. rewrite minus_IZR, IZR_pow2, Rmult_minus_distr_r, <- bpow_plus by lia. simpl (bpow radix2 (64 + -64)). lra.
Qed.
Lemma pred_1 : pred radix2 (SpecFloat.fexp (fprec f80) (femax f80)) 1 = 1 - bpow radix2 (-64).
Proof. change 1 with (bpow radix2 0) at 1. rewrite pred_bpow. change (bpow radix2 0) with 1. reflexivity. Qed.
Lemma below_1 : forall a, FF f80 a -> a < 1 -> a <= 1 - bpow radix2 (-64).
Proof. intros a F H. rewrite <- pred_1. apply pred_ge_gt; [apply fexpo_valid|exact F|apply FF1|exact H]. Qed.
Lemma above_1 : forall a, FF f80 a -> 1 < a -> 1 + bpow radix2 (-63) <= a.
Proof.
  intros a F H. assert (succ radix2 (SpecFloat.fexp (fprec f80) (femax f80)) 1 = 1 + bpow radix2 (-63)) as <-.
  { rewrite succ_eq_pos by lra. f_equal. change 1 with (bpow radix2 0). rewrite ulp_bpow. reflexivity. }
  apply succ_le_lt; [apply fexpo_valid|apply FF1|exact F|exact H].
Qed.
Lemma RF_abs : forall x, Rabs (RF f80 x) = RF f80 (Rabs x).
Proof. intros x. unfold Rabs. destruct (Rcase_abs x) as [N|N]; [rewrite RF_opp; destruct (Rcase_abs (RF f80 x)) as [M|M]; [reflexivity|]|destruct (Rcase_abs (RF f80 x)) as [M|M]; [|reflexivity]].
  - assert (RF f80 x <= RF f80 0) by (apply RF_mono; lra). rewrite RF_0 in *. lra.
  - assert (RF f80 0 <= RF f80 x) by (apply RF_mono; lra). rewrite RF_0 in *. lra.
Qed.
Lemma inv_gt1 : forall a, FF f80 a -> a <> 0 -> Rabs a < 1 -> 1 < Rabs (RF f80 (/ a)).
Proof.
  intros a F N H. rewrite RF_abs, Rabs_inv. apply Rabs_pos_lt in N. set (b := Rabs a) in *. assert (FF f80 b) as Fb by (apply generic_format_abs; exact F).
  pose proof (below_1 b Fb H) as B. set (q := bpow radix2 (-64)) in *. assert (0 < q < / 2) as Pq by (split; [apply bpow_gt_0|replace (/ 2) with (bpow radix2 (-1)) by (simpl; lra); apply bpow_lt; lia]).
  assert (bpow radix2 (-63) = 2 * q) as E63 by (unfold q; change (-63)%Z with (1 + -64)%Z; rewrite bpow_plus; reflexivity).
  assert (1 + q < / b) as L. { apply Rmult_lt_reg_r with b; [assumption|]. rewrite Rinv_l by lra. assert ((1 + q) * b <= (1 + q) * (1 - q)) by (apply Rmult_le_compat_l; lra). nra. }
  apply Rlt_le_trans with (1 + bpow radix2 (-63)); [lra|]. apply (round_N_ge_midp radix2 (SpecFloat.fexp (fprec f80) (femax f80))); [apply f80_step|].
  assert (pred radix2 (SpecFloat.fexp (fprec f80) (femax f80)) (1 + bpow radix2 (-63)) = 1) as ->.
  { assert (succ radix2 (SpecFloat.fexp (fprec f80) (femax f80)) 1 = 1 + bpow radix2 (-63)) as <- by (rewrite succ_eq_pos by lra; f_equal; change 1 with (bpow radix2 0); rewrite ulp_bpow; reflexivity).
    apply pred_succ; [apply fexpo_valid|apply FF1]. }
  lra.
Qed.
Lemma inv_lt1 : forall a, FF f80 a -> 1 < a -> RF f80 (/ a) < 1.
Proof.
  intros a F H. pose proof (above_1 a F H) as B. set (q := bpow radix2 (-64)) in *. assert (0 < q < / 2) as Pq by (split; [apply bpow_gt_0|replace (/ 2) with (bpow radix2 (-1)) by (simpl; lra); apply bpow_lt; lia]).
  assert (bpow radix2 (-63) = 2 * q) as E63 by (unfold q; change (-63)%Z with (1 + -64)%Z; rewrite bpow_plus; reflexivity).
  assert (/ a <= 1 - q) as L. { apply Rmult_le_reg_r with a; [lra|]. rewrite Rinv_l by lra. assert ((1 - q) * (1 + 2 * q) <= (1 - q) * a) by (apply Rmult_le_compat_l; lra). nra. }
  apply Rle_lt_trans with (1 - q); [|lra]. rewrite <- (RF_id f80 (1 - q)) by apply f80_step. apply RF_mono. assumption.
Qed.
Lemma recip_is : forall (x : flt f80) a, isf x a -> win 260 a -> isf (fdiv (one f80) x) (RF f80 (/ a)).
Proof.
  intros x a Ix Wa. destruct (recip_80 x a Ix Wa) as (z & Iz & _). pose proof (win_nz _ _ Wa) as Na.
  replace (/ a) with (1 / a) in * by (field; assumption). apply isf_fdiv; [apply isf_one|assumption|assumption|].
  pose proof (win_inv _ _ Wa) as [_ H]. apply (RF_lt_emax f80 _ 260); [vm_compute; split; discriminate || reflexivity|]. replace (1 / a) with (/ a) by (field; assumption). exact H.
Qed.

Lemma one_over_0 : forall s, fdiv (one f80) (B754_zero s) = B754_infinity s.
Proof. intros []; reflexivity. Qed.
Lemma lib_zero : forall g (x : flt f80) a, isf x a -> dom1 g a -> real1 g a = 0 -> exists s, m1 lm g x = B754_zero s.
Proof.
  intros g x a [Fx Vx] D E. assert (dom1 g (B2R x)) as D' by (rewrite Vx; exact D). pose proof (c_in lm C g f80 x Fx D') as K. rewrite Vx, E in K. destruct K as (_ & K & _). destruct (K eq_refl) as [F0 V0].
  unfold m1. destruct (lib1 lm g f80 x) as [s| | |s m e He]; try discriminate; [exists s; reflexivity|]. exfalso. apply eq_0_F2R in V0. destruct s; discriminate.
Qed.
Lemma over_nan : forall y : flt f80, fdiv B754_nan y = B754_nan.
Proof. intros [| | |]; reflexivity. Qed.
(** arcsec and arccsc inside (-1, 1) *)
Lemma und_inv : forall g (x : flt f80) a, g = Fasin \/ g = Facos -> isf x a -> (a = 0 -> x = B754_zero false) -> FF f80 a -> a = 0 \/ win 260 a -> ~ 1 <= Rabs a -> m1 lm g (fdiv (one f80) x) = B754_nan.
Proof.
  intros g x a Hg Ix Z0 F Hr D. destruct (Req_EM_T a 0) as [E|N].
  - rewrite (Z0 E), one_over_0. apply (c_inf_nan lm C). tauto.
  - destruct Hr as [Hr|Hr]; [contradiction|]. pose proof (recip_is x a Ix Hr) as Iz. pose proof (inv_gt1 a F N ltac:(lra)) as G.
    eapply lib_out; [exact Iz| |]; destruct Hg as [-> | ->]; cbn [dom1 pole1]; try tauto; intros [H1 H2]; apply Rabs_le in G || (assert (Rabs (RF f80 (/ a)) <= 1) by (apply Rabs_le; lra); lra).
Qed.
Lemma und_arsech : forall (x : flt f80) a, isf x a -> (a = 0 -> x = B754_zero false) -> FF f80 a -> a = 0 \/ win 260 a -> ~ 0 < a <= 1 -> und n_arsech f80 (m1 lm Facosh (fdiv (one f80) x)).
Proof.
  intros x a Ix Z0 F Hr D. destruct (Req_EM_T a 0) as [E|N].
  - rewrite (Z0 E), one_over_0. right. exists false. split; [apply (c_inf_acosh lm C)|reflexivity].
  - destruct Hr as [Hr|Hr]; [contradiction|]. pose proof (recip_is x a Ix Hr) as Iz. left. eapply lib_out; [exact Iz| |cbn [pole1]; tauto]. cbn [dom1].
    destruct (Rle_or_lt a 1) as [L|L]; [|pose proof (inv_lt1 a F L); lra]. assert (a < 0) as Na by (destruct (Rlt_or_le a 0); [assumption|exfalso; apply D; lra]).
    assert (RF f80 (/ a) <= RF f80 0) as K by (apply RF_mono; left; apply Rinv_lt_0_compat; assumption). rewrite RF_0 in K. lra.
Qed.
Lemma und_arcoth : forall (x : flt f80) a, isf x a -> (a = 0 -> x = B754_zero false) -> a = 0 \/ win 260 a -> ~ 1 < Rabs a -> und n_arcoth f80 (arcothl x86_64 lm x).
Proof.
  intros x a Ix Z0 Hr D. unfold arcothl. change (ld x86_64) with f80. apply (und_cast n_arcoth f64 f80). destruct (Req_EM_T a 0) as [E|N].
  - rewrite (Z0 E), one_over_0. left. apply (c_inf_nan lm C). tauto.
  - destruct Hr as [Hr|Hr]; [contradiction|]. destruct (recip_64 x a Ix Hr) as (z & Iz & Rz). pose proof (r_ge _ _ _ Rz ltac:(lra)) as G.
    destruct (Req_EM_T (Rabs z) 1) as [E|E].
    + destruct (lib_pole Fatanh f64 _ z Iz) as (s & -> & _); [cbn [pole1]; unfold Rabs in E; destruct (Rcase_abs z); lra|]. right. exists s. split; reflexivity.
    + left. eapply lib_out; [exact Iz| |]; cbn [dom1 pole1]; intros H; [assert (Rabs z < 1) by (apply Rabs_lt; lra); lra|]. apply E. destruct H as [-> | ->]; unfold Rabs; destruct (Rcase_abs _); lra.
Qed.
Lemma und_arcsch : forall (x : flt f80) a, (a = 0 -> x = B754_zero false) -> ~ a <> 0 -> und n_arcsch f80 (arcschl x86_64 lm x).
Proof.
  intros x a Z0 D. destruct (Req_EM_T a 0) as [E|N]; [|contradiction]. unfold arcschl. change (ld x86_64) with f80. apply (und_cast n_arcsch f64 f80). rewrite (Z0 E), one_over_0. right. exists false. split; [apply (c_inf_asinh lm C)|reflexivity].
Qed.

Theorem und_ld : forall u (x : flt f80) a, trigonometric u = false -> isf x a -> (a = 0 -> x = B754_zero false) -> FF f80 a -> a = 0 \/ win 260 a -> ~ defined u a -> und u f80 (unary_ld x86_64 lm u x).
Proof.
  intros u x a T Ix Z0 F Hr D. pose proof (und_dir u) as Dir. assert (bpow radix2 (-61) <= / 2) as E61 by (replace (/ 2) with (bpow radix2 (-1)) by (simpl; lra); apply bpow_le; lia).
  destruct u; try discriminate T; try (exfalso; apply D; exact I); cbn [unary_ld]; try (refine (Dir _ f80 x a eq_refl Ix D)); cbn [defined] in D.
  - eapply und_mul; [tauto|apply lb_acc| |exact E61|exact Ix|exact D]. apply Rinv_0_lt_compat. pose proof ln2_bounds. lra.
  - eapply und_mul; [tauto|apply lg_acc| |exact E61|exact Ix|exact D]. apply Rinv_0_lt_compat. pose proof ln10_bounds. lra.
  - left. unfold arcsin_over_pil. change (ld x86_64) with f80. rewrite (lib_out Fasin f80 x a Ix D) by (cbn [pole1]; tauto). apply over_nan.
  - left. unfold arccospil. change (ld x86_64) with f80. rewrite (lib_out Facos f80 x a Ix D) by (cbn [pole1]; tauto). apply over_nan.
  - left. apply (und_inv Facos x a); tauto.
  - left. unfold arcsec_over_pil. change (ld x86_64) with f80. rewrite (und_inv Facos x a) by tauto. reflexivity.
  - left. apply (und_inv Fasin x a); tauto.
  - left. unfold arccsc_over_pil. change (ld x86_64) with f80. rewrite (und_inv Fasin x a) by tauto. reflexivity.
  - assert (a = 0) as E by (destruct (Req_EM_T a 0); [assumption|contradiction]). unfold cothl. change (ld x86_64) with f80. destruct (lib_zero Ftanh x a Ix I) as (s & ->); [cbn [real1]; rewrite E; unfold tanh; rewrite sinh_0; field; apply Rgt_not_eq; rewrite cosh_0; lra|].
    rewrite one_over_0. right. exists s. split; reflexivity.
  - assert (a = 0) as E by (destruct (Req_EM_T a 0); [assumption|contradiction]). unfold cschl. change (ld x86_64) with f80. destruct (lib_zero Fsinh x a Ix I) as (s & ->); [cbn [real1]; rewrite E; apply sinh_0|].
    rewrite one_over_0. right. exists s. split; reflexivity.
  - eapply und_arcoth; eassumption.
  - eapply und_arsech; eassumption.
  - eapply und_arcsch; eassumption.
Qed.
Theorem und_double : forall u (x : flt f64) a, trigonometric u = false -> isf x a -> (a = 0 -> x = B754_zero false) -> a = 0 \/ win 260 a -> ~ defined u a -> und u f64 (unary_double x86_64 lm u x).
Proof.
  intros u x a T Ix Z0 Hr D. pose proof (und_dir u) as Dir.
  assert (isf (fcast f80 x) a /\ FF f80 a /\ (a = 0 -> fcast f80 x = B754_zero false)) as (Iy & F & Zy).
  { assert (isf (fcast f80 x) a) as A by (apply isf_fcast_up; [split; vm_compute; discriminate|assumption]). split; [exact A|]. split; [destruct A as [_ <-]; apply generic_format_B2R|]. intros E. rewrite (Z0 E). reflexivity. }
  assert (und u f64 (via_ld x86_64 (unary_ld x86_64 lm u) x)) as V by (unfold via_ld; change (ld x86_64) with f80; apply und_cast; apply (und_ld u _ a); assumption).
  destruct u; try discriminate T; try (exfalso; apply D; exact I); cbn [unary_double]; first [exact V|refine (Dir _ f64 x a eq_refl Ix D)].
Qed.
End Dom.

Lemma defined_arg : forall u v a, trigonometric u = false -> arg v a -> ~ defined u v -> ~ defined u a.
Proof.
  intros u v a T A D. destruct (Req_EM_T v 0) as [E0|N0].
  - assert (a = v) as ->; [|assumption]. pose proof (arg_rel v a A) as H. rewrite E0, Rabs_R0, Rmult_0_r in H. rewrite E0. pose proof (Rabs_pos (a - 0)). assert (Rabs (a - 0) = 0) as Z by lra. apply Rabs_eq_R0 in Z || (apply Rabs_def2 in Z). lra.
  - pose proof (arg_1 v a A) as H1. pose proof (arg_m1 v a A) as H2.
    assert ((a < 0 <-> v < 0) /\ (0 < a <-> 0 < v)) as [S1 S2].
    { pose proof (arg_rel v a A) as H. assert (bpow radix2 (-56) < 1) as B by (apply (bpow_lt radix2 (-56) 0); lia). apply Rabs_le_inv in H. pose proof (bpow_gt_0 radix2 (-56)). unfold Rabs in H. destruct (Rcase_abs v); split; split; intros; nra. }
    assert ((a < 1 <-> v < 1) /\ (1 < a <-> 1 < v)) as [S3 S4] by (destruct (Rcompare_spec a 1), (Rcompare_spec v 1); try discriminate H1; split; split; intros; lra).
    assert ((a < -1 <-> v < -1) /\ (-1 < a <-> -1 < v)) as [S5 S6] by (destruct (Rcompare_spec a (-1)), (Rcompare_spec v (-1)); try discriminate H2; split; split; intros; lra).
    assert (Rabs a < 1 <-> Rabs v < 1) as S7 by (split; intros K; apply Rabs_def2 in K; apply Rabs_lt; tauto).
    assert (1 < Rabs a <-> 1 < Rabs v) as S8 by (unfold Rabs; destruct (Rcase_abs a), (Rcase_abs v); split; intros; try lra).
    destruct u; try discriminate T; cbn [defined] in *; try tauto; intros K; apply D; try lra.
    all: try (destruct (Rlt_or_le v 1), (Rlt_or_le v (-1)); lra).
    all: try (destruct (Rlt_or_le (Rabs v) 1); tauto || lra).
Qed.

Theorem unary_undefined : forall k lm u w t x, c99 lm -> trigonometric u = false -> is_intn (bits w) t -> value k (bits w) t = Some x -> ~ defined u x ->
  api_unary k lm u w t = Val (nar (bits w)).
Proof.
  intros k lm u w t x C T It Hx D. assert (6 <= bits w <= 64)%Z as Hn by (destruct w; simpl; lia).
  destruct k; cbn [api_unary].
  - destruct (log_arg lm (bits w) _ t x C (log_ld_to lm w) It Hx) as (y & a & Ey & Iy & A & Z0).
    unfold takum_unary, unary_log. rewrite Ey. cbn [bind]. change (ld x86_64) with f80.
    eapply log_from_nan; [apply log_ld_from|]. apply und_fixer. apply (und_ld lm C u y a); try assumption.
    + destruct Iy as [_ <-]. apply generic_format_B2R.
    + destruct (arg_rng x a A) as [E|E]; [left|right; assumption]. pose proof (arg_rel x a A) as H. rewrite E, Rabs_R0, Rmult_0_r, Rminus_0_r in H. pose proof (Rabs_pos a). assert (Rabs a = 0) as Z by lra. destruct (Req_EM_T a 0) as [E'|E']; [assumption|]. apply Rabs_no_R0 in E'. contradiction.
    + apply (defined_arg u x a); assumption.
  - unfold takum_linear_unary, unary_lin.
    assert (forall v, arg v v -> v = 0 \/ win 260 v) as Rng by (intros v A; apply (arg_rng v v A)).
    assert (w <> W64 -> (let! arg := lin_to_double x86_64 w t in lin_from_double x86_64 w (unary_fixer u f64 arg (unary_double x86_64 lm u arg))) = Val (nar (bits w))) as Dbl.
    { intros Nw. destruct (dbl_arg w t x Nw It Hx) as (y & Ey & Iy & A & Z0). rewrite Ey. cbn [bind].
      eapply (from_float_nar lm Linear); [apply from_float_lin; apply lin_d_from|]. apply und_fixer. apply (und_double lm C u y x); try assumption. apply Rng. exact A. }
    destruct w; try (apply Dbl; discriminate).
    destruct (ld_arg t x It Hx) as (y & Ey & Iy & A & Z0).
    rewrite Ey. cbn [bind]. change (ld x86_64) with f80. eapply (from_float_nar lm Linear); [apply from_float_lin; apply (lin_ld_from W64)|]. apply und_fixer. apply (und_ld lm C u y x); try assumption; [|apply Rng; exact A].
    destruct Iy as [_ <-]. apply generic_format_B2R.
Qed.
