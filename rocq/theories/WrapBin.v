(** Accuracy of the functions of two arguments. *)
From Coq Require Import ZArith Reals Bool Lia Lra Psatz.
From Flocq Require Import Core.Core Relative Plus_error IEEE754.BinarySingleNaN.
From Verif Require Import CModel FloatModel Libm LibmSpec Spec CodeFacts SpecFacts ValueFacts WidthFacts WidthApi Conversion Wrappers LinApi WrapApi WrapSpec WrapSpec2 FloatFacts RoundFacts Machine LogFacts LinDec LinOps LinArith LinProps RealBounds LogConv NearCode WrapTotal WrapNar FloatAcc RealFacts FixFacts WrapAcc WrapMain.
Local Open Scope R_scope.
Ltac bp := destruct bpow_62 as (Q0 & Q62 & Q61 & Q64 & Qs & Q49 & Q50 & Q48 & Q53 & Q60 & Q59).

(** ** Shape of the functions *)
Inductive impl (fd : flt f64 -> flt f64 -> flt f64) (fl : flt f80 -> flt f80 -> flt f80) : forall F, (flt F -> flt F -> flt F) -> Prop :=
| impl_d : impl fd fl f64 fd
| impl_l : impl fd fl f80 fl.
Definition sel2 (k : kind) lm fd fl fx w s t : outcome Z :=
  match k with Logarithmic => binary_log x86_64 lm fl fx w s t | Linear => binary_lin x86_64 fd fl fx w s t end.

(** the float that stands for a takum of the given value *)
Definition opnd (k : kind) (v : option R) (F : fmt) (y : flt F) : Prop :=
  match v with
  | None => y = B754_nan
  | Some x => exists a, isf y a /\ arg x a /\ Rabs (a - x) <= slack k * Rabs x /\ (a = 0 -> y = B754_zero false)
  end.
Lemma val_cases : forall k n t, is_intn n t -> (8 <= n <= 64)%Z -> (t = nar n /\ value k n t = None) \/ exists x, value k n t = Some x.
Proof.
  intros k n t It Hn. destruct (takum_cases n t It) as [-> | [-> | Hr]].
  - right. exists 0. apply value_0.
  - left. split; [reflexivity|]. apply value_nar. lia.
  - right. destruct k; [rewrite value_log_real by assumption|rewrite lin_value by (assumption || lia)]; eexists; reflexivity.
Qed.
Lemma opnd_log : forall lm w t, c99 lm -> is_intn (bits w) t -> exists y, log_to_ld x86_64 lm w t = Val y /\ opnd Logarithmic (value Logarithmic (bits w) t) f80 y.
Proof.
  intros lm w t C It. destruct (val_cases Logarithmic (bits w) t It ltac:(destruct w; simpl; lia)) as [[-> E]|(x & E)]; rewrite E.
  - exists B754_nan. split; [apply (log_to_ld_nar lm C)|reflexivity].
  - destruct (log_arg lm (bits w) _ t x C (log_ld_to lm w) It E) as (y & a & Ey & Iy & A & Z0). exists y. split; [assumption|]. exists a. split; [assumption|]. split; [assumption|]. split; [apply (arg_rel _ _ A)|assumption].
Qed.
Lemma opnd_exact : forall x F (y : flt F), isf y x /\ arg x x /\ (x = 0 -> y = B754_zero false) -> opnd Linear (Some x) F y.
Proof. intros x F y (H1 & H2 & H3). exists x. split; [assumption|]. split; [assumption|]. split; [|assumption]. cbn [slack]. replace (x - x) with 0 by ring. rewrite Rabs_R0. lra. Qed.
Lemma opnd_d : forall w t, w <> W64 -> is_intn (bits w) t -> exists y, lin_to_double x86_64 w t = Val y /\ opnd Linear (value Linear (bits w) t) f64 y.
Proof.
  intros w t Nw It. destruct (val_cases Linear (bits w) t It ltac:(destruct w; simpl; lia)) as [[-> E]|(x & E)]; rewrite E.
  - exists B754_nan. split; [apply (linear_to_nar _ _ _ (lin_d_to w))|reflexivity].
  - destruct (dbl_arg w t x Nw It E) as (y & Ey & K). exists y. split; [assumption|apply opnd_exact; assumption].
Qed.
Lemma opnd_l : forall t, is_intn 64 t -> exists y, lin_to_ld x86_64 W64 t = Val y /\ opnd Linear (value Linear 64 t) f80 y.
Proof.
  intros t It. destruct (val_cases Linear 64 t It ltac:(lia)) as [[-> E]|(x & E)]; rewrite E.
  - exists B754_nan. split; [apply (linear_to_nar _ _ _ (lin_ld_to W64))|reflexivity].
  - destruct (ld_arg t x It E) as (y & Ey & K). exists y. split; [assumption|apply opnd_exact; assumption].
Qed.
(** every function of two arguments computes with floats of one format *)
Definition fe (F : fmt) : R := match F with f80 => bpow radix2 (-59) | _ => bpow radix2 (-48) end.
Lemma fe_pos : forall F, 0 <= fe F.
Proof. intros F. destruct F; apply bpow_ge_0. Qed.
Lemma float_error_rng : forall k n, 0 <= float_error k n <= / 4.
Proof.
  intros k n. assert (bpow radix2 (-59) <= / 4 /\ bpow radix2 (-48) <= / 4) as [A B] by (change (/ 4) with (bpow radix2 (-2)); split; apply bpow_le; lia).
  pose proof (bpow_ge_0 radix2 (-59)). pose proof (bpow_ge_0 radix2 (-48)). unfold float_error. destruct k; [lra|]. destruct (n =? 64)%Z; lra.
Qed.
Lemma bin_shape : forall k lm fd fl (fx : fixer2) w s t (P : outcome Z -> Prop), c99 lm -> is_intn (bits w) s -> is_intn (bits w) t ->
  (forall F g fr (a b : flt F), wide F -> fe F <= float_error k (bits w) -> impl fd fl F g -> from_float lm k (bits w) F fr ->
     opnd k (value k (bits w) s) F a -> opnd k (value k (bits w) t) F b -> P (fr (fx F a b (g a b)))) ->
  P (sel2 k lm fd fl fx w s t).
Proof.
  intros k lm fd fl fx w s t P C Is It H. destruct k; cbn [sel2].
  - unfold binary_log. destruct (opnd_log lm w s C Is) as (a & Ea & Oa). destruct (opnd_log lm w t C It) as (b & Eb & Ob).
    rewrite Ea, Eb. cbn [bind]. change (ld x86_64) with f80. apply H; [apply w80|apply Rle_refl|constructor|apply from_float_log; apply log_ld_from|assumption|assumption].
  - unfold binary_lin.
    assert (w <> W64 -> P (let! fa := lin_to_double x86_64 w s in let! fb := lin_to_double x86_64 w t in lin_from_double x86_64 w (fx f64 fa fb (fd fa fb)))) as D.
    { intros Nw. destruct (opnd_d w s Nw Is) as (a & Ea & Oa). destruct (opnd_d w t Nw It) as (b & Eb & Ob).
      rewrite Ea, Eb. cbn [bind]. apply H; [apply w64|destruct w; try contradiction; apply Rle_refl|constructor|apply from_float_lin; apply lin_d_from|assumption|assumption]. }
    destruct w; try (apply D; discriminate).
    destruct (opnd_l s Is) as (a & Ea & Oa). destruct (opnd_l t It) as (b & Eb & Ob).
    rewrite Ea, Eb. cbn [bind]. change (ld x86_64) with f80. apply H; [apply w80|apply Rle_refl|constructor|apply from_float_lin; apply lin_ld_from|assumption|assumption].
Qed.
Lemma from_faithful : forall lm k n F fr (y : flt F), c99 lm -> from_float lm k n F fr -> is_finite y = true -> exists t, fr y = Val t /\ rounds_faithfully k n (B2R y) t.
Proof.
  intros lm k n F fr y C H. revert y. destruct H as [n F f H|n F f H]; intros y Fy.
  - eapply log_from_faithful; eassumption.
  - destruct (lin_from_faithful _ _ _ y H Fy) as (t & E & _ & Rt). exists t. split; assumption.
Qed.
Lemma from_near : forall lm k n F fr (y : flt F), c99 lm -> wide F -> fe F <= float_error k n -> from_float lm k n F fr -> is_finite y = true -> exists t, fr y = Val t /\ rounds_nearly k n (code_error k n) (B2R y) t.
Proof.
  intros lm k n F fr y C W Le H. revert W Le y. destruct H as [n F f H|n F f H]; intros W Le y Fy.
  - assert (F = f80) as ->; [|eapply log_from_near; eassumption]. destruct F; try reflexivity; exfalso; cbn [fe float_error] in Le; pose proof (bpow_lt radix2 (-59) (-48) ltac:(lia)); lra.
  - apply (lin_from_near _ _ _ y H); [|assumption]. intros ->. destruct W; discriminate.
Qed.
Lemma fe80 : forall k n, fe f80 <= float_error k n.
Proof. intros k n. pose proof (bpow_lt radix2 (-59) (-48) ltac:(lia)). destruct k; cbn [fe float_error]; [|destruct (n =? 64)%Z]; lra. Qed.

Definition impl_of (lm : libm) (b : binary_name) : (flt f64 -> flt f64 -> flt f64) * (flt f80 -> flt f80 -> flt f80) * fixer2 :=
  match b with
  | n_addition => (fadd, fadd, fix2_none)
  | n_subtraction => (fsub, fsub, fix2_none)
  | n_hypotenuse => (lib2 lm Fhypot f64, lib2 lm Fhypot f80, fix2_over)
  | n_arctan2 => (lib2 lm Fatan2 f64, lib2 lm Fatan2 f80, fix2_none)
  | n_arctan2_over_pi => (arctan2pi x86_64 lm, arctan2pil x86_64 lm, fix2_none)
  | n_power => (lib2 lm Fpow f64, lib2 lm Fpow f80, fix_power)
  | _ => (fadd, fadd, fix2_none)
  end.
Lemma api_sel2 : forall k lm b w s t, b <> n_multiplication -> b <> n_division ->
  api_binary k lm b w s t = sel2 k lm (fst (fst (impl_of lm b))) (snd (fst (impl_of lm b))) (snd (impl_of lm b)) w s t.
Proof. intros k lm b w s t H1 H2. destruct k, b; try contradiction; reflexivity. Qed.

(** ** Real facts *)
Lemma atan_low : forall z, 0 < z -> z / (1 + z) <= atan z.
Proof.
  intros z P. assert (0 < atan z) as A by (rewrite <- atan_0; apply atan_increasing; assumption).
  set (y := atan z) in *. assert (z = tan y) as E by (symmetry; apply tan_atan).
  destruct (Rle_or_lt 1 y) as [Q|Q].
  - apply Rle_trans with 1; [|assumption]. apply Rmult_le_reg_r with (1 + z); [lra|]. unfold Rdiv. rewrite Rmult_assoc, Rinv_l by lra. lra.
  - assert (cos y >= 1 - y) as C.
    { pose proof (cos_2a_sin (y / 2)) as C. replace (2 * (y / 2)) with y in C by field. pose proof (sin_le_abs (y / 2)) as S.
      assert (Rabs (sin (y / 2)) * Rabs (sin (y / 2)) <= Rabs (y / 2) * Rabs (y / 2)) as S2 by (apply Rmult_le_compat; assumption || apply Rabs_pos).
      rewrite <- !Rabs_mult, !Rabs_pos_eq in S2 by nra. nra. }
    pose proof (sin_lt_x y A) as S. assert (0 < cos y) by lra.
    assert (z * (1 - y) <= y).
    { rewrite E. unfold tan, Rdiv. apply Rle_trans with (sin y * / cos y * cos y).
      - apply Rmult_le_compat_l; [|lra]. change (0 <= tan y). rewrite <- E. lra.
      - rewrite Rmult_assoc, Rinv_l by lra. lra. }
    apply Rmult_le_reg_r with (1 + z); [lra|]. unfold Rdiv. rewrite Rmult_assoc, Rinv_l by lra. lra.
Qed.
Lemma atan_win_h : forall z h, (5 <= h)%Z -> win h z -> win (h + 1) (atan z).
Proof.
  intros z h Hh. assert (forall z, 0 < z -> win h z -> win (h + 1) (atan z)) as K.
  { clear z. intros z P [H1 H2]. rewrite Rabs_pos_eq in H1, H2 by lra. pose proof (atan_low z P) as L. pose proof (atan_bound z) as B. pose proof PI_bounds as PB.
    assert (0 < atan z) as A by (rewrite <- atan_0; apply atan_increasing; assumption).
    unfold win. rewrite Rabs_pos_eq by lra. split.
    - apply Rle_trans with (z / (1 + z)); [|exact L]. apply Rmult_le_reg_r with (1 + z); [lra|]. unfold Rdiv. rewrite Rmult_assoc, Rinv_l by lra.
      replace (- (h + 1))%Z with (-1 + - h)%Z by lia. rewrite bpow_plus. change (bpow radix2 (-1)) with (/ 2).
      assert (bpow radix2 (- h) <= 1) by (apply (bpow_le radix2 _ 0); lia). pose proof (bpow_gt_0 radix2 (- h)). nra.
    - apply Rle_trans with (bpow radix2 5); [simpl; lra|apply bpow_le; lia]. }
  intros H. destruct (Rtotal_order z 0) as [N|[-> |P]].
  - replace (atan z) with (- atan (- z)) by (rewrite atan_opp; ring). apply win_opp. apply K; [lra|]. apply win_opp. assumption.
  - apply win_nz in H. contradiction.
  - apply K; assumption.
Qed.
Lemma atan2_win : forall y x, y = 0 \/ win 260 y -> x = 0 \/ win 260 x -> real_atan2 y x = 0 \/ win 521 (real_atan2 y x).
Proof.
  intros y x Hy Hx. unfold real_atan2. pose proof PI_bounds as PB.
  assert (forall z, / 16 <= z <= 16 -> win 521 z) as W by (intros z Hz; apply (win_weaken 5); [apply win_of; assumption|lia]).
  destruct (Rlt_bool_spec 0 x).
  - destruct Hx as [-> | Hx]; [lra|]. destruct Hy as [-> | Hy]; [left; unfold Rdiv; rewrite Rmult_0_l; apply atan_0|right].
    apply (atan_win_h _ 520); [lia|]. apply (win_div 260 260); assumption.
  - destruct (Rlt_bool_spec x 0).
    + pose proof (atan_bound (y / x)) as B. assert (/ x < 0) as Ix by (apply Rinv_lt_0_compat; assumption). destruct (Rlt_bool_spec y 0).
      * right. assert (0 < atan (y / x)) by (rewrite <- atan_0; apply atan_increasing; unfold Rdiv; nra). replace (atan (y / x) - PI) with (- (PI - atan (y / x))) by ring. apply win_opp. apply W. lra.
      * right. apply W. assert (atan (y / x) <= 0). { rewrite <- atan_0. assert (y / x <= 0) as [K|K] by (unfold Rdiv; nra); [left; apply atan_increasing; assumption|right; rewrite K; reflexivity]. } lra.
    + destruct (Rlt_bool_spec 0 y); [right; apply W; lra|]. destruct (Rlt_bool_spec y 0); [right; apply win_opp; apply W; lra|left; reflexivity].
Qed.
Lemma atan2_angle : forall y x, is_angle y x (real_atan2 y x).
Proof.
  intros y x. unfold is_angle, real_atan2. pose proof PI_bounds as PB. cbv zeta.
  assert (forall u, 0 < 1 + u * u) as Pu by (intros; nra).
  assert (x <> 0 -> let u := y / x in let d := sqrt (x * x + y * y) in d * cos (atan u) = Rabs x /\ d * sin (atan u) = Rabs x * u) as Main.
  { intros Nx u d. assert (d = Rabs x * sqrt (1 + u * u)) as Ed.
    { unfold d. rewrite <- sqrt_Rsqr_abs. rewrite <- sqrt_mult_alt by apply Rle_0_sqr. f_equal. unfold Rsqr, u. field. assumption. }
    assert (0 < sqrt (1 + u * u)) by (apply sqrt_lt_R0; apply Pu).
    rewrite Ed, cos_atan, sin_atan. unfold Rsqr. split; field; lra. }
  destruct (Rlt_bool_spec 0 x).
  - pose proof (atan_bound (y / x)). destruct (Main ltac:(lra)) as [M1 M2]. rewrite M1, M2, Rabs_pos_eq by lra. split; [lra|]. split; [split; [reflexivity|field; lra]|lra].
  - destruct (Rlt_bool_spec x 0).
    + pose proof (atan_bound (y / x)) as B. assert (/ x < 0) as Ix by (apply Rinv_lt_0_compat; assumption). destruct (Main ltac:(lra)) as [M1 M2]. rewrite Rabs_left in M1, M2 by lra. destruct (Rlt_bool_spec y 0).
      * assert (0 < atan (y / x)) by (rewrite <- atan_0; apply atan_increasing; unfold Rdiv; nra). split; [lra|]. split; [|lra].
        replace (atan (y / x) - PI) with (- (PI - atan (y / x))) by ring. rewrite cos_neg, sin_antisym, cos_minus, sin_minus, cos_PI, sin_PI.
        split; [transitivity (- (sqrt (x * x + y * y) * cos (atan (y / x)))); [rewrite M1; ring|ring]|transitivity (- (sqrt (x * x + y * y) * sin (atan (y / x)))); [rewrite M2; field; lra|ring]].
      * assert (atan (y / x) <= 0). { rewrite <- atan_0. assert (y / x <= 0) as [K|K] by (unfold Rdiv; nra); [left; apply atan_increasing; assumption|right; rewrite K; reflexivity]. }
        split; [lra|]. split; [|lra]. rewrite cos_plus, sin_plus, cos_PI, sin_PI.
        split; [transitivity (- (sqrt (x * x + y * y) * cos (atan (y / x)))); [rewrite M1; ring|ring]|transitivity (- (sqrt (x * x + y * y) * sin (atan (y / x)))); [rewrite M2; field; lra|ring]].
    + assert (x = 0) as -> by lra. replace (0 * 0 + y * y) with (y * y) by ring.
      assert (sqrt (y * y) = Rabs y) as -> by (apply sqrt_Rsqr_abs).
      destruct (Rlt_bool_spec 0 y); [|destruct (Rlt_bool_spec y 0)].
      * rewrite cos_PI2, sin_PI2, Rabs_pos_eq by lra. split; [lra|]. split; [split; lra|lra].
      * rewrite cos_neg, sin_antisym, cos_PI2, sin_PI2, Rabs_left by lra. split; [lra|]. split; [split; lra|lra].
      * assert (y = 0) as -> by lra. rewrite Rabs_R0. split; [lra|]. split; [split; lra|lra].
Qed.
Lemma hypot_win : forall x y, x = 0 \/ win 260 x -> y = 0 \/ win 260 y -> sqrt (x * x + y * y) = 0 \/ win 261 (sqrt (x * x + y * y)).
Proof.
  intros x y Hx Hy. assert (forall x y, win 260 x -> y = 0 \/ win 260 y -> win 261 (sqrt (x * x + y * y))) as K.
  { clear. intros x y [A B] Hy. pose proof (sqrt_pos (x * x + y * y)) as Ps. unfold win. rewrite Rabs_pos_eq by assumption.
    assert (Rabs y <= bpow radix2 260) as By by (destruct Hy as [-> | [_ H]]; [rewrite Rabs_R0; apply bpow_ge_0|assumption]).
    assert (x * x = Rabs x * Rabs x /\ y * y = Rabs y * Rabs y) as [Ex Ey] by (rewrite <- !Rabs_mult, !Rabs_pos_eq by nra; split; reflexivity).
    pose proof (Rabs_pos x). pose proof (Rabs_pos y). pose proof (bpow_gt_0 radix2 260). split.
    - apply Rle_trans with (Rabs x).
      + eapply Rle_trans; [|exact A]. apply bpow_le. lia.
      + rewrite <- sqrt_Rsqr_abs. apply sqrt_le_1_alt. unfold Rsqr. nra.
    - apply Rle_trans with (sqrt (bpow radix2 261 * bpow radix2 261)).
      + apply sqrt_le_1_alt. rewrite Ex, Ey. assert (bpow radix2 261 = 2 * bpow radix2 260) as -> by (change 261%Z with (1 + 260)%Z; rewrite bpow_plus; reflexivity). nra.
      + rewrite sqrt_square by apply bpow_ge_0. lra. }
  destruct Hx as [-> | Hx]; [|right; apply K; assumption]. destruct Hy as [-> | Hy].
  - left. replace (0 * 0 + 0 * 0) with 0 by ring. apply sqrt_0.
  - right. rewrite Rplus_comm. apply K; [assumption|left; reflexivity].
Qed.

(** ** Each function *)
Section Bin.
Variable lm : libm.
Hypothesis C : c99 lm.

Lemma acc_good : forall F R_ (y : flt F) e e', acc e F R_ y -> e <= e' -> good e' F R_ y.
Proof. intros F R_ y e e' (r & Ir & Hr) He. exists r. split; [assumption|]. left. eapply Rle_trans; [exact Hr|]. apply Rmult_le_compat_r; [apply Rabs_pos|assumption]. Qed.

Lemma sum_acc : forall F a b, wide F -> FF F a -> FF F b -> a = 0 \/ win 260 a -> b = 0 \/ win 260 b ->
  Rabs (RF F (a + b) - (a + b)) <= fe F * Rabs (a + b) /\ Rabs (RF F (a + b)) < bpow radix2 (femax F).
Proof.
  intros F a b W Fa Fb Ha Hb. split.
  - destruct (FLT_plus_error_N_ex radix2 (femin F) (fprec F) (fun x => negb (Z.even x)) a b Fa Fb) as (eps & He & E).
    change (round radix2 (FLT_exp (femin F) (fprec F)) (Znearest (fun x => negb (Z.even x))) (a + b)) with (RF F (a + b)) in E. rewrite E.
    replace ((a + b) * (1 + eps) - (a + b)) with (eps * (a + b)) by ring. rewrite Rabs_mult. apply Rmult_le_compat_r; [apply Rabs_pos|].
    eapply Rle_trans; [exact He|]. unfold u_ro. pose proof (bpow_gt_0 radix2 (- fprec F + 1)) as P.
    assert (/ 2 * bpow radix2 (- fprec F + 1) <= fe F). { assert (bpow radix2 (- fprec F + 1) <= fe F) by (destruct W as [-> | ->]; apply bpow_le; simpl; lia). lra. }
    eapply Rle_trans; [|eassumption]. set (q := / 2 * bpow radix2 (- fprec F + 1)) in *. assert (0 < q) by (unfold q; lra). apply Rmult_le_reg_r with (1 + q); [lra|]. unfold Rdiv. rewrite Rmult_assoc, Rinv_l by lra. nra.
  - apply RF_small; [assumption|]. eapply Rle_trans; [apply Rabs_triang|].
    assert (forall x, x = 0 \/ win 260 x -> Rabs x <= bpow radix2 260) as B by (intros x [-> | [_ H]]; [rewrite Rabs_R0; apply bpow_ge_0|assumption]).
    pose proof (B a Ha). pose proof (B b Hb). assert (bpow radix2 960 = bpow radix2 700 * bpow radix2 260) as -> by (rewrite <- bpow_plus; reflexivity).
    assert (2 <= bpow radix2 700) by (apply (bpow_le radix2 1); lia). pose proof (bpow_gt_0 radix2 260). nra.
Qed.
Lemma arg_win : forall v a, arg v a -> a = 0 \/ win 260 a.
Proof.
  intros v a A. destruct (arg_rng _ _ A) as [E|H]; [left|right; assumption]. pose proof (arg_rel _ _ A) as K. rewrite E, Rabs_R0, Rmult_0_r, Rminus_0_r in K.
  destruct (Req_dec a 0) as [Q|Q]; [assumption|]. apply Rabs_pos_lt in Q. lra.
Qed.
Lemma isf_FF : forall F (x : flt F) a, isf x a -> FF F a.
Proof. intros F x a [_ <-]. apply generic_format_B2R. Qed.

Lemma over_id : forall F (a b y : flt F) r, isf y r -> fix2_over F a b y = y.
Proof. intros F a b y r [Fy _]. unfold fix2_over. destruct y; try discriminate; reflexivity. Qed.
Lemma k_prec : forall F, wide F -> bpow radix2 (3 - fprec F) <= bpow radix2 (-49).
Proof. intros F [-> | ->]; apply bpow_le; simpl; lia. Qed.
Lemma k_prec' : forall F, wide F -> bpow radix2 (3 - fprec F) <= fe F.
Proof. intros F [-> | ->]; apply bpow_le; simpl; lia. Qed.

Lemma bin_good : forall b F g (x y : flt F) a c, wide F -> b <> n_multiplication -> b <> n_division -> b <> n_power ->
  impl (fst (fst (impl_of lm b))) (snd (fst (impl_of lm b))) F g -> isf x a -> isf y c -> a = 0 \/ win 260 a -> c = 0 \/ win 260 c ->
  (a = 0 -> x = B754_zero false) -> (c = 0 -> y = B754_zero false) ->
  exists r, is_value2 b a c r /\ good (fe F) F r (snd (impl_of lm b) F x y (g x y)).
Proof.
  intros b F g x y a c W H1 H2 H3 Hg Ix Iy Wa Wc Za Zc.
  assert (forall G, G = F -> forall x y : flt G, isf x a -> isf y c -> (a = 0 -> x = B754_zero false) -> (c = 0 -> y = B754_zero false) -> wide G ->
    acc (fe G) G (real_atan2 a c) (lib2 lm Fatan2 G x y) /\ near (bpow radix2 (3 - fprec G)) 890 G (real_atan2 a c) (lib2 lm Fatan2 G x y)) as At.
  { intros G _ x' y' [Fx Vx] [Fy Vy] Zx Zy WG. pose proof (c_atan2 lm C G x' y' Fx Fy) as K. rewrite Vx, Vy in K.
    specialize (K ltac:(intros E; rewrite (Zx E); reflexivity) ltac:(intros E; rewrite (Zy E); reflexivity)).
    apply close_near in K; [|assumption|lia]. split; [|assumption]. pose proof (atan2_win a c Wa Wc) as Wr.
    eapply acc_weaken; [eapply near_acc; [exact K|]|apply k_prec'; assumption]. destruct Wr as [Wr|Wr]; [left; assumption|right; apply (win_weaken 521); [assumption|lia]]. }
  destruct b; try contradiction; cbn [impl_of fst snd is_value2] in *.
  - exists (a + c). split; [reflexivity|]. assert (g = fadd) as -> by (destruct Hg; reflexivity). unfold fix2_none.
    destruct (sum_acc F a c W (isf_FF _ _ _ Ix) (isf_FF _ _ _ Iy) Wa Wc) as [K1 K2]. apply (acc_good _ _ _ (fe F)); [|lra].
    exists (RF F (a + c)). split; [apply isf_fadd; assumption|assumption].
  - exists (a - c). split; [reflexivity|]. assert (g = fsub) as -> by (destruct Hg; reflexivity). unfold fix2_none.
    assert (- c = 0 \/ win 260 (- c)) as Wc' by (destruct Wc; [left; lra|right; apply win_opp; assumption]).
    assert (FF F (- c)) as Fc by (apply generic_format_opp; eapply isf_FF; eassumption).
    destruct (sum_acc F a (- c) W (isf_FF _ _ _ Ix) Fc Wa Wc') as [K1 K2]. apply (acc_good _ _ _ (fe F)); [|lra].
    exists (RF F (a - c)). split; [apply isf_fsub; assumption|assumption].
  - exists (sqrt (a * a + c * c)). split; [reflexivity|]. assert (g = lib2 lm Fhypot F) as -> by (destruct Hg; reflexivity).
    destruct Ix as [Fx Vx], Iy as [Fy Vy]. pose proof (c_hypot lm C F x y Fx Fy) as K. rewrite Vx, Vy in K. apply close_near in K; [|assumption|lia].
    pose proof (hypot_win a c Wa Wc) as Wr. destruct (near_acc _ _ _ _ _ K) as (r & Ir & Hr); [destruct Wr as [Wr|Wr]; [left; assumption|right; apply (win_weaken 261); [assumption|lia]]|].
    rewrite (over_id F x y _ r Ir). apply (acc_good _ _ _ (bpow radix2 (3 - fprec F))); [exists r; split; assumption|apply k_prec'; assumption].
  - exists (real_atan2 a c). split; [apply atan2_angle|]. assert (g = lib2 lm Fatan2 F) as -> by (destruct Hg; reflexivity). unfold fix2_none.
    apply (acc_good _ _ _ (fe F)); [|lra]. apply At; try assumption. reflexivity.
  - exists (real_atan2 a c / PI). pose proof PI_bounds as PB. split; [replace (real_atan2 a c / PI * PI) with (real_atan2 a c) by (field; lra); apply atan2_angle|]. unfold fix2_none.
    assert (forall x y : flt f80, isf x a -> isf y c -> (a = 0 -> x = B754_zero false) -> (c = 0 -> y = B754_zero false) -> acc (bpow radix2 (-59)) f80 (real_atan2 a c / PI) (arctan2pil x86_64 lm x y)) as K.
    { intros x' y' Ix' Iy' Zx Zy. pose proof Ix' as [Fx Vx]. pose proof Iy' as [Fy Vy]. pose proof (c_atan2 lm C f80 x' y' Fx Fy) as K. rewrite Vx, Vy in K.
      specialize (K ltac:(intros E; rewrite (Zx E); reflexivity) ltac:(intros E; rewrite (Zy E); reflexivity)). apply close_near in K; [|apply w80|lia]. unfold arctan2pil. change (ld x86_64) with f80.
      bp. pose proof (win_of PI ltac:(lra)) as WP. pose proof (atan2_win a c Wa Wc) as Wr.
      change (bpow radix2 (3 - fprec f80)) with (bpow radix2 (-61)) in K.
      apply (acc_div (bpow radix2 (-61)) (bpow radix2 (-63))); try lra; try apply w80.
      - apply (near_acc _ 890); [assumption|]. destruct Wr as [Wr|Wr]; [left; assumption|right; apply (win_weaken 521); [assumption|lia]].
      - apply pi_acc.
      - destruct Wr as [Wr|Wr]; [left; assumption|right; eapply win_weaken; [apply (win_div 521 5 _ _ Wr WP)|lia]].
      - rewrite fp80. assert (bpow radix2 (-59) = 16 * bpow radix2 (-63)) as -> by (change (-59)%Z with (4 + -63)%Z; rewrite bpow_plus; reflexivity).
        assert (bpow radix2 (-61) = 4 * bpow radix2 (-63)) as -> by (change (-61)%Z with (2 + -63)%Z; rewrite bpow_plus; reflexivity).
        assert (bpow radix2 (-63) = 2 * bpow radix2 (-64)) as E63 by (change (-63)%Z with (1 + -64)%Z; rewrite bpow_plus; reflexivity).
        assert (bpow radix2 (-63) <= / 1024) by (change (/ 1024) with (bpow radix2 (-10)); apply bpow_le; lia). pose proof (bpow_gt_0 radix2 (-63)). nra. }
    destruct Hg.
    + unfold arctan2pi. change (ld x86_64) with f80.
      assert (forall (z : flt f64) v, isf z v -> isf (fcast f80 z) v /\ ((v = 0 -> z = B754_zero false) -> v = 0 -> fcast f80 z = B754_zero false)) as Up.
      { intros z v Iz. split; [apply isf_fcast_up; [repeat split; vm_compute; discriminate|assumption]|]. intros Z0 E. rewrite (Z0 E). reflexivity. }
      destruct (Up x a Ix) as [U1 U2]. destruct (Up y c Iy) as [U3 U4]. specialize (K _ _ U1 U3 (U2 Za) (U4 Zc)).
      assert (near (bpow radix2 (-59)) 850 f80 (real_atan2 a c / PI) (arctan2pil x86_64 lm (fcast f80 x) (fcast f80 y))) as N.
      { apply acc_near; [assumption|]. pose proof (win_of PI ltac:(lra)) as WP. destruct (atan2_win a c Wa Wc) as [Wr|Wr]; [left; rewrite Wr; unfold Rdiv; ring|right; eapply win_weaken; [apply (win_div 521 5 _ _ Wr WP)|lia]]. }
      bp. apply (near_cast _ _ (bpow radix2 (-48)) f80 f64) in N; [|apply w80|apply w64|split; [apply bpow_ge_0|change (/ 64) with (bpow radix2 (-6)); apply bpow_le; lia]|lia|].
      * eapply acc_good; [eapply near_acc; [exact N|]|apply Rle_refl].
        pose proof (win_of PI ltac:(lra)) as WP. destruct (atan2_win a c Wa Wc) as [Wr|Wr]; [left; rewrite Wr; unfold Rdiv; ring|right; eapply win_weaken; [apply (win_div 521 5 _ _ Wr WP)|lia]].
      * change (- fprec f64)%Z with (-53)%Z. assert (bpow radix2 (-59) <= bpow radix2 (-53)) by (apply bpow_le; lia). assert (bpow radix2 (-48) = 32 * bpow radix2 (-53)) by (change (-48)%Z with (5 + -53)%Z; rewrite bpow_plus; reflexivity). pose proof (bpow_gt_0 radix2 (-53)). lra.
    + apply (acc_good _ _ _ (bpow radix2 (-59))); [apply K; assumption|apply Rle_refl].
Qed.

Theorem binary_computes : forall k b w s t x y, b <> n_multiplication -> b <> n_division -> b <> n_power ->
  is_intn (bits w) s -> is_intn (bits w) t -> value k (bits w) s = Some x -> value k (bits w) t = Some y ->
  exists t', api_binary k lm b w s t = Val t' /\ computes2 k (bits w) b x y t'.
Proof.
  intros k b w s t x y H1 H2 H3 Is It Hx Hy. rewrite api_sel2 by assumption. assert (6 <= bits w <= 64)%Z as Hn by (destruct w; simpl; lia).
  apply (bin_shape k lm _ _ _ w s t (fun o => exists t', o = Val t' /\ computes2 k (bits w) b x y t')); try assumption.
  intros F g fr fa fb W Le Hg Hf Oa Ob. rewrite Hx in Oa. rewrite Hy in Ob. destruct Oa as (a & Ia & Aa & Sa & Za), Ob as (c & Ic & Ac & Sc & Zc).
  destruct (bin_good b F g fa fb a c W H1 H2 H3 Hg Ia Ic (arg_win _ _ Aa) (arg_win _ _ Ac) Za Zc) as (r & Hr & G).
  destruct (good_from k (bits w) (fe F) F r _ fr (fe_pos F) Hn (fun z Fz => from_near lm k (bits w) F fr z C W Le Hf Fz) G) as (t' & z & E & Bz & Rz).
  exists t'. split; [assumption|]. exists a, c, r, z. repeat (split; [assumption|]). split; [|assumption]. eapply Rle_trans; [exact Bz|]. apply Rmult_le_compat_r; [apply Rabs_pos|exact Le].
Qed.
End Bin.
