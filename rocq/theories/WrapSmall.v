(** 2_raised_minus_1 and 10_raised_minus_1 near 0. *)
From Coq Require Import ZArith Reals Bool Lia Lra Psatz.
From Flocq Require Import Core.Core IEEE754.BinarySingleNaN Sterbenz.
From Verif Require Import CModel FloatModel Libm LibmSpec Spec CodeFacts SpecFacts ValueFacts WidthFacts WidthApi Conversion Wrappers LinApi WrapApi WrapSpec FloatFacts RoundFacts Machine LogFacts LinDec LinOps LinArith LinProps RealBounds LogConv NearCode WrapTotal WrapNar FloatAcc RealFacts FixFacts WrapAcc WrapAcc2 WrapAcc3 WrapMain WrapDom.
Local Open Scope R_scope.
Ltac bp := destruct bpow_62 as (Q0 & Q62 & Q61 & Q64 & Qs & Q49 & Q50 & Q48 & Q53 & Q60 & Q59).

Definition small_fun (u : unary_name) : option R := match u with n_2_raised_minus_1 => Some 2 | n_10_raised_minus_1 => Some 10 | _ => None end.

Lemma sub1_small : forall R_ (y : flt f80) k, (k <= 3)%Z -> close k f80 R_ y -> / 2 <= R_ - / 64 -> R_ <= 2 - / 64 ->
  exists z, isf (fsub y (one f80)) z /\ Rabs (z - (R_ - 1)) <= bpow radix2 (-60) /\ (z = 0 \/ bpow radix2 (-65) <= Rabs z) /\ Rabs z <= 2.
Proof.
  intros R_ y k Hk Cl H1 H2. bp. pose proof (close_near _ _ _ _ w80 Hk Cl) as N.
  assert (bpow radix2 (k - fprec f80) <= bpow radix2 (-61)) as Ek by (apply bpow_le; simpl; lia).
  destruct (near_acc _ _ _ _ _ N) as (r & Ir & Hr); [right; apply (win_weaken 5); [apply win_of; lra|lia]|].
  rewrite (Rabs_pos_eq R_) in Hr by lra. assert (Rabs (r - R_) <= bpow radix2 (-60)) as Hd.
  { eapply Rle_trans; [exact Hr|]. apply Rle_trans with (bpow radix2 (-61) * 2); [apply Rmult_le_compat; try lra; apply bpow_ge_0|]. change (-60)%Z with (1 + -61)%Z. rewrite bpow_plus. simpl (bpow radix2 1). lra. }
  assert (bpow radix2 (-60) <= / 64) as B60 by (change (/ 64) with (bpow radix2 (-6)); apply bpow_le; lia).
  pose proof (Rabs_le_inv _ _ Hd) as Hd'. pose proof (isf_FF _ _ _ Ir) as Fr.
  assert (FF f80 (r - 1)) as F1.
  { apply (sterbenz radix2 (SpecFloat.fexp (fprec f80) (femax f80))); [exact Fr|apply FF1|]. lra. }
  exists (r - 1). split; [|split; [|split]].
  - apply isf_fsub_exact; [assumption|apply isf_one|assumption|]. apply Rle_lt_trans with (bpow radix2 1); [simpl; apply Rabs_le; lra|]. apply bpow_lt. reflexivity.
  - replace (r - 1 - (R_ - 1)) with (r - R_) by ring. assumption.
  - assert (bpow radix2 (-65) <= bpow radix2 (-63)) by (apply bpow_le; lia). destruct (Rtotal_order r 1) as [K|[K|K]].
    + right. pose proof (gap_below f80 r w80 Fr K). rewrite Rabs_left1 by lra. lra.
    + left. lra.
    + right. pose proof (above_1 r Fr K). rewrite Rabs_pos_eq by lra. lra.
  - apply Rabs_le. lra.
Qed.

Lemma exp_small : forall s, Rabs s <= / 32 -> / 2 <= exp s - / 64 /\ exp s <= 2 - / 64.
Proof.
  intros s H. apply Rabs_le_inv in H. pose proof (exp_ineq1_le s). split; [lra|]. pose proof (exp_ineq1_le (- s)) as K. rewrite exp_Ropp in K. pose proof (exp_pos s).
  assert (exp s * (1 + - s) <= exp s * / exp s) as L by (apply Rmult_le_compat_l; lra). rewrite Rinv_r in L by lra. nra.
Qed.
Section Small.
Variable lm : libm.
Hypothesis C : c99 lm.

Lemma small_base : forall u b, small_fun u = Some b -> 0 < ln b <= 9 /\ trigonometric u = false /\ (forall a, defined u a) /\ (forall a, real_fun u a = exp (a * ln b) - 1) /\
  exists g, unary_ld x86_64 lm u = (fun x => fsub (g x) (one f80)) /\ forall x a, isf x a -> exists k, (k <= 3)%Z /\ close k f80 (exp (a * ln b)) (g x).
Proof.
  intros u b H. destruct u; try discriminate H; injection H as <-.
  - pose proof ln2_bounds. pose proof ln2_65. split; [lra|]. split; [reflexivity|]. split; [intros; exact I|]. split; [reflexivity|]. exists (m1 lm Fexp2). split; [reflexivity|].
    intros x a [Fx Vx]. exists 3%Z. split; [lia|]. rewrite <- Vx. exact (c_in lm C Fexp2 f80 x Fx I).
  - pose proof ln10_bounds. split; [lra|]. split; [reflexivity|]. split; [intros; exact I|]. split; [reflexivity|]. exists (cpow lm (fint f80 10)). split; [reflexivity|].
    intros x a [Fx Vx]. exists 2%Z. split; [lia|]. destruct (isf_fint (f := f80) 10) as [F10 V10]; [simpl; lia|].
    assert (0 < B2R (fint f80 10)) as P by (rewrite V10; lra). pose proof (c_pow_pos lm C f80 (fint f80 10) x F10 Fx P) as K. rewrite V10 in K. rewrite <- Vx. exact K.
Qed.
Lemma small_ld : forall u b (x : flt f80) a, small_fun u = Some b -> isf x a -> Rabs a <= bpow radix2 (-9) -> 
  exists z, isf (unary_ld x86_64 lm u x) z /\ Rabs (z - real_fun u a) <= bpow radix2 (-60) /\ (z = 0 \/ bpow radix2 (-65) <= Rabs z) /\ Rabs z <= 2.
Proof.
  intros u b x a Hu Ix Ha. destruct (small_base u b Hu) as (Hb & _ & _ & E & g & Eg & Hg). rewrite Eg, E. destruct (Hg x a Ix) as (k & Hk & Cl).
  destruct (exp_small (a * ln b)) as [E1 E2]; [|apply (sub1_small _ _ k); assumption].
  rewrite Rabs_mult, (Rabs_pos_eq (ln b)) by lra. change (bpow radix2 (-9)) with (/ 512) in Ha. apply Rle_trans with (/ 512 * 9); [|lra].
  apply Rmult_le_compat; try lra. apply Rabs_pos.
Qed.
Lemma round_small : forall F z, wide F -> z = 0 \/ bpow radix2 (-65) <= Rabs z -> Rabs z <= 2 -> Rabs (RF F z - z) <= bpow radix2 (-52) /\ Rabs (RF F z) < bpow radix2 (femax F).
Proof.
  intros F z W [-> | Hz] H2.
  - rewrite RF_0, Rminus_0_r, Rabs_R0. split; [apply bpow_ge_0|apply bpow_gt_0].
  - split.
    + eapply Rle_trans; [apply RF_rel9; [assumption|eapply Rle_trans; [apply bpow_le|exact Hz]; lia]|]. change (-52)%Z with (-53 + 1)%Z. rewrite bpow_plus. apply Rmult_le_compat; [apply bpow_ge_0|apply Rabs_pos| |simpl; assumption].
      apply bpow_le. destruct (wide_exp F W) as [[_ E]|[_ E]]; rewrite E; lia.
    + apply Rle_lt_trans with (bpow radix2 1); [|apply bpow_lt; destruct (wide_exp F W) as [[E _]|[E _]]; rewrite E; lia]. apply RF_abs_le; [apply FF_bpow|simpl; assumption]. destruct W as [-> | ->]; vm_compute; discriminate.
Qed.
Lemma fix_small : forall u b F (x y : flt F) z, small_fun u = Some b -> isf y z -> unary_fixer u F x y = y.
Proof. intros u b F x y z Hu [Fy _]. destruct u; try discriminate Hu; cbn [unary_fixer]; unfold fix_over; destruct y; try discriminate; reflexivity. Qed.
Lemma arg_small : forall v a, arg v a -> Rabs v <= bpow radix2 (-10) -> Rabs a <= bpow radix2 (-9).
Proof.
  intros v a A H. pose proof (arg_rel v a A) as K. assert (bpow radix2 (-56) <= 1) as B by (apply (bpow_le radix2 (-56) 0); lia). assert (bpow radix2 (-56) * Rabs v <= 1 * Rabs v) by (apply Rmult_le_compat_r; [apply Rabs_pos|lra]).
  pose proof (Rabs_triang (a - v) v) as T. replace (a - v + v) with a in T by ring. change (bpow radix2 (-9)) with (/ 512). change (bpow radix2 (-10)) with (/ 1024) in H. lra.
Qed.
(** the float computed *)
Lemma small_float : forall u b F (x : flt F) v a, small_fun u = Some b -> F = f64 \/ F = f80 -> isf x a -> arg v a -> Rabs v <= bpow radix2 (-10) ->
  let y := match F as F return flt F -> flt F with f80 => unary_ld x86_64 lm u | f64 => unary_double x86_64 lm u | _ => fun x => x end x in
  exists z, isf y z /\ Rabs (z - real_fun u a) <= match F with f80 => bpow radix2 (-59) | _ => bpow radix2 (-48) end.
Proof.
  intros u b F x v a Hu HF Ix A H. pose proof (arg_small v a A H) as Ha. bp.
  assert (bpow radix2 (-60) + bpow radix2 (-52) <= bpow radix2 (-48)) as B.
  { assert (bpow radix2 (-60) <= bpow radix2 (-52)) by (apply bpow_le; lia). replace (bpow radix2 (-48)) with (16 * bpow radix2 (-52)) by (change (-48)%Z with (4 + -52)%Z; rewrite bpow_plus; reflexivity). pose proof (bpow_gt_0 radix2 (-52)). lra. }
  pose proof (bpow_gt_0 radix2 (-52)) as P52. destruct HF as [-> | ->]; cbv zeta.
  - assert (isf (fcast f80 x) a) as Iy by (apply isf_fcast_up; [split; vm_compute; discriminate|assumption]).
    destruct (small_ld u b _ a Hu Iy Ha) as (z & Iz & K1 & K2 & K3). destruct (round_small f64 z w64 K2 K3) as [R1 R2]. exists (RF f64 z). split.
    + assert (unary_double x86_64 lm u x = fcast f64 (unary_ld x86_64 lm u (fcast f80 x))) as -> by (destruct u; try discriminate Hu; reflexivity). apply isf_fcast; assumption.
    + replace (RF f64 z - real_fun u a) with ((RF f64 z - z) + (z - real_fun u a)) by ring. eapply Rle_trans; [apply Rabs_triang|]. lra.
  - destruct (small_ld u b _ a Hu Ix Ha) as (z & Iz & K1 & K2 & K3). exists z. split; [assumption|]. lra.
Qed.
End Small.

Theorem small_computes : forall k lm u w t x, c99 lm -> u = n_2_raised_minus_1 \/ u = n_10_raised_minus_1 -> is_intn (bits w) t -> value k (bits w) t = Some x -> Rabs x <= bpow radix2 (-10) ->
  exists t', api_unary k lm u w t = Val t' /\ computes_abs k (bits w) u x t'.
Proof.
  intros k lm u w t x C Hu It Hx Hs. assert (exists b, small_fun u = Some b) as (b & Hb) by (destruct Hu as [-> | ->]; eexists; reflexivity).
  destruct (small_base lm C u b Hb) as (_ & _ & Df & _).
  assert (forall F (y : flt F) a z f, isf y z -> (forall x', Rabs (x' - a) <= argument_error u * Rabs a -> Rabs (x' - x) <= spread k u * Rabs x) -> Rabs (z - real_fun u a) <= float_error k (bits w) ->
    (forall z : flt F, is_finite z = true -> exists t, f z = Val t /\ rounds_nearly k (bits w) (code_error k (bits w)) (B2R z) t) -> exists t', f y = Val t' /\ computes_abs k (bits w) u x t') as Main.
  { intros F y a z f [Fy Vy] A H Hf. destruct (Hf y Fy) as (t' & E & Rt). exists t'. split; [assumption|]. exists a, z. split; [apply A, arg_self_dist|]. split; [apply Df|]. split; [assumption|]. rewrite <- Vy. assumption. }
  destruct k; cbn [api_unary].
  - destruct (log_arg lm (bits w) _ t x C (log_ld_to lm w) It Hx) as (y & a & Ey & Iy & A & Z0).
    unfold takum_unary, unary_log. rewrite Ey. cbn [bind]. change (ld x86_64) with f80. destruct (small_float lm C u b f80 y x a Hb (or_intror eq_refl) Iy A Hs) as (z & Iz & Hz).
    rewrite (fix_small u b f80 y _ z Hb Iz). eapply Main; [exact Iz|intros x' Hx'; eapply spread_log; eassumption|exact Hz|]. intros z' Fz. eapply log_from_near; [exact C|apply log_ld_from|exact Fz].
  - assert (forall F (f : flt F -> outcome Z), linear_from_float (bits w) F f -> F <> f32 -> forall z : flt F, is_finite z = true -> exists t, f z = Val t /\ rounds_nearly Linear (bits w) (code_error Linear (bits w)) (B2R z) t) as Fr.
    { intros F f H HF z Fz. apply (lin_from_near _ _ _ z H HF Fz). }
    unfold takum_linear_unary, unary_lin.
    assert (w <> W64 -> exists t', (let! arg := lin_to_double x86_64 w t in lin_from_double x86_64 w (unary_fixer u f64 arg (unary_double x86_64 lm u arg))) = Val t' /\ computes_abs Linear (bits w) u x t') as Dbl.
    { intros Nw. destruct (dbl_arg w t x Nw It Hx) as (y & Ey & Iy & A & Z0). rewrite Ey. cbn [bind]. destruct (small_float lm C u b f64 y x x Hb (or_introl eq_refl) Iy A Hs) as (z & Iz & Hz).
      rewrite (fix_small u b f64 y _ z Hb Iz). eapply Main; [exact Iz|intros x' Hx'; eapply spread_lin; eassumption|destruct w; try contradiction; exact Hz|]. apply Fr; [apply lin_d_from|discriminate]. }
    destruct w; try (apply Dbl; discriminate).
    destruct (ld_arg t x It Hx) as (y & Ey & Iy & A & Z0). rewrite Ey. cbn [bind]. change (ld x86_64) with f80. destruct (small_float lm C u b f80 y x x Hb (or_intror eq_refl) Iy A Hs) as (z & Iz & Hz).
    rewrite (fix_small u b f80 y _ z Hb Iz). eapply Main; [exact Iz|intros x' Hx'; eapply spread_lin; eassumption|exact Hz|]. apply Fr; [apply (lin_ld_from W64)|discriminate].
Qed.

(** ** NaR exactly outside of the domain *)
Lemma faithful_not_nar : forall k n y, (6 <= n <= 64)%Z -> ~ rounds_faithfully k n y (nar n).
Proof. intros k n y Hn [[_ E]|[_ [[_ [_ H]] _]]]; [|apply H; reflexivity]. unfold nar in E. pose proof (Z.pow_pos_nonneg 2 (n - 1)). lia. Qed.

Theorem nar_iff_undefined : forall k lm u w t x, c99 lm -> trigonometric u = false -> (u = n_arcoth -> w <> W64) -> is_intn (bits w) t -> value k (bits w) t = Some x ->
  (api_unary k lm u w t = Val (nar (bits w)) <-> ~ defined u x).
Proof.
  intros k lm u w t x C T Ha It Hx. assert (6 <= bits w <= 64)%Z as Hn by (destruct w; simpl; lia). split; [|apply unary_undefined; assumption].
  intros E D. assert (exists y, rounds_faithfully k (bits w) y (nar (bits w))) as (y & Hy); [|eapply faithful_not_nar; eassumption].
  assert (Sm : (u = n_2_raised_minus_1 \/ u = n_10_raised_minus_1) -> Rabs x <= bpow radix2 (-10) -> exists y, rounds_faithfully k (bits w) y (nar (bits w))).
  { intros Hu Hs. destruct (small_computes k lm u w t x C Hu It Hx Hs) as (t' & E' & x' & y & _ & _ & _ & [R _]). rewrite E in E'. injection E' as <-. exists y. assumption. }
  assert (Re : regular k (bits w) u x -> exists y, rounds_faithfully k (bits w) y (nar (bits w))).
  { intros Hr. destruct (unary_computes k lm u w t x C It Hx Hr) as (t' & E' & x' & y & _ & _ & _ & [R _]). rewrite E in E'. injection E' as <-. exists y. assumption. }
  assert (G : match u with n_2_raised_minus_1 | n_10_raised_minus_1 => bpow radix2 (-10) <= Rabs x | _ => True end -> exists y, rounds_faithfully k (bits w) y (nar (bits w))).
  { intros K. apply Re. split; [destruct u; try discriminate T; exact D|]. destruct u; try exact I; try exact K. intros K'. exfalso. specialize (Ha eq_refl). destruct w; try discriminate; contradiction. }
  destruct (Rle_or_lt (Rabs x) (bpow radix2 (-10))) as [Q|Q]; destruct u; try discriminate T; try (apply G; exact I); try (apply Sm; tauto); apply G; lra.
Qed.
