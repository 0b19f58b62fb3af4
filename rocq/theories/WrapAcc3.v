(** Accuracy of the trigonometric functions. *)
From Coq Require Import ZArith Reals Bool Lia Lra Psatz.
From Flocq Require Import Core.Core IEEE754.BinarySingleNaN.
From Verif Require Import CModel FloatModel Libm LibmSpec Spec Conversion Wrappers WrapSpec FloatFacts RoundFacts RealBounds LogConv FloatAcc RealFacts FixFacts WrapAcc WrapAcc2 TrigGap.
Local Open Scope R_scope.
Ltac bp := destruct bpow_62 as (Q0 & Q62 & Q61 & Q64 & Qs & Q49 & Q50 & Q48 & Q53 & Q60 & Q59).

(** ** fmod is exact *)
Lemma finite_bounds : forall f m e, SpecFloat.bounded (fprec f) (femax f) m e = true -> (Zpos m < 2 ^ fprec f /\ femin f <= e)%Z.
Proof.
  intros f m e H. pose proof (fmt_pos f) as (P1 & P2 & P3). apply andb_prop in H as [Hc _]. unfold SpecFloat.canonical_mantissa in Hc. apply Zeq_bool_eq in Hc.
  rewrite Digits.Zpos_digits2_pos in Hc. pose proof (Digits.Zdigits_correct radix2 (Zpos m)) as Hd. simpl Z.abs in Hd.
  set (d := Digits.Zdigits radix2 (Zpos m)) in *. assert (0 < d)%Z as Hd0 by (apply Digits.Zdigits_gt_0; discriminate).
  unfold SpecFloat.fexp, SpecFloat.emin in Hc. unfold femin. split; [|lia].
  change (radix2 ^ (d - 1) <= Z.pos m < radix2 ^ d)%Z with (2 ^ (d - 1) <= Z.pos m < 2 ^ d)%Z in Hd.
  apply Z.lt_le_trans with (2 ^ d)%Z; [apply Hd|]. apply Z.pow_le_mono_r; lia.
Qed.
Lemma isf_normalize : forall f m e s, FF f (IZR m * bpow radix2 e) -> Rabs (IZR m * bpow radix2 e) < bpow radix2 (femax f) ->
  isf (f := f) (binary_normalize (fprec f) (femax f) _ _ mode_NE m e s) (IZR m * bpow radix2 e).
Proof.
  intros f m e s HF Hb. pose proof (binary_normalize_correct (fprec f) (femax f) _ _ mode_NE m e s) as H.
  cbv zeta in H. change (F2R (Float radix2 m e)) with (IZR m * bpow radix2 e) in H.
  change (round radix2 (SpecFloat.fexp (fprec f) (femax f)) (round_mode mode_NE) (IZR m * bpow radix2 e))
    with (RF f (IZR m * bpow radix2 e)) in H.
  rewrite RF_id in H by assumption. rewrite Rlt_bool_true in H by assumption.
  destruct H as (H1 & H2 & _). split; assumption.
Qed.
Lemma isf_ffmod : forall f (x y : flt f) a b, isf x a -> isf y b -> 0 < b -> isf (ffmod x y) (a - b * IZR (Ztrunc (a / b))).
Proof.
  intros f x y a b Ix [Fy Vy] Pb. pose proof (isf_lt _ _ _ Ix) as La. destruct Ix as [Fx Vx]. destruct y as [sy|sy| |sy my ey Hy]; try discriminate; [simpl in Vy; lra|].
  destruct x as [s|s| |s m e He]; try discriminate.
  - simpl in Vx. subst a. unfold Rdiv. rewrite Rmult_0_l, Ztrunc_IZR, Rmult_0_r, Rminus_0_r. split; reflexivity.
  - destruct (finite_bounds f m e He) as [Bm Be]. destruct (finite_bounds f my ey Hy) as [Bmy Bey]. cbn [ffmod]. set (k := Z.min e ey).
    set (A := (Z.pos m * 2 ^ (e - k))%Z). set (B := (Z.pos my * 2 ^ (ey - k))%Z).
    assert (0 < A)%Z as PA by (apply Z.mul_pos_pos; [lia|apply Z.pow_pos_nonneg; lia]). assert (0 < B)%Z as PB by (apply Z.mul_pos_pos; [lia|apply Z.pow_pos_nonneg; lia]).
    assert (B2R (B754_finite s m e He : flt f) = IZR (cond_Zopp s A) * bpow radix2 k) as EA.
    { unfold B2R, F2R. cbn [Defs.Fnum Defs.Fexp]. replace e with ((e - k) + k)%Z at 1 by ring. rewrite bpow_plus, <- Rmult_assoc. f_equal. rewrite <- IZR_pow2 by lia. rewrite <- mult_IZR. f_equal. unfold A. destruct s; cbn [cond_Zopp]; lia. }
    assert (sy = false) as ->. { destruct sy; [|reflexivity]. exfalso. unfold B2R, F2R in Vy. cbn [Defs.Fnum Defs.Fexp cond_Zopp] in Vy. assert (IZR (- Z.pos my) < 0) by (apply IZR_lt; lia). pose proof (bpow_gt_0 radix2 ey). nra. }
    assert (b = IZR B * bpow radix2 k) as EB.
    { rewrite <- Vy. unfold B2R, F2R. cbn [Defs.Fnum Defs.Fexp cond_Zopp]. replace ey with ((ey - k) + k)%Z at 1 by ring. rewrite bpow_plus, <- Rmult_assoc. f_equal. rewrite <- IZR_pow2 by lia. rewrite <- mult_IZR. reflexivity. }
    assert (a = IZR (cond_Zopp s A) * bpow radix2 k) as Ea by (rewrite <- Vx; exact EA). pose proof (bpow_gt_0 radix2 k) as Pk. assert (0 < IZR B) as PB' by (apply IZR_lt; lia).
    assert (a / b = IZR (cond_Zopp s A) / IZR B) as Eq by (rewrite Ea, EB; field; split; lra).
    assert (cond_Zopp s (A mod B) = cond_Zopp s A - B * Ztrunc (a / b))%Z as Er.
    { rewrite Eq. assert (Ztrunc (IZR (cond_Zopp s A) / IZR B) = cond_Zopp s (A / B)) as ->.
      { destruct s; cbn [cond_Zopp]; [rewrite opp_IZR; unfold Rdiv; rewrite Ropp_mult_distr_l_reverse, Ztrunc_opp; f_equal|];
          fold (IZR A / IZR B); rewrite Ztrunc_floor by (apply Rmult_le_pos; [apply IZR_le; lia|left; apply Rinv_0_lt_compat; assumption]); apply Zfloor_div; lia. }
      pose proof (Z.div_mod A B ltac:(lia)). destruct s; cbn [cond_Zopp]; lia. }
    assert (a - b * IZR (Ztrunc (a / b)) = IZR (cond_Zopp s (A mod B)) * bpow radix2 k) as ->.
    { rewrite Er, minus_IZR, mult_IZR, Rmult_minus_distr_r, <- Ea. rewrite EB at 1. ring. }
    pose proof (Z.mod_pos_bound A B PB) as Mb. assert (A mod B <= A)%Z as Ml by (apply Z.mod_le; lia).
    apply isf_normalize.
    + apply FF_dyadic; [|lia]. assert (Z.abs (cond_Zopp s (A mod B)) = A mod B)%Z as -> by (destruct s; cbn [cond_Zopp]; lia).
      destruct (Z_le_gt_dec e ey) as [Q|Q].
      * assert (A = Z.pos m) as EA' by (unfold A, k; rewrite Z.min_l, Z.sub_diag by lia; lia). lia.
      * assert (B = Z.pos my) as EB' by (unfold B, k; rewrite Z.min_r, Z.sub_diag by lia; lia). lia.
    + eapply Rle_lt_trans; [|exact La]. rewrite Ea, !Rabs_mult. apply Rmult_le_compat_r; [apply Rabs_pos|]. rewrite <- !abs_IZR. apply IZR_le. destruct s; cbn [cond_Zopp]; lia.
Qed.

(** ** Periods *)
Lemma sin_2kpi : forall x k, sin (x + 2 * IZR k * PI) = sin x /\ cos (x + 2 * IZR k * PI) = cos x.
Proof.
  assert (forall x k, (0 <= k)%Z -> sin (x + 2 * IZR k * PI) = sin x /\ cos (x + 2 * IZR k * PI) = cos x) as K.
  { intros x k H. rewrite <- (Z2Nat.id k H), <- INR_IZR_INZ. split; [apply sin_period|apply cos_period]. }
  intros x k. destruct (Z_le_gt_dec 0 k) as [H|H]; [apply K; assumption|].
  destruct (K (x + 2 * IZR k * PI) (- k)%Z ltac:(lia)) as [K1 K2]. rewrite <- K1, <- K2, opp_IZR. split; f_equal; ring.
Qed.
Lemma sin_pi_int : forall k, sin (PI * IZR k) = 0.
Proof. intros k. apply sin_eq_0_1. exists k. ring. Qed.
Lemma cos_pi_half : forall k, cos (PI * (/ 2 + IZR k)) = 0.
Proof. intros k. apply cos_eq_0_1. exists k. field. Qed.
Lemma pi_period : forall r k, sin (PI * (r + 2 * IZR k)) = sin (PI * r) /\ cos (PI * (r + 2 * IZR k)) = cos (PI * r).
Proof. intros r k. replace (PI * (r + 2 * IZR k)) with (PI * r + 2 * IZR k * PI) by ring. apply sin_2kpi. Qed.

(** values at the multiples of 1/2 *)
Lemma sincos_quarter : sin (PI * 0) = 0 /\ cos (PI * 0) = 1 /\ sin (PI * / 2) = 1 /\ cos (PI * / 2) = 0 /\ sin (PI * 1) = 0 /\ cos (PI * 1) = -1 /\ sin (PI * (3 / 2)) = -1 /\ cos (PI * (3 / 2)) = 0.
Proof.
  rewrite Rmult_0_r, Rmult_1_r, sin_0, cos_0, sin_PI, cos_PI. replace (PI * / 2) with (PI / 2) by reflexivity. rewrite sin_PI2, cos_PI2.
  replace (PI * (3 / 2)) with (PI / 2 + PI) by field. rewrite neg_sin, neg_cos, sin_PI2, cos_PI2. repeat split; lra.
Qed.
Lemma isf_half : isf (half f80) (/ 2).
Proof. replace (/ 2) with (IZR 1 * bpow radix2 (-1)) by (simpl; lra). apply isf_fconst; [apply FF_dyadic; vm_compute; discriminate|]. rewrite Rmult_1_l, Rabs_pos_eq by apply bpow_ge_0. apply bpow_lt. reflexivity. Qed.
Lemma isf_3half : isf (three_halves f80) (3 / 2).
Proof.
  replace (3 / 2) with (IZR 3 * bpow radix2 (-1)) by (simpl; lra). apply isf_fconst; [apply FF_dyadic; vm_compute; discriminate|]. rewrite Rabs_pos_eq by (simpl; lra).
  apply Rlt_trans with (bpow radix2 1); [simpl; lra|]. apply bpow_lt. reflexivity.
Qed.
Lemma isf_two : isf (two f80) 2.
Proof. apply isf_fint. vm_compute. discriminate. Qed.

Section Core3.
Variable lm : libm.
Hypothesis C : c99 lm.

(** regular trigonometric arguments *)
Lemma trig_ok : forall F (x : flt F) b, wide F -> isf x b -> win 266 b ->
  sin b <> 0 /\ cos b <> 0 /\ win 450 (sin b) /\ win 450 (cos b).
Proof.
  intros F x b W Ix Wb. destruct (trig_gap F x b W Ix Wb) as [S K]. pose proof (bpow_gt_0 radix2 (-400)) as P.
  assert (forall y, bpow radix2 (-400) <= Rabs y -> -1 <= y <= 1 -> y <> 0 /\ win 450 y) as G.
  { intros y H B. split; [intros ->; rewrite Rabs_R0 in H; lra|]. split; [eapply Rle_trans; [|exact H]; apply bpow_le; lia|]. apply Rle_trans with 1; [apply Rabs_le; lra|apply (bpow_le radix2 0); lia]. }
  destruct (G _ S (SIN_bound b)) as [S1 S2]. destruct (G _ K (COS_bound b)) as [C1 C2]. split; [assumption|]. split; [assumption|]. split; assumption.
Qed.
Lemma reg_at : forall k n u F (x : flt F) a v, wide F -> trigonometric u = true -> pi_fun u = false -> isf x a -> arg v a -> regular k n u v ->
  defined u a /\ (a = 0 \/ win 900 (real_fun u a)).
Proof.
  intros k n u F x a v W T Np Ix A (Ap & _). destruct (arg_cases' v a A) as [E|Wa].
  - destruct (arg_order v a A) as (Eo & _). split; [|left; assumption]. rewrite E in *. assert (v = 0) as Ev by tauto.
    destruct u; try discriminate T; try discriminate Np; cbn [defined applicable] in *; try exact I; try contradiction; rewrite cos_0; lra.
  - destruct (trig_ok F x a W Ix (win_weaken 260 266 a Wa ltac:(lia))) as (S & K & Ws & Wc).
    split; [|right]; destruct u; try discriminate T; try discriminate Np; cbn [defined real_fun]; try exact I; try assumption;
      first [apply (win_weaken 450 900); [assumption|lia]|apply (win_weaken 450 900); [apply win_inv; assumption|lia]|exact (win_div 450 450 _ _ Ws Wc)|exact (win_div 450 450 _ _ Wc Ws)].
Qed.
Lemma trig_side : forall u a R_, trigonometric u = true -> R_ = 0 \/ win 900 R_ -> side u a R_.
Proof. intros u a R_ T H. eapply (side_or _ _ _ 900); [lia|destruct u; try discriminate T; reflexivity|assumption]. Qed.
Lemma win_1 : win 900 1.
Proof. unfold win. rewrite Rabs_R1. split; [apply (bpow_le radix2 _ 0)|apply (bpow_le radix2 0)]; lia. Qed.

(** sin, cos, tan *)
Definition tdir (u : unary_name) : option fun1 := match u with n_sin => Some Fsin | n_cos => Some Fcos | n_tan => Some Ftan | _ => None end.
Lemma trig0 : forall u, tdir u <> None -> real_fun u 0 = 0 \/ win 900 (real_fun u 0).
Proof.
  intros u H. destruct u; try (exfalso; apply H; reflexivity); cbn [real_fun]; rewrite ?sin_0, ?cos_0; [left; reflexivity|right; apply win_1|left; field].
Qed.
Lemma core_tdir : forall u g n F, tdir u = Some g -> wide F -> core u n (e1 F) F (m1 lm g).
Proof.
  intros u g n F Hg W r x a v Ix Z0 A Cl Rg. assert (trigonometric u = true) as T by (destruct u; try discriminate Hg; reflexivity).
  exists a. split; [apply arg_self_dist|]. destruct (reg_at r n u F x a v W T ltac:(destruct u; try discriminate Hg; reflexivity) Ix A Rg) as [Da Wa]. split; [assumption|].
  assert (real_fun u a = 0 \/ win 900 (real_fun u a)) as Wa' by (destruct Wa as [-> | Wa]; [apply trig0; rewrite Hg; discriminate|right; assumption]).
  split; [|apply trig_side; assumption].
  eapply (lib_near lm C); [assumption|exact Ix| |]; destruct u; try discriminate Hg; injection Hg as <-; cbn [dom1 real1 real_fun defined] in *; try exact I; try reflexivity. exact Da.
Qed.

Lemma inv_abs : forall R_, R_ <> 0 -> win 900 (/ R_) -> bpow radix2 (-900) <= Rabs R_.
Proof. intros R_ N H. apply win_inv in H. rewrite Rinv_inv in H. apply H. Qed.

(** the reciprocal of a library function at x' *)
Lemma rec_near : forall g (y : flt f80) b R_, isf y b -> dom1 g b -> real1 g b = R_ -> R_ <> 0 -> win 900 (/ R_) -> near e8 850 f80 (/ R_) (fdiv (one f80) (m1 lm g y)).
Proof.
  intros g y b R_ Iy D E N W. eapply near_e8; [eapply (inv_near lm C); [apply w80|exact Iy|exact D|exact E|apply inv_abs; assumption]| |lia].
  bp. unfold e2, e8. rewrite e1_80, fp80. lra.
Qed.
Lemma tan_inv : forall b, cos b <> 0 -> sin b <> 0 -> / tan b = cos b / sin b.
Proof. intros b H1 H2. unfold tan. field. split; assumption. Qed.
Lemma tan_nz : forall b, cos b <> 0 -> sin b <> 0 -> tan b <> 0.
Proof. intros b H1 H2. unfold tan. apply Rmult_integral_contrapositive. split; [assumption|apply Rinv_neq_0_compat; assumption]. Qed.
Lemma cot_near : forall (y : flt f80) b, isf y b -> sin b <> 0 -> win 900 (cos b / sin b) -> near e8 850 f80 (cos b / sin b) (cotl x86_64 lm y).
Proof.
  intros y b Iy N W. assert (cos b <> 0) as Nc by (intros E; rewrite E in W; apply (win_nz 900 _ W); field; assumption).
  rewrite <- tan_inv in * by assumption. eapply rec_near; [exact Iy|exact Nc|reflexivity|apply tan_nz; assumption|assumption].
Qed.
Lemma sec_near : forall (y : flt f80) b, isf y b -> cos b <> 0 -> win 900 (/ cos b) -> near e8 850 f80 (/ cos b) (secl x86_64 lm y).
Proof. intros y b Iy N W. eapply rec_near; [exact Iy|exact I|reflexivity|assumption|assumption]. Qed.
Lemma csc_near : forall (y : flt f80) b, isf y b -> sin b <> 0 -> win 900 (/ sin b) -> near e8 850 f80 (/ sin b) (cscl x86_64 lm y).
Proof. intros y b Iy N W. eapply rec_near; [exact Iy|exact I|reflexivity|assumption|assumption]. Qed.

Lemma core_trig : forall u n fl, trigonometric u = true -> pi_fun u = false ->
  (forall x a, isf x a -> defined u a -> a = 0 \/ win 900 (real_fun u a) -> near e8 850 f80 (real_fun u a) (fl x) /\ (real_fun u a = 0 \/ win 900 (real_fun u a))) -> core u n e8 f80 fl.
Proof.
  intros u n fl T Np H r x a v Ix Z0 A Cl Rg. exists a. split; [apply arg_self_dist|]. destruct (reg_at r n u f80 x a v w80 T Np Ix A Rg) as [Da Wa]. split; [assumption|].
  destruct (H x a Ix Da Wa) as [N S]. split; [assumption|]. apply trig_side; assumption.
Qed.
Lemma core_cot : forall n, core n_cot n e8 f80 (cotl x86_64 lm).
Proof.
  intros n. apply core_trig; [reflexivity|reflexivity|]. intros x a Ix D W. cbn [defined real_fun] in *. destruct W as [-> | W]; [exfalso; apply D, sin_0|]. split; [|right; assumption]. apply cot_near; assumption.
Qed.
Lemma core_sec : forall n, core n_sec n e8 f80 (secl x86_64 lm).
Proof.
  intros n. apply core_trig; [reflexivity|reflexivity|]. intros x a Ix D W. cbn [defined real_fun] in *.
  assert (win 900 (/ cos a)) as W' by (destruct W as [-> | W]; [rewrite cos_0, Rinv_1; apply win_1|assumption]). split; [|right; assumption]. apply sec_near; assumption.
Qed.
Lemma core_csc : forall n, core n_csc n e8 f80 (cscl x86_64 lm).
Proof.
  intros n. apply core_trig; [reflexivity|reflexivity|]. intros x a Ix D W. cbn [defined real_fun] in *. destruct W as [-> | W]; [exfalso; apply D, sin_0|]. split; [|right; assumption]. apply csc_near; assumption.
Qed.

(** ** Multiples of pi *)
Lemma pi_arg : forall (x : flt f80) a v, isf x a -> arg v a -> a <> 0 -> exists b, isf (fmul (PI_ x86_64) x) b /\ win 266 b /\ Rabs (b / PI - a) <= bpow radix2 (-61) * Rabs a.
Proof.
  intros x a v Ix A Na. bp. pose proof PI_bounds as PB. assert (win 260 a) as Wa by (destruct (arg_cases' v a A); [contradiction|assumption]).
  pose proof (win_mul 5 260 _ _ (win_of PI ltac:(lra)) Wa) as Wp.
  destruct (acc_mul (bpow radix2 (-63)) 0 (bpow radix2 (-61)) f80 PI a (PI_ x86_64) x w80 pi_acc (acc_isf _ _ _ 0 Ix ltac:(lra))) as (b & Ib & Hb).
  - lra.
  - lra.
  - right. eapply win_weaken; [exact Wp|lia].
  - rewrite fp80. lra.
  - pose proof (win_nz _ _ Wp) as Np. exists b. split; [assumption|].
    assert (Rabs (b - PI * a) < Rabs (PI * a)) as Hlt. { apply Rabs_pos_lt in Np. eapply Rle_lt_trans; [exact Hb|]. rewrite <- (Rmult_1_l (Rabs (PI * a))) at 2. apply Rmult_lt_compat_r; lra. }
    split.
    { assert (Rabs (b - PI * a) <= / 2 * Rabs (PI * a)) as Hh by (eapply Rle_trans; [exact Hb|]; apply Rmult_le_compat_r; [apply Rabs_pos|lra]).
      pose proof (Rabs_triang (b - PI * a) (PI * a)) as T1. replace (b - PI * a + PI * a) with b in T1 by ring.
      pose proof (Rabs_triang (PI * a - b) b) as T2. replace (PI * a - b + b) with (PI * a) in T2 by ring. rewrite (Rabs_minus_sym (PI * a)) in T2. destruct Wp as [W1 W2]. change (5 + 260)%Z with 265%Z in *.
      assert (bpow radix2 266 = 2 * bpow radix2 265) as E1 by (change 266%Z with (1 + 265)%Z; rewrite bpow_plus; reflexivity).
      assert (bpow radix2 (- (265)) = 2 * bpow radix2 (- (266))) as E2 by (change (- (265))%Z with (1 + - (266))%Z; rewrite bpow_plus; reflexivity). split; lra. }
    replace (b / PI - a) with ((b - PI * a) * / PI) by (field; lra). rewrite Rabs_mult, Rabs_inv, (Rabs_pos_eq PI) by lra. rewrite Rabs_mult, (Rabs_pos_eq PI) in Hb by lra.
    apply Rmult_le_reg_r with PI; [lra|]. rewrite Rmult_assoc, Rinv_l by lra. lra.
Qed.

Lemma pib : forall b, PI * (b / PI) = b.
Proof. intros b. pose proof PI_bounds. field. lra. Qed.
Lemma pi_at : forall u (y : flt f80) b, pi_fun u = true -> isf y b -> win 266 b -> defined u (b / PI) /\ win 900 (real_fun u (b / PI)).
Proof.
  intros u y b Pf Iy Wb. destruct (trig_ok f80 y b w80 Iy Wb) as (S & K & Ws & Wc).
  split; destruct u; try discriminate Pf; cbn [defined real_fun]; rewrite ?pib; try exact I; try assumption;
    first [apply (win_weaken 450 900); [assumption|lia]|apply (win_weaken 450 900); [apply win_inv; assumption|lia]|exact (win_div 450 450 _ _ Ws Wc)|exact (win_div 450 450 _ _ Wc Ws)].
Qed.
(** the special arguments return exact results, the others go through pi *)
Lemma core_pi : forall u n fl, pi_fun u = true ->
  (forall x a, isf x a -> defined u a -> (exists c, isf (fl x) c /\ real_fun u a = c /\ (c = 0 \/ c = 1 \/ c = -1)) \/
     (a <> 0 /\ forall b, isf (fmul (PI_ x86_64) x) b -> defined u (b / PI) -> win 900 (real_fun u (b / PI)) -> near e8 850 f80 (real_fun u (b / PI)) (fl x))) -> core u n e8 f80 fl.
Proof.
  intros u n fl Pf H r x a v Ix Z0 A Cl Rg. assert (trigonometric u = true) as T by (destruct u; try discriminate Pf; reflexivity).
  assert (defined u a) as Da by (destruct Rg as [Rg _]; destruct u; try discriminate Pf; apply Rg; exact Cl). bp. pose proof PI_bounds as PB.
  destruct (H x a Ix Da) as [(c & Ic & Ec & Hc) | (Na & K)].
  - exists a. split; [apply arg_self_dist|]. split; [assumption|]. rewrite Ec. assert (c = 0 \/ win 900 c) as Wc.
    { destruct Hc as [-> | [-> | ->]]; [left; reflexivity|right; apply win_1|right; apply (win_opp 900 1), win_1]. }
    split; [|apply trig_side; assumption]. apply acc_near; [|assumption]. apply acc_isf; [assumption|]. unfold e8. lra.
  - destruct (pi_arg x a v Ix A Na) as (b & Ib & Wb & Db). assert (Rabs (b / PI - a) <= argument_error u * Rabs a) as Db' by (destruct u; try discriminate Pf; exact Db).
    exists (b / PI). split; [assumption|]. destruct (pi_at u _ b Pf Ib Wb) as [D' W']. split; [assumption|].
    split; [apply K; assumption|apply trig_side; [assumption|right; assumption]].
Qed.

(** the residue modulo 2 and modulo 1 *)
Lemma mod2 : forall (x : flt f80) a, isf x a -> exists r k, isf (ffmod x (two f80)) r /\ a = r + 2 * IZR k /\ (r <> 0 -> r + 2 * IZR k <> 0).
Proof.
  intros x a Ix. exists (a - 2 * IZR (Ztrunc (a / 2))), (Ztrunc (a / 2)). split; [apply isf_ffmod; [assumption|apply isf_two|lra]|]. split; [ring|].
  intros N E. apply N. replace (a - 2 * IZR (Ztrunc (a / 2)) + 2 * IZR (Ztrunc (a / 2))) with a in E by ring. subst a. unfold Rdiv. rewrite Rmult_0_l, Ztrunc_IZR. ring.
Qed.
Lemma mod1 : forall (x : flt f80) a, isf x a -> exists r k, isf (ffmod x (one f80)) r /\ a = r + IZR k /\ (r <> 0 -> r + IZR k <> 0).
Proof.
  intros x a Ix. exists (a - 1 * IZR (Ztrunc (a / 1))), (Ztrunc (a / 1)). split; [apply isf_ffmod; [assumption|apply isf_one|lra]|]. split; [ring|].
  intros N E. apply N. replace (a - 1 * IZR (Ztrunc (a / 1)) + IZR (Ztrunc (a / 1))) with a in E by ring. subst a. unfold Rdiv. rewrite Rmult_0_l, Ztrunc_IZR. ring.
Qed.
Lemma isf_1 : isf (one f80) 1.
Proof. apply isf_one. Qed.
Lemma isf_m1 : isf (fneg (one f80)) (-1).
Proof. apply (isf_fneg _ 1), isf_one. Qed.

Ltac cmp I J := rewrite (feq_isf _ _ _ _ I J).
Ltac start2 x a Ix r k Ir Nr Ps Pc := destruct (mod2 x a Ix) as (r & k & Ir & -> & Nr); destruct (pi_period r k) as [Ps Pc].
Ltac exact_ c Hc := left; exists c; split; [exact Hc|lra].
Lemma core_sinpi : forall n, core n_sin_pi_times n e8 f80 (sinpil x86_64 lm).
Proof.
  intros n. destruct sincos_quarter as (S0 & C0 & S1 & C1 & S2 & C2 & S3 & C3). apply core_pi; [reflexivity|]. intros x a Ix _. cbn [defined real_fun].
  start2 x a Ix r k Ir Nr Ps Pc. unfold sinpil. change (ld x86_64) with f80. cmp Ir (isf_zero f80). cmp Ir isf_half. cmp Ir isf_1. cmp Ir isf_3half. rewrite Ps.
  destruct (Req_bool_spec r 0) as [-> | N0]; [exact_ 0 (isf_zero f80)|]. destruct (Req_bool_spec r (/ 2)) as [-> | N1]; [exact_ 1 isf_1|].
  destruct (Req_bool_spec r 1) as [-> | N2]; [exact_ 0 (isf_zero f80)|]. destruct (Req_bool_spec r (3 / 2)) as [-> | N3]; [exact_ (-1) isf_m1|].
  right. split; [apply Nr; assumption|]. intros b Ib _ W. rewrite pib in *. eapply lib8; [assumption|exact Ib|exact I|reflexivity].
Qed.
Lemma core_cospi : forall n, core n_cos_pi_times n e8 f80 (cospil x86_64 lm).
Proof.
  intros n. destruct sincos_quarter as (S0 & C0 & S1 & C1 & S2 & C2 & S3 & C3). apply core_pi; [reflexivity|]. intros x a Ix _. cbn [defined real_fun].
  start2 x a Ix r k Ir Nr Ps Pc. unfold cospil. change (ld x86_64) with f80. cmp Ir (isf_zero f80). cmp Ir isf_half. cmp Ir isf_1. cmp Ir isf_3half. rewrite Pc.
  destruct (Req_bool_spec r 0) as [-> | N0]; [exact_ 1 isf_1|]. destruct (Req_bool_spec r (/ 2)) as [-> | N1]; [exact_ 0 (isf_zero f80)|].
  destruct (Req_bool_spec r 1) as [-> | N2]; [exact_ (-1) isf_m1|]. destruct (Req_bool_spec r (3 / 2)) as [-> | N3]; [exact_ 0 (isf_zero f80)|].
  right. split; [apply Nr; assumption|]. intros b Ib _ W. rewrite pib in *. eapply lib8; [assumption|exact Ib|exact I|reflexivity].
Qed.
Lemma core_secpi : forall n, core n_sec_pi_times n e8 f80 (sec_pi_timesl x86_64 lm).
Proof.
  intros n. destruct sincos_quarter as (S0 & C0 & S1 & C1 & S2 & C2 & S3 & C3). apply core_pi; [reflexivity|]. intros x a Ix. cbn [defined real_fun].
  start2 x a Ix r k Ir Nr Ps Pc. unfold sec_pi_timesl. change (ld x86_64) with f80. cmp Ir (isf_zero f80). cmp Ir isf_half. cmp Ir isf_1. cmp Ir isf_3half. rewrite Pc. intros D.
  destruct (Req_bool_spec r 0) as [-> | N0]; [rewrite C0, Rinv_1; exact_ 1 isf_1|]. destruct (Req_bool_spec r (/ 2)) as [-> | N1]; [contradiction|].
  destruct (Req_bool_spec r 1) as [-> | N2]; [rewrite C2; replace (/ -1) with (-1) by field; exact_ (-1) isf_m1|]. destruct (Req_bool_spec r (3 / 2)) as [-> | N3]; [contradiction|].
  right. split; [apply Nr; assumption|]. intros b Ib D' W. rewrite pib in *. apply sec_near; assumption.
Qed.
Lemma core_cscpi : forall n, core n_csc_pi_times n e8 f80 (csc_pi_timesl x86_64 lm).
Proof.
  intros n. destruct sincos_quarter as (S0 & C0 & S1 & C1 & S2 & C2 & S3 & C3). apply core_pi; [reflexivity|]. intros x a Ix. cbn [defined real_fun].
  start2 x a Ix r k Ir Nr Ps Pc. unfold csc_pi_timesl. change (ld x86_64) with f80. cmp Ir (isf_zero f80). cmp Ir isf_half. cmp Ir isf_1. cmp Ir isf_3half. rewrite Ps. intros D.
  destruct (Req_bool_spec r 0) as [-> | N0]; [contradiction|]. destruct (Req_bool_spec r (/ 2)) as [-> | N1]; [rewrite S1, Rinv_1; exact_ 1 isf_1|].
  destruct (Req_bool_spec r 1) as [-> | N2]; [contradiction|]. destruct (Req_bool_spec r (3 / 2)) as [-> | N3]; [rewrite S3; replace (/ -1) with (-1) by field; exact_ (-1) isf_m1|].
  right. split; [apply Nr; assumption|]. intros b Ib D' W. rewrite pib in *. apply csc_near; assumption.
Qed.
Lemma core_tanpi : forall n, core n_tan_pi_times n e8 f80 (tanpil x86_64 lm).
Proof.
  intros n. apply core_pi; [reflexivity|]. intros x a Ix. cbn [defined real_fun]. destruct (mod1 x a Ix) as (r & k & Ir & -> & Nr).
  unfold tanpil. change (ld x86_64) with f80. cmp Ir (isf_zero f80). cmp Ir isf_half. intros D.
  destruct (Req_bool_spec r 0) as [-> | N0]; [rewrite Rplus_0_l, sin_pi_int; unfold Rdiv; rewrite Rmult_0_l; exact_ 0 (isf_zero f80)|].
  destruct (Req_bool_spec r (/ 2)) as [-> | N1]; [exfalso; apply D, cos_pi_half|].
  right. split; [apply Nr; assumption|]. intros b Ib D' W. rewrite pib in *. eapply lib8; [assumption|exact Ib|exact D'|reflexivity].
Qed.
Lemma core_cotpi : forall n, core n_cot_pi_times n e8 f80 (cot_pi_timesl x86_64 lm).
Proof.
  intros n. apply core_pi; [reflexivity|]. intros x a Ix. cbn [defined real_fun]. destruct (mod1 x a Ix) as (r & k & Ir & -> & Nr).
  unfold cot_pi_timesl. change (ld x86_64) with f80. cmp Ir (isf_zero f80). cmp Ir isf_half. intros D.
  destruct (Req_bool_spec r 0) as [-> | N0]; [exfalso; apply D; rewrite Rplus_0_l; apply sin_pi_int|].
  destruct (Req_bool_spec r (/ 2)) as [-> | N1]; [rewrite cos_pi_half; unfold Rdiv; rewrite Rmult_0_l; exact_ 0 (isf_zero f80)|].
  right. split; [apply Nr; assumption|]. intros b Ib D' W. rewrite pib in *. apply cot_near; assumption.
Qed.

(** ** Every function *)
Definition eu (u : unary_name) : R :=
  match u with n_arcoth | n_arcsch | n_2_raised_minus_1 | n_10_raised_minus_1 => e9 | _ => e8 end.
Lemma core_ld : forall u, core u 64 (eu u) f80 (unary_ld x86_64 lm u).
Proof.
  intros u. bp. assert (forall u e fl, core u 64 e f80 fl -> e <= e8 -> core u 64 e8 f80 fl) as Wk.
  { intros u' e fl H He r x a v H1 H2 H3 H4 H5. destruct (H r x a v H1 H2 H3 H4 H5) as (x' & K1 & K2 & K3 & K4). exists x'. repeat (split; [assumption|]). split; [|assumption]. eapply near_e8; [exact K3|assumption|lia]. }
  assert (e1 f80 <= e8) as E1 by (unfold e8; rewrite e1_80; lra). assert (e2 f80 <= e8) as E2 by (unfold e2, e8; rewrite e1_80, fp80; lra).
  destruct u; unfold unary_ld, eu.
  - exact (Wk _ _ _ (core_dir lm C n_exp Fexp 64 f80 eq_refl w80) E1).
  - exact (Wk _ _ _ (core_dir lm C n_exp_minus_1 Fexpm1 64 f80 eq_refl w80) E1).
  - exact (Wk _ _ _ (core_dir lm C n_2_raised Fexp2 64 f80 eq_refl w80) E1).
  - exact (core_2m1 lm C 64).
  - exact (core_10 lm C 64).
  - exact (core_10m1 lm C 64).
  - exact (Wk _ _ _ (core_dir lm C n_ln Flog 64 f80 eq_refl w80) E1).
  - exact (Wk _ _ _ (core_dir lm C n_ln_1_plus Flog1p 64 f80 eq_refl w80) E1).
  - exact (Wk _ _ _ (core_dir lm C n_lb Flog2 64 f80 eq_refl w80) E1).
  - exact (core_lb1p lm C 64).
  - exact (Wk _ _ _ (core_dir lm C n_lg Flog10 64 f80 eq_refl w80) E1).
  - exact (core_lg1p lm C 64).
  - exact (Wk _ _ _ (core_tdir n_sin Fsin 64 f80 eq_refl w80) E1).
  - exact (core_sinpi 64).
  - exact (Wk _ _ _ (core_tdir n_cos Fcos 64 f80 eq_refl w80) E1).
  - exact (core_cospi 64).
  - exact (Wk _ _ _ (core_tdir n_tan Ftan 64 f80 eq_refl w80) E1).
  - exact (core_tanpi 64).
  - exact (core_cot 64).
  - exact (core_cotpi 64).
  - exact (core_sec 64).
  - exact (core_secpi 64).
  - exact (core_csc 64).
  - exact (core_cscpi 64).
  - exact (Wk _ _ _ (core_dir lm C n_arcsin Fasin 64 f80 eq_refl w80) E1).
  - exact (core_asinpi lm C 64).
  - exact (Wk _ _ _ (core_dir lm C n_arccos Facos 64 f80 eq_refl w80) E1).
  - exact (core_acospi lm C 64).
  - exact (Wk _ _ _ (core_dir lm C n_arctan Fatan 64 f80 eq_refl w80) E1).
  - exact (core_atanpi lm C 64).
  - exact (core_acot lm C 64).
  - exact (core_acotpi lm C 64).
  - exact (core_asec lm C 64).
  - exact (core_asecpi lm C 64).
  - exact (core_acsc lm C 64).
  - exact (core_acscpi lm C 64).
  - exact (Wk _ _ _ (core_dir lm C n_sinh Fsinh 64 f80 eq_refl w80) E1).
  - exact (Wk _ _ _ (core_dir lm C n_cosh Fcosh 64 f80 eq_refl w80) E1).
  - exact (Wk _ _ _ (core_dir lm C n_tanh Ftanh 64 f80 eq_refl w80) E1).
  - exact (Wk _ _ _ (core_coth lm C 64) E2).
  - exact (Wk _ _ _ (core_sech lm C 64 f80 w80) E2).
  - exact (Wk _ _ _ (core_csch lm C 64) E2).
  - exact (Wk _ _ _ (core_dir lm C n_arsinh Fasinh 64 f80 eq_refl w80) E1).
  - exact (Wk _ _ _ (core_dir lm C n_arcosh Facosh 64 f80 eq_refl w80) E1).
  - exact (Wk _ _ _ (core_dir lm C n_artanh Fatanh 64 f80 eq_refl w80) E1).
  - exact (core_arcoth lm C).
  - exact (core_arsech lm C 64).
  - exact (core_arcsch lm C 64).
Qed.
Lemma core_via : forall u, core u 64 (bpow radix2 (-48)) f64 (via_ld x86_64 (unary_ld x86_64 lm u)).
Proof.
  intros u r x a v Ix Z0 A Cl Rg. bp. assert (0 < eu u <= bpow radix2 (-49)) as Eu by (destruct u; unfold eu, e8, e9; lra).
  assert (isf (fcast f80 x) a) as Ix' by (apply isf_fcast_up; [split; vm_compute; discriminate|assumption]).
  destruct (core_ld u r (fcast f80 x) a v Ix') as (x' & K1 & K2 & K3 & K4); [intros E; rewrite (Z0 E); reflexivity|assumption|assumption|assumption|].
  exists x'. split; [assumption|]. split; [assumption|]. split; [|assumption].
  unfold via_ld. eapply near_cast; [apply w80|apply w64|exact K3| |lia|].
  - lra.
  - change (- fprec f64)%Z with (-53)%Z. lra.
Qed.
Lemma core_double : forall u, core u 64 (bpow radix2 (-48)) f64 (unary_double x86_64 lm u).
Proof.
  intros u. bp. assert (forall u e fl, core u 64 e f64 fl -> e <= bpow radix2 (-48) -> core u 64 (bpow radix2 (-48)) f64 fl) as Wk.
  { intros u' e fl H He r x a v H1 H2 H3 H4 H5. destruct (H r x a v H1 H2 H3 H4 H5) as (x' & K1 & K2 & K3 & K4). exists x'. repeat (split; [assumption|]). split; [|assumption]. eapply near_weaken; [exact K3|assumption|lia]. }
  assert (e1 f64 <= bpow radix2 (-48)) as E1 by (change (e1 f64) with (bpow radix2 (-50)); lra).
  assert (e2 f64 <= bpow radix2 (-48)) as E2 by (unfold e2; change (e1 f64) with (bpow radix2 (-50)); change (- fprec f64)%Z with (-53)%Z; lra).
  destruct u; unfold unary_double.
  - exact (Wk _ _ _ (core_dir lm C n_exp Fexp 64 f64 eq_refl w64) E1).
  - exact (Wk _ _ _ (core_dir lm C n_exp_minus_1 Fexpm1 64 f64 eq_refl w64) E1).
  - exact (Wk _ _ _ (core_dir lm C n_2_raised Fexp2 64 f64 eq_refl w64) E1).
  - exact (core_via n_2_raised_minus_1).
  - exact (core_via n_10_raised).
  - exact (core_via n_10_raised_minus_1).
  - exact (Wk _ _ _ (core_dir lm C n_ln Flog 64 f64 eq_refl w64) E1).
  - exact (Wk _ _ _ (core_dir lm C n_ln_1_plus Flog1p 64 f64 eq_refl w64) E1).
  - exact (Wk _ _ _ (core_dir lm C n_lb Flog2 64 f64 eq_refl w64) E1).
  - exact (core_via n_lb_1_plus).
  - exact (Wk _ _ _ (core_dir lm C n_lg Flog10 64 f64 eq_refl w64) E1).
  - exact (core_via n_lg_1_plus).
  - exact (Wk _ _ _ (core_tdir n_sin Fsin 64 f64 eq_refl w64) E1).
  - exact (core_via n_sin_pi_times).
  - exact (Wk _ _ _ (core_tdir n_cos Fcos 64 f64 eq_refl w64) E1).
  - exact (core_via n_cos_pi_times).
  - exact (Wk _ _ _ (core_tdir n_tan Ftan 64 f64 eq_refl w64) E1).
  - exact (core_via n_tan_pi_times).
  - exact (core_via n_cot).
  - exact (core_via n_cot_pi_times).
  - exact (core_via n_sec).
  - exact (core_via n_sec_pi_times).
  - exact (core_via n_csc).
  - exact (core_via n_csc_pi_times).
  - exact (Wk _ _ _ (core_dir lm C n_arcsin Fasin 64 f64 eq_refl w64) E1).
  - exact (core_via n_arcsin_over_pi).
  - exact (Wk _ _ _ (core_dir lm C n_arccos Facos 64 f64 eq_refl w64) E1).
  - exact (core_via n_arccos_over_pi).
  - exact (Wk _ _ _ (core_dir lm C n_arctan Fatan 64 f64 eq_refl w64) E1).
  - exact (core_via n_arctan_over_pi).
  - exact (core_via n_arccot).
  - exact (core_via n_arccot_over_pi).
  - exact (core_via n_arcsec).
  - exact (core_via n_arcsec_over_pi).
  - exact (core_via n_arccsc).
  - exact (core_via n_arccsc_over_pi).
  - exact (Wk _ _ _ (core_dir lm C n_sinh Fsinh 64 f64 eq_refl w64) E1).
  - exact (Wk _ _ _ (core_dir lm C n_cosh Fcosh 64 f64 eq_refl w64) E1).
  - exact (Wk _ _ _ (core_dir lm C n_tanh Ftanh 64 f64 eq_refl w64) E1).
  - exact (core_via n_coth).
  - exact (Wk _ _ _ (core_sech lm C 64 f64 w64) E2).
  - exact (core_via n_csch).
  - exact (Wk _ _ _ (core_dir lm C n_arsinh Fasinh 64 f64 eq_refl w64) E1).
  - exact (Wk _ _ _ (core_dir lm C n_arcosh Facosh 64 f64 eq_refl w64) E1).
  - exact (Wk _ _ _ (core_dir lm C n_artanh Fatanh 64 f64 eq_refl w64) E1).
  - exact (core_via n_arcoth).
  - exact (core_via n_arsech).
  - exact (core_via n_arcsch).
Qed.
End Core3.
