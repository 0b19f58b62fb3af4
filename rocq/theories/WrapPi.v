(** The trigonometric functions of pi times x at the multiples of 1/2. *)
From Coq Require Import ZArith Reals Bool Lia Lra Psatz.
From Flocq Require Import Core.Core IEEE754.BinarySingleNaN.
From Verif Require Import CModel FloatModel Libm LibmSpec Spec CodeFacts SpecFacts ValueFacts WidthFacts WidthApi Conversion Wrappers LinApi WrapApi WrapSpec FloatFacts RoundFacts Machine LogFacts LinDec LinOps LinArith LinAlgebra LinProps RealBounds LogProps MiscProps LogConv WrapTotal WrapNar FloatAcc RealFacts FixFacts WrapAcc WrapAcc2 WrapAcc3 WrapMain WrapDom.
Local Open Scope R_scope.

(** the residue *)
Lemma res_cases : forall m a j, (m = 1 \/ m = 2)%Z -> 2 * a = IZR j -> 0 <= a \/ (exists k, a = IZR m * IZR k) ->
  let r := a - IZR m * IZR (Ztrunc (a / IZR m)) in r = 0 \/ r = / 2 \/ (m = 2%Z /\ (r = 1 \/ r = 3 / 2)).
Proof.
  intros m a j Hm E [P|(k & ->)]; cbv zeta.
  - assert (0 < IZR m) as Pm by (apply IZR_lt; lia). set (q := Ztrunc (a / IZR m)).
    assert (0 <= a / IZR m) as Pq by (apply Rmult_le_pos; [assumption|left; apply Rinv_0_lt_compat; assumption]).
    assert (IZR q <= a / IZR m < IZR q + 1) as B by (unfold q; rewrite Ztrunc_floor by assumption; split; [apply Zfloor_lb|apply Zfloor_ub]).
    assert (a = a / IZR m * IZR m) as Ea by (field; lra). assert (0 <= a - IZR m * IZR q < IZR m) as Br by nra.
    assert (2 * (a - IZR m * IZR q) = IZR (j - 2 * m * q)) as Ej by (rewrite minus_IZR, !mult_IZR, <- E; ring).
    set (i := (j - 2 * m * q)%Z) in *. assert (0 <= i < 2 * m)%Z as Bi by (split; [apply le_IZR|apply lt_IZR; rewrite mult_IZR]; lra).
    assert (i = 0 \/ i = 1 \/ i = 2 \/ i = 3)%Z as K by lia. destruct K as [K|[K|[K|K]]]; rewrite K in Ej; [left|right; left|right; right|right; right]; try lra; (split; [lia|]); [left|right]; lra.
  - left. replace (IZR m * IZR k / IZR m) with (IZR k) by (field; apply Rgt_not_eq; apply IZR_lt; lia). rewrite Ztrunc_IZR. ring.
Qed.

Section Pi.
Variable lm : libm.
Ltac cmp I J := rewrite (feq_isf _ _ _ _ I J).
Ltac rb := repeat first [rewrite Req_bool_true by lra|rewrite Req_bool_false by lra].

Lemma pi_at : forall u (x : flt f80) a j, pi_fun u = true -> isf x a -> 2 * a = IZR j -> 0 <= a \/ (exists k, a = IZR (pi_period_of u) * IZR k) ->
  (defined u a /\ isf (unary_ld x86_64 lm u x) (real_fun u a) /\ (real_fun u a = 0 \/ real_fun u a = 1 \/ real_fun u a = -1)) \/ (~ defined u a /\ unary_ld x86_64 lm u x = B754_nan).
Proof.
  intros u x a j Hu Ix E H. destruct sincos_quarter as (S0 & C0 & S1 & C1 & S2 & C2 & S3 & C3).
  assert (pi_period_of u = 1 \/ pi_period_of u = 2)%Z as Hm by (destruct u; simpl; lia).
  pose proof (res_cases _ a j Hm E H) as K. cbv zeta in K.
  assert (isf (ffmod x (fint f80 (pi_period_of u))) (a - IZR (pi_period_of u) * IZR (Ztrunc (a / IZR (pi_period_of u))))) as Ir.
  { apply isf_ffmod; [assumption|apply isf_fint; destruct Hm as [-> | ->]; vm_compute; discriminate|apply IZR_lt; lia]. }
  set (k := Ztrunc (a / IZR (pi_period_of u))) in *. set (r := a - IZR (pi_period_of u) * IZR k) in *.
  assert (a = r + IZR (pi_period_of u) * IZR k) as Ea by (unfold r; ring). clearbody r k.
  pose proof (FloatFacts.isf_zero f80) as I0. pose proof isf_1 as I1. pose proof isf_m1 as Im.
  destruct u; try discriminate Hu; cbn [pi_period_of] in *; cbn [unary_ld defined real_fun]; rewrite Ea;
    destruct (pi_period r k) as [Ps Pc];
    try (rewrite Ps); try (rewrite Pc);
    unfold sinpil, cospil, tanpil, cot_pi_timesl, sec_pi_timesl, csc_pi_timesl; change (ld x86_64) with f80; cbv zeta; change (two f80) with (fint f80 2); change (ffmod x (one f80)) with (ffmod x (fint f80 1)); cmp Ir I0; cmp Ir isf_half; try (cmp Ir I1; cmp Ir isf_3half).
  - destruct K as [-> | [-> | (_ & [-> | ->])]]; rb; left; (split; [exact I|]); rewrite ?S0, ?S1, ?S2, ?S3; (split; [assumption|lra]).
  - destruct K as [-> | [-> | (_ & [-> | ->])]]; rb; left; (split; [exact I|]); rewrite ?C0, ?C1, ?C2, ?C3; (split; [assumption|lra]).
  - destruct K as [-> | [-> | (X & _)]]; try discriminate X; rb.
    + left. rewrite Rplus_0_l, Rmult_1_l. rewrite sin_pi_int. assert (cos (PI * IZR k) <> 0) as N by (pose proof (sin2_cos2 (PI * IZR k)) as Q; rewrite sin_pi_int in Q; unfold Rsqr in Q; intros Z; rewrite Z in Q; lra). split; [assumption|]. unfold Rdiv. rewrite Rmult_0_l. split; [assumption|lra].
    + right. split; [|reflexivity]. rewrite Rmult_1_l, cos_pi_half. tauto.
  - destruct K as [-> | [-> | (X & _)]]; try discriminate X; rb.
    + right. split; [|reflexivity]. rewrite Rplus_0_l, Rmult_1_l, sin_pi_int. tauto.
    + left. rewrite Rmult_1_l, cos_pi_half. assert (sin (PI * (/ 2 + IZR k)) <> 0) as N by (pose proof (sin2_cos2 (PI * (/ 2 + IZR k))) as Q; rewrite cos_pi_half in Q; unfold Rsqr in Q; intros Z; rewrite Z in Q; lra). split; [assumption|]. unfold Rdiv. rewrite Rmult_0_l. split; [assumption|lra].
  - destruct K as [-> | [-> | (_ & [-> | ->])]]; rb; rewrite ?C0, ?C1, ?C2, ?C3; rewrite ?Rinv_1; try replace (/ -1) with (-1) by field.
    + left. split; [lra|split; [assumption|lra]].
    + right. split; [lra|reflexivity].
    + left. split; [lra|split; [assumption|lra]].
    + right. split; [lra|reflexivity].
  - destruct K as [-> | [-> | (_ & [-> | ->])]]; rb; rewrite ?S0, ?S1, ?S2, ?S3; rewrite ?Rinv_1; try replace (/ -1) with (-1) by field.
    + right. split; [lra|reflexivity].
    + left. split; [lra|split; [assumption|lra]].
    + right. split; [lra|reflexivity].
    + left. split; [lra|split; [assumption|lra]].
Qed.
End Pi.

(** ** Exact conversion back *)
Lemma exact_k : forall k n x t t', std_width n -> is_intn n t' -> rounds_faithfully k n x t -> value k n t' = Some x -> t = t'.
Proof.
  intros k n x t t' Hw It' H V. destruct k; [|eapply faithful_exact; eassumption]. assert (8 <= n <= 64)%Z as Hr by (destruct Hw as [-> | [-> | [-> | ->]]]; lia). destruct (takum_cases n t' It') as [-> | [-> | R']].
  - rewrite value_0 in V. injection V as <-. destruct H as [[_ H]|[H _]]; [assumption|lra].
  - rewrite value_nar in V by lia. discriminate.
  - rewrite value_log_real in V by (assumption || lia). injection V as <-. pose proof (exp_pos (l_ n t' / 2)) as LP.
    destruct H as [[H _]|[_ H]]; [exfalso; revert H; unfold sg; destruct (t' <? 0)%Z; lra|].
    cbn [coord] in H.
    assert (log_coord (sg (t' <? 0)%Z * exp (l_ n t' / 2)) = l_ n t') as EL.
    { unfold log_coord. rewrite Rabs_mult, sg_abs, Rmult_1_l, Rabs_pos_eq, ln_exp by lra. field. }
    assert (Rlt_bool (sg (t' <? 0)%Z * exp (l_ n t' / 2)) 0 = (t' <? 0)%Z) as ES.
    { unfold sg. destruct (t' <? 0)%Z; [apply Rlt_bool_true|apply Rlt_bool_false]; lra. }
    rewrite EL, ES in H. destruct H as (R & S & H).
    specialize (H t' R'). destruct H as [H1 H2]; [unfold has_sign; destruct (Z.ltb_spec t' 0); [assumption|destruct R' as (_ & ? & _); lia]|].
    assert (l_ n t = l_ n t') as El by (destruct (Rtotal_order (l_ n t) (l_ n t')) as [K|[K|K]]; [exfalso; apply H1; lra|assumption|exfalso; apply H2; lra]).
    assert ((t <? 0)%Z = (t' <? 0)%Z) as Es.
    { revert S. unfold has_sign. destruct (Z.ltb_spec t' 0); intros; destruct (Z.ltb_spec t 0); auto; lia. }
    assert (value Logarithmic n t = value Logarithmic n t') as EV by (rewrite !value_log_real, El, Es by (assumption || lia); reflexivity).
    assert (value Logarithmic n t' = Some (sg (t' <? 0)%Z * exp (l_ n t' / 2))) as Vt by (apply value_log_real; [lia|assumption]). assert (value Logarithmic n t = Some (sg (t' <? 0)%Z * exp (l_ n t' / 2))) as Vt' by (rewrite EV; exact Vt).
    destruct (Z.lt_total t t') as [K|[K|K]]; [exfalso|assumption|exfalso].
    + eapply (value_lt n ltac:(lia) Logarithmic t t') in K; [|apply R|apply R'|exact Vt'|exact Vt]. lra.
    + eapply (value_lt n ltac:(lia) Logarithmic t' t) in K; [|apply R'|apply R|exact Vt|exact Vt']. lra.
Qed.
Lemma three_values : forall k n c, std_width n -> c = 0 \/ c = 1 \/ c = -1 -> exists t, is_intn n t /\ value k n t = Some c.
Proof.
  intros k n c Hw H. assert (8 <= n <= 64)%Z as Hr by (destruct Hw as [-> | [-> | [-> | ->]]]; lia). destruct (value_one_k k n Hw) as [V1 I1]. destruct H as [-> | [-> | ->]].
  - exists 0%Z. split; [|apply value_0]. unfold is_intn. pose proof (Z.pow_pos_nonneg 2 (n - 1)). lia.
  - eexists. split; eassumption.
  - exists (- 2 ^ (n - 2))%Z. split; [|apply value_neg; [lia|assumption|assumption]]. unfold is_intn in *. replace (n - 1)%Z with (Z.succ (n - 2)) in * by lia. rewrite Z.pow_succ_r in * by lia. pose proof (Z.pow_pos_nonneg 2 (n - 2)). lia.
Qed.
Lemma exact_back : forall k n F (y : flt F) c f, std_width n -> (forall z : flt F, is_finite z = true -> exists t, f z = Val t /\ rounds_faithfully k n (B2R z) t) ->
  isf y c -> c = 0 \/ c = 1 \/ c = -1 -> exists t, f y = Val t /\ value k n t = Some c.
Proof.
  intros k n F y c f Hw Hf [Fy Vy] Hc. destruct (Hf y Fy) as (t & E & Rt). destruct (three_values k n c Hw Hc) as (t' & It' & Vt'). rewrite Vy in Rt. rewrite (exact_k k n c t t' Hw It' Rt Vt') in E. exists t'. split; assumption.
Qed.
Lemma std_bits : forall w, std_width (bits w).
Proof. intros []; unfold std_width; simpl; tauto. Qed.

Theorem pi_exact_linear : forall lm u w t x j, pi_fun u = true -> is_intn (bits w) t -> value Linear (bits w) t = Some x -> 2 * x = IZR j -> 0 <= x \/ (exists k, x = IZR (pi_period_of u) * IZR k) ->
  (defined u x -> exists t', api_unary Linear lm u w t = Val t' /\ value Linear (bits w) t' = Some (real_fun u x)) /\ (~ defined u x -> api_unary Linear lm u w t = Val (nar (bits w))).
Proof.
  intros lm u w t x j Hu It Hx Ej Hp. cbn [api_unary]. unfold takum_linear_unary, unary_lin. 
  assert (forall F (f : flt F -> outcome Z), linear_from_float (bits w) F f -> forall z : flt F, is_finite z = true -> exists t, f z = Val t /\ rounds_faithfully Linear (bits w) (B2R z) t) as Fr.
  { intros F f H z Fz. destruct (lin_from_faithful _ _ _ z H Fz) as (t' & E & _ & Rt). exists t'. split; assumption. }
  assert (forall F (x y : flt F), unary_fixer u F x y = y) as Fx by (intros; destruct u; try discriminate Hu; reflexivity).
  assert (w <> W64 -> (defined u x -> exists t', (let! arg := lin_to_double x86_64 w t in lin_from_double x86_64 w (unary_fixer u f64 arg (unary_double x86_64 lm u arg))) = Val t' /\ value Linear (bits w) t' = Some (real_fun u x)) /\
    (~ defined u x -> (let! arg := lin_to_double x86_64 w t in lin_from_double x86_64 w (unary_fixer u f64 arg (unary_double x86_64 lm u arg))) = Val (nar (bits w)))) as Dbl.
  { intros Nw. destruct (dbl_arg w t x Nw It Hx) as (y & Ey & Iy & A & Z0). rewrite Ey. cbn [bind]. rewrite Fx.
    assert (isf (fcast f80 y) x) as Iy' by (apply isf_fcast_up; [split; vm_compute; discriminate|assumption]).
    assert (unary_double x86_64 lm u y = fcast f64 (unary_ld x86_64 lm u (fcast f80 y))) as -> by (destruct u; try discriminate Hu; reflexivity).
    destruct (pi_at lm u _ x j Hu Iy' Ej Hp) as [(D & Ir & Hr)|(D & Er)]; (split; [intros D'|intros D']); try contradiction.
    - apply (exact_back Linear (bits w) f64 _ _ _ (std_bits w)); [apply Fr, lin_d_from| |exact Hr]. apply isf_fcast_exact; [exact Ir| |].
      + destruct Hr as [-> | [-> | ->]]; [apply generic_format_0|apply FF1|apply (FF_opp f64 1), FF1].
      + apply Rle_lt_trans with (bpow radix2 0); [|apply bpow_lt; reflexivity]. change (bpow radix2 0) with 1. apply Rabs_le. destruct Hr as [-> | [-> | ->]]; lra.
    - rewrite Er. eapply (from_float_nar lm Linear); [apply from_float_lin; apply lin_d_from|reflexivity]. }
  destruct w; try (apply Dbl; discriminate).
  destruct (ld_arg t x It Hx) as (y & Ey & Iy & A & Z0). rewrite Ey. cbn [bind]. change (ld x86_64) with f80. rewrite Fx.
  destruct (pi_at lm u _ x j Hu Iy Ej Hp) as [(D & Ir & Hr)|(D & Er)]; (split; [intros D'|intros D']); try contradiction.
  - apply (exact_back Linear 64 f80 _ _ _ (std_bits W64)); [apply Fr, (lin_ld_from W64)|exact Ir|exact Hr].
  - rewrite Er. eapply (from_float_nar lm Linear); [apply from_float_lin; apply (lin_ld_from W64)|reflexivity].
Qed.

Theorem pi_exact_log : forall lm u w t x, c99 lm -> pi_fun u = true -> is_intn (bits w) t -> value Logarithmic (bits w) t = Some x -> x = 0 \/ x = 1 ->
  (defined u x -> exists t', api_unary Logarithmic lm u w t = Val t' /\ value Logarithmic (bits w) t' = Some (real_fun u x)) /\ (~ defined u x -> api_unary Logarithmic lm u w t = Val (nar (bits w))).
Proof.
  intros lm u w t x C Hu It Hx H01. cbn [api_unary]. destruct (log_arg lm (bits w) _ t x C (log_ld_to lm w) It Hx) as (y & a & Ey & Iy & A & Z0).
  assert (a = x) as ->.
  { destruct H01 as [-> | ->].
    - pose proof (arg_rel 0 a A) as K. rewrite Rabs_R0, Rmult_0_r, Rminus_0_r in K. pose proof (Rabs_pos a). destruct (Req_EM_T a 0) as [E'|E']; [assumption|]. apply Rabs_no_R0 in E'. lra.
    - pose proof (arg_1 1 a A) as K. rewrite (Rcompare_Eq 1 1) in K by reflexivity. apply Rcompare_Eq_inv in K. assumption. }
  unfold takum_unary, unary_log. rewrite Ey. cbn [bind]. change (ld x86_64) with f80.
  assert (forall F (x y : flt F), unary_fixer u F x y = y) as Fx by (intros; destruct u; try discriminate Hu; reflexivity). rewrite Fx.
  assert (exists j, 2 * x = IZR j) as (j & Ej) by (destruct H01 as [-> | ->]; [exists 0%Z|exists 2%Z]; lra).
  destruct (pi_at lm u _ x j Hu Iy Ej ltac:(lra)) as [(D & Ir & Hr)|(D & Er)]; (split; [intros D'|intros D']); try contradiction.
  - apply (exact_back Logarithmic (bits w) f80 _ _ _ (std_bits w)); [|exact Ir|exact Hr]. intros z Fz. eapply log_from_faithful; [exact C|apply log_ld_from|exact Fz].
  - rewrite Er. eapply log_from_nan; [apply log_ld_from|reflexivity].
Qed.
