(** Floats that the conversions to and from linear takums do not round correctly, and bounds for their error. *)
From Coq Require Import ZArith Reals Bool Lia Lra List.
From Flocq Require Import Core.Core IEEE754.BinarySingleNaN.
From Verif Require Import CModel FloatModel WidthConv Codec Spec FloatSpec CodeFacts SpecFacts ValueFacts RoundFacts
  WidthFacts WidthProps FloatFacts DecodeFacts EncodeFacts PhiFacts Codec8Facts Machine Libm Conversion LinApi LinFacts
  LinDec LogProps MiscProps LogFacts PowFacts LinProps.
Local Open Scope R_scope.


Lemma lin_coord_dy : forall m d e, (0 <= d)%Z -> (2 ^ d <= m < 2 ^ (d + 1))%Z ->
  lin_coord (IZR m * bpow radix2 e) = IZR ((e + d) * 2 ^ d + m - 2 ^ d) * bpow radix2 (- d).
Proof.
  intros m d e Hd Hm. set (k := ((e + d) * 2 ^ d + m - 2 ^ d)%Z).
  rewrite <- (lin_coord_Lin (IZR k * bpow radix2 (- d))). f_equal.
  assert (k = (m - 2 ^ d) + (e + d) * 2 ^ d)%Z as Ek by (unfold k; ring).
  assert (0 < 2 ^ d)%Z as P by (apply Z.pow_pos_nonneg; lia).
  rewrite Z.pow_add_r in Hm by lia.
  unfold Lin. rewrite Zfloor_div by lia.
  assert (k / 2 ^ d = e + d)%Z as ->.
  { rewrite Ek, Z.div_add, Z.div_small by lia. lia. }
  assert (IZR k * bpow radix2 (- d) - IZR (e + d) = IZR (m - 2 ^ d) * bpow radix2 (- d)) as ->.
  { rewrite Ek, plus_IZR, mult_IZR, IZR_pow2 by lia. 
    assert (bpow radix2 d * bpow radix2 (- d) = 1) as E1 by (rewrite <- bpow_plus, Z.add_opp_diag_r; reflexivity).
    rewrite Rmult_plus_distr_r, Rmult_assoc, E1. ring. }
  rewrite minus_IZR, IZR_pow2 by lia.
  assert (bpow radix2 d * bpow radix2 (- d) = 1) as E1 by (rewrite <- bpow_plus, Z.add_opp_diag_r; reflexivity).
  rewrite (bpow_plus radix2 e d).
  replace ((1 + (IZR m - bpow radix2 d) * bpow radix2 (- d)) * (bpow radix2 e * bpow radix2 d))
    with (bpow radix2 d * bpow radix2 e + (IZR m - bpow radix2 d) * bpow radix2 e * (bpow radix2 d * bpow radix2 (- d))) by ring.
  rewrite E1. ring.
Qed.

(** a takum t is not the correct rounding of m 2^e if t' is nearer *)
Lemma not_rounds_dy : forall n t t' m d e, (6 <= n <= 64)%Z -> (0 < t < 2 ^ (n - 1))%Z -> (0 < t' < 2 ^ (n - 1))%Z ->
  (0 <= d)%Z -> (2 ^ d <= m < 2 ^ (d + 1))%Z ->
  (Z.abs (Xn n t' * 2 ^ d - ((e + d) * 2 ^ d + m - 2 ^ d) * 2 ^ 59)
   < Z.abs (Xn n t * 2 ^ d - ((e + d) * 2 ^ d + m - 2 ^ d) * 2 ^ 59))%Z ->
  ~ rounds Linear n (IZR m * bpow radix2 e) t.
Proof.
  intros n t t' m d e Hn Ht Ht' Hd Hm Hlt H.
  assert (0 < 2 ^ d)%Z as P by (apply Z.pow_pos_nonneg; lia).
  assert (0 < IZR m * bpow radix2 e) as Hpos.
  { apply Rmult_lt_0_compat; [apply IZR_lt; lia|apply bpow_gt_0]. }
  destruct H as [[H _]|[_ H]]; [lra|]. rewrite Rlt_bool_false in H by lra.
  destruct H as (_ & _ & H). cbn [coord] in H. rewrite (lin_coord_dy m d e Hd Hm) in H.
  assert (is_real_takum n t') as R' by (apply (asm_real n false t'); lia).
  assert (is_real_takum n t) as R by (apply (asm_real n false t); lia).
  destruct (H t' R' ltac:(unfold has_sign; lia)) as [K _]. clear H.
  assert (forall z, is_real_takum n z -> (0 < z < 2 ^ (n - 1))%Z -> l_ n z = IZR (Xn n z) / IZR (2 ^ 59)) as El.
  { intros z Rz Hz. rewrite l_sg_cpm by assumption. destruct (Z.ltb_spec z 0); [lia|]. unfold sg, cpm.
    rewrite Rmult_1_l. f_equal. f_equal. f_equal. unfold low. apply Z.mod_small. lia. }
  rewrite !El in K by assumption. set (Y := ((e + d) * 2 ^ d + m - 2 ^ d)%Z) in *.
  assert (forall z, Rabs (IZR z / IZR (2 ^ 59) - IZR Y * bpow radix2 (- d)) =
            IZR (Z.abs (z * 2 ^ d - Y * 2 ^ 59)) * (/ IZR (2 ^ 59) * bpow radix2 (- d))) as EA.
  { intros z. rewrite abs_IZR.
    assert (0 < / IZR (2 ^ 59) * bpow radix2 (- d)) as Hp.
    { apply Rmult_lt_0_compat; [apply Rinv_0_lt_compat, IZR_lt; lia|apply bpow_gt_0]. }
    rewrite <- (Rabs_pos_eq (/ IZR (2 ^ 59) * bpow radix2 (- d))) at 1 by lra. rewrite <- Rabs_mult. f_equal.
    rewrite minus_IZR, !mult_IZR, (IZR_pow2 d) by lia. rewrite bpow_opp. field.
    split; [apply Rgt_not_eq, bpow_gt_0|apply not_0_IZR; lia]. }
  rewrite !EA in K. apply Rmult_le_reg_r in K.
  - apply le_IZR in K. lia.
  - apply Rmult_lt_0_compat; [apply Rinv_0_lt_compat, IZR_lt; lia|apply bpow_gt_0].
Qed.

Lemma fconst_refuted : forall n F (g : flt F -> outcome Z) t t' m d e, (6 <= n <= 64)%Z ->
  (0 < t < 2 ^ (n - 1))%Z -> (0 < t' < 2 ^ (n - 1))%Z -> (0 <= d)%Z -> (2 ^ d <= m < 2 ^ (d + 1))%Z ->
  (d < fprec F)%Z -> (femin F <= e)%Z -> (d + 1 + e <= femax F)%Z ->
  (Z.abs (Xn n t' * 2 ^ d - ((e + d) * 2 ^ d + m - 2 ^ d) * 2 ^ 59)
   < Z.abs (Xn n t * 2 ^ d - ((e + d) * 2 ^ d + m - 2 ^ d) * 2 ^ 59))%Z ->
  g (fconst F m e) = Val t ->
  exists f u, is_finite f = true /\ g f = Val u /\ ~ rounds Linear n (B2R f) u.
Proof.
  intros n F g t t' m d e Hn Ht Ht' Hd Hm H1 H2 H3 Hlt E. exists (fconst F m e), t.
  assert (0 < 2 ^ d)%Z as P by (apply Z.pow_pos_nonneg; lia).
  assert (isf (fconst F m e) (IZR m * bpow radix2 e)) as [I1 I2].
  { apply isf_fconst.
    - apply FF_dyadic; [|assumption]. assert (2 ^ (d + 1) <= 2 ^ fprec F)%Z by (apply Z.pow_le_mono_r; lia). lia.
    - rewrite Rabs_pos_eq by (apply Rmult_le_pos; [apply IZR_le; lia|apply bpow_ge_0]).
      apply Rlt_le_trans with (bpow radix2 (d + 1) * bpow radix2 e).
      + apply Rmult_lt_compat_r; [apply bpow_gt_0|]. rewrite <- IZR_pow2 by lia. apply IZR_lt. lia.
      + rewrite <- bpow_plus. apply bpow_le. assumption. }
  split; [assumption|]. split; [assumption|]. rewrite I2. apply (not_rounds_dy n t t' m d e); assumption.
Qed.

(** the conversions outside lin_from_correct are not correctly rounded *)
Lemma lin_from_refuted : forall n F g, linear_from_float n F g -> (n <= 16)%Z \/ F = f80 ->
  exists f t, is_finite f = true /\ g f = Val t /\ ~ rounds Linear n (B2R f) t.
Proof.
  Local Ltac side := lazymatch goal with |- (Z.abs _ < _)%Z => vm_compute; reflexivity | |- _ = Val _ => vm_compute; reflexivity | _ => first [lia | unfold femin; simpl; lia] end.
  intros n F g H Hc. destruct H.
  - apply (fconst_refuted 8 f32 _ 118 119 (2 ^ 23 + 1) 23 (115 - 23)); side.
  - apply (fconst_refuted 16 f32 _ 29856 29857 (2 ^ 23 + 2 ^ 17 + 1) 23 (100 - 23)); side.
  - destruct Hc; [lia|discriminate].
  - destruct Hc; [lia|discriminate].
  - apply (fconst_refuted 8 f64 _ 118 119 (2 ^ 52 + 1) 52 (115 - 52)); side.
  - apply (fconst_refuted 16 f64 _ 29856 29857 (2 ^ 52 + 2 ^ 46 + 1) 52 (100 - 52)); side.
  - destruct Hc; [lia|discriminate].
  - destruct Hc; [lia|discriminate].
  - apply (fconst_refuted 8 f80 _ 118 119 (2 ^ 63 + 1) 63 (115 - 63)); side.
  - apply (fconst_refuted 16 f80 _ 29856 29857 (2 ^ 63 + 2 ^ 57 + 1) 63 (100 - 63)); side.
  - apply (fconst_refuted 32 f80 _ 1956642816 1956642817 (2 ^ 63 + 2 ^ 41 + 1) 63 (100 - 63)); side.
  - apply (fconst_refuted 64 f80 _ 8403716904673345536 8403716904673345537 (2 ^ 63 + 2 ^ 9 + 1) 63 (100 - 63)); side.
Qed.

(** ... but they round a number whose l has a small relative error *)
Lemma lin_from_error : forall n F g (f : flt F), linear_from_float n F g -> is_finite f = true -> B2R f <> 0 ->
  (F <> f80 \/ (32 <= n)%Z) ->
  exists t L, g f = Val t /\ nearest n (Rlt_bool (B2R f) 0) L t /\
    Rabs (L - lin_coord (B2R f)) <= bpow radix2 (if (n <=? 16)%Z then -24 else -64) * Rabs (lin_coord (B2R f)).
Proof.
  intros n F g f H Hfin Hx HC. pose proof (std_range n (from_std _ _ _ H)) as Hn.
  rewrite (lin_from_nearest n F g f (B2R f) H) by (first [assumption | split; [assumption|reflexivity] | intros [-> ->]; destruct HC as [K|K]; [congruence|lia]]).
  exists (asm n (Rlt_bool (B2R f) 0) (enc n (sg (Rlt_bool (B2R f) 0) * from_rho n F (lin_coord (B2R f))))).
  exists (from_rho n F (lin_coord (B2R f))). split; [reflexivity|]. split; [apply enc_nearest_sg; lia|].
  destruct (lin_coord_dyadic F f _ (conj Hfin eq_refl) Hx) as [k Hk]. rewrite Hk.
  pose proof (fmt_pos F) as Hp.
  assert (F <> f128) as N128 by (destruct H; discriminate).
  assert (0 <= fprec F - 1 <= 100)%Z as Hd by (destruct F; simpl; try lia; congruence).
  set (y := IZR k * bpow radix2 (- (fprec F - 1))) in *.
  assert (forall A q, (q <= fprec A)%Z -> Rabs (RF A y - y) <= bpow radix2 (- q) * Rabs y) as R.
  { intros A q Hq. eapply Rle_trans; [apply (RF_rel A k _ Hd)|]. fold y.
    apply Rmult_le_compat_r; [apply Rabs_pos|]. apply bpow_le. lia. }
  assert (forall q, Rabs (y - y) <= bpow radix2 (- q) * Rabs y) as R0.
  { intros q. unfold Rminus. rewrite Rplus_opp_r, Rabs_R0. apply Rmult_le_pos; [apply bpow_ge_0|apply Rabs_pos]. }
  destruct H; cbn [Z.leb Z.compare Pos.compare Pos.compare_cont];
    first [exact (R0 64%Z) | exact (R f32 24%Z ltac:(simpl; lia)) | exact (R f64 24%Z ltac:(simpl; lia))
          |exact (R f80 64%Z ltac:(simpl; lia)) | destruct HC; [congruence|lia]].
Qed.

Lemma lin16_f80_odd_refuted : exists (f : flt f80) t, is_finite f = true /\
  takum_linear16_from_extended_float x86_64 f = Val t /\
  takum_linear16_from_extended_float x86_64 (fneg f) <> Val (- t)%Z.
Proof.
  exists (fconst f80 (2 ^ 63 + 2 ^ 51 + 2 ^ 3) (-63)), 16385%Z.
  split; [vm_compute; reflexivity|]. split; [vm_compute; reflexivity|].
  assert (takum_linear16_from_extended_float x86_64 (fneg (fconst f80 (2 ^ 63 + 2 ^ 51 + 2 ^ 3) (-63))) = Val (-16384)%Z) as ->
    by (vm_compute; reflexivity).
  discriminate.
Qed.

Lemma lin64_f32_refuted : exists t x y, is_real_takum 64 t /\ value Linear 64 t = Some x /\
  takum_linear64_to_float32 x86_64 t = Val y /\ ~ ieee_rounds x y.
Proof.
  set (t := (2 ^ 62 + 2 ^ 35 + 2 ^ 5)%Z).
  assert (is_real_takum 64 t) as Hr by (unfold t; real_const).
  set (x := IZR (2 ^ 54 + 2 ^ 30 + 1) * bpow radix2 (-54)).
  assert (exists y, takum_linear64_to_float32 x86_64 t = Val y /\ B2SF y = SpecFloat.S754_finite false 8388608 (-23)) as (y & Ev & Ey).
  { assert (match takum_linear64_to_float32 x86_64 t with Val y => B2SF y = SpecFloat.S754_finite false 8388608 (-23) | _ => False end) as K
      by (vm_compute; reflexivity).
    destruct (takum_linear64_to_float32 x86_64 t) as [y|]; [|contradiction]. exists y. split; [reflexivity|exact K]. }
  exists t, x, y. split; [assumption|].
  assert (value Linear 64 t = Some x) as V.
  { rewrite lin_value by (assumption || lia). f_equal. unfold lv.
    change (sg (t <? 0)%Z) with 1. rewrite Rmult_1_l, l64 by (assumption || reflexivity).
    assert (X t = 2 ^ 35 + 2 ^ 5)%Z as -> by (vm_compute; reflexivity).
    assert (0 <= IZR (2 ^ 35 + 2 ^ 5) / IZR (2 ^ 59) < 1) as B.
    { split; [apply Rmult_le_pos; [apply IZR_le; lia|left; apply Rinv_0_lt_compat, IZR_lt; lia]|].
      apply Rmult_lt_reg_r with (IZR (2 ^ 59)); [apply IZR_lt; lia|]. unfold Rdiv. rewrite Rmult_assoc, Rinv_l, Rmult_1_r, Rmult_1_l.
      - apply IZR_lt. lia.
      - apply not_0_IZR. lia. }
    unfold Lin, x. rewrite (Zfloor_imp 0) by (simpl; lra). rewrite Rminus_0_r.
    change (bpow radix2 0) with 1. rewrite Rmult_1_r.
    change (bpow radix2 (-54)) with (/ IZR (2 ^ 54)).
    change (2 ^ 54 + 2 ^ 30 + 1)%Z with 18014399583223809%Z. change (2 ^ 35 + 2 ^ 5)%Z with 34359738400%Z.
    change (2 ^ 59)%Z with 576460752303423488%Z. change (2 ^ 54)%Z with 18014398509481984%Z. field. }
  split; [exact V|].
  split; [exact Ev|].
  intros H. unfold ieee_rounds in H.
  assert (B2R y = 1) as I2.
  { rewrite <- SF2R_B2SF, Ey. unfold SF2R, F2R. cbn [Fnum Defs.Fexp cond_Zopp]. change (bpow radix2 (-23)) with (/ IZR (2 ^ 23)).
    change (2 ^ 23)%Z with 8388608%Z. field. }
  destruct (Rlt_bool _ _); [|rewrite H in Ey; discriminate]. destruct H as (_ & H & _).
  rewrite I2 in H.
  assert (FF f32 (IZR (2 ^ 23 + 1) * bpow radix2 (-23))) as HF by (apply FF_dyadic; unfold femin; simpl; lia).
  pose proof (round_N_pt radix2 (FLT_exp (3 - femax f32 - fprec f32) (fprec f32)) (fun z => negb (Z.even z)) x) as [_ N].
  specialize (N _ HF). fold (round_to f32 x) in N. rewrite <- H in N. clear -N. unfold x in N.
  change (bpow radix2 (-54)) with (/ IZR (2 ^ 54)) in N. change (bpow radix2 (-23)) with (/ IZR (2 ^ 23)) in N.
  change (2 ^ 54 + 2 ^ 30 + 1)%Z with 18014399583223809%Z in N. 
  change (2 ^ 54)%Z with 18014398509481984%Z in N. change (2 ^ 23 + 1)%Z with 8388609%Z in N. change (2 ^ 23)%Z with 8388608%Z in N.
  rewrite (Rabs_left1 (1 - _)), Rabs_pos_eq in N; lra.
Qed.

Lemma lin_from_error_8_16 : forall n F g (f : flt F), linear_from_float n F g -> (n <= 16)%Z -> (F = f32 \/ F = f64) ->
  is_finite f = true -> B2R f <> 0 ->
  exists t L, g f = Val t /\ nearest n (Rlt_bool (B2R f) 0) L t /\
    Rabs (L - lin_coord (B2R f)) <= bpow radix2 (-24) * Rabs (lin_coord (B2R f)).
Proof.
  intros n F g f H Hn HF Hfin Hx.
  destruct (lin_from_error n F g f H Hfin Hx) as (t & L & E & K1 & K2); [left; destruct HF; subst; discriminate|].
  exists t, L. destruct (Z.leb_spec n 16); [auto|lia].
Qed.

Lemma lin_from_error_f80 : forall n g (f : flt f80), linear_from_float n f80 g -> (32 <= n)%Z ->
  is_finite f = true -> B2R f <> 0 ->
  exists t L, g f = Val t /\ nearest n (Rlt_bool (B2R f) 0) L t /\
    Rabs (L - lin_coord (B2R f)) <= bpow radix2 (-64) * Rabs (lin_coord (B2R f)).
Proof.
  intros n g f H Hn Hfin Hx.
  destruct (lin_from_error n f80 g f H Hfin Hx) as (t & L & E & K1 & K2); [auto|].
  exists t, L. destruct (Z.leb_spec n 16); [lia|auto].
Qed.
