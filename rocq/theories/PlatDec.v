(** Conversions from linear takums to floats on every platform. *)
From Coq Require Import ZArith Reals Bool Lia Lra List.
From Flocq Require Import Core.Core IEEE754.BinarySingleNaN.
From Verif Require Import CModel FloatModel WidthConv Codec Spec FloatSpec CodeFacts SpecFacts ValueFacts RoundFacts
  WidthFacts WidthProps FloatFacts DecodeFacts EncodeFacts PhiFacts Codec8Facts Machine Libm Conversion LinApi LinFacts LinDec LinProps PlatSpec.
Local Open Scope R_scope.

Section fraction.
Variables (F : fmt) (d : Z).
Hypothesis F32 : F <> f32.
Hypothesis Hd : (0 <= d <= 59)%Z.
Hypothesis HF : (d + 1 <= fprec F)%Z.

Lemma femin_low : (femin F <= -1000)%Z.
Proof. unfold femin. destruct F; try contradiction; simpl; lia. Qed.
Lemma FFd : forall k, (0 <= k <= 2 ^ (d + 1))%Z -> FF F (IZR k * bpow radix2 (- d)).
Proof.
  intros k Hk. pose proof femin_low. assert (2 ^ (d + 1) <= 2 ^ fprec F)%Z by (apply Z.pow_le_mono_r; lia). apply FF_dyadic; lia.
Qed.
Lemma fintF : forall z, (Z.abs z <= 2 ^ 20)%Z -> isf (fint F z) (IZR z).
Proof. intros z Hz. apply isf_fint. assert (2 ^ 20 <= 2 ^ fprec F)%Z by (apply Z.pow_le_mono_r; destruct F; simpl; lia). lia. Qed.
Lemma pow_d1 : (2 ^ (d + 1) = 2 * 2 ^ d)%Z.
Proof. rewrite Z.pow_add_r by lia. lia. Qed.

(** (1 + g) 2^h for a fraction with d digits *)
Lemma ldexp_F : forall (g : flt F) k h, isf g (IZR k * bpow radix2 (- d)) -> (0 <= k <= 2 ^ d)%Z ->
  (-300 <= h <= 300)%Z ->
  isf (fldexp (fadd (fint F 1) g) h) ((1 + IZR k * bpow radix2 (- d)) * bpow radix2 h).
Proof.
  intros g k h Hg Hk Hh.
  assert (1 + IZR k * bpow radix2 (- d) = IZR (k + 2 ^ d) * bpow radix2 (- d)) as E1.
  { rewrite plus_IZR, IZR_pow2 by lia. rewrite Rmult_plus_distr_r, <- bpow_plus. replace (d + - d)%Z with 0%Z by lia; simpl (bpow radix2 0). ring. }
  assert (isf (fint F 1) 1) as I1 by (apply fintF; lia).
  assert (0 <= IZR k * bpow radix2 (- d) <= 1) as B.
  { split; [apply Rmult_le_pos; [apply IZR_le; lia|apply bpow_ge_0]|].
    apply Rmult_le_reg_r with (bpow radix2 d); [apply bpow_gt_0|]. rewrite Rmult_assoc, <- bpow_plus.
    replace (- d + d)%Z with 0%Z by lia; simpl (bpow radix2 0). rewrite Rmult_1_r, Rmult_1_l, <- IZR_pow2 by lia. apply IZR_le. lia. }
  assert (isf (fadd (fint F 1) g) (1 + IZR k * bpow radix2 (- d))) as Ha.
  { apply isf_fadd_exact; try assumption.
    - rewrite E1. apply FFd. rewrite pow_d1. lia.
    - apply lt_emax_512. rewrite Rabs_pos_eq; lra. }
  apply isf_fldexp_exact; [assumption| |].
  - rewrite E1, Rmult_assoc, <- bpow_plus. pose proof femin_low. assert (2 ^ (d + 1) <= 2 ^ fprec F)%Z by (apply Z.pow_le_mono_r; lia). rewrite pow_d1 in *. apply FF_dyadic; lia.
  - rewrite Rabs_mult, (Rabs_pos_eq (bpow radix2 h)) by apply bpow_ge_0. rewrite Rabs_pos_eq by lra.
    apply Rle_lt_trans with (2 * bpow radix2 h).
    + apply Rmult_le_compat_r; [apply bpow_ge_0|lra].
    + change 2 with (bpow radix2 1). rewrite <- bpow_plus. apply bpow_lt. assert (1000 <= femax F)%Z by (clear - F32; destruct F; try contradiction; simpl; lia). lia.
Qed.

Lemma isf_mulsgF : forall (y : flt F) z s, isf y z -> isf (fmul (fint F (1 - 2 * b2z s)) y) (sg s * z).
Proof.
  intros y z s Hy.
  assert (isf (fint F (1 - 2 * b2z s)) (sg s)) as Is by (destruct s; apply fintF; simpl; lia).
  apply isf_fmul_exact; try assumption.
  - destruct s; unfold sg.
    + replace (-1 * z) with (- z) by ring. apply FF_opp. eapply isf_FF; eassumption.
    + rewrite Rmult_1_l. eapply isf_FF; eassumption.
  - rewrite Rabs_mult, sg_abs, Rmult_1_l. apply isf_lt in Hy. assumption.
Qed.

Lemma lin_dec_F : forall b s (l : flt F) k,
  isf l (IZR k * bpow radix2 (- d)) -> -255 <= IZR k * bpow radix2 (- d) <= 255 ->
  exists y, linear_l_to_ld {| ld := F; big_endian_struct := b |} s l = Val y /\ isf y (sg s * Lin (IZR k * bpow radix2 (- d))).
Proof.
  intros b s l k Hl Hb. assert (0 < 2 ^ d)%Z as Pd by (apply Z.pow_pos_nonneg; lia). unfold linear_l_to_ld. cbn [ld]. cbv zeta.
  rewrite (fisnan_isf _ _ Hl), (fisinf_isf _ _ Hl). cbn [orb andb].
  set (x := IZR k * bpow radix2 (- d)) in *.
  set (j := if s then (- k)%Z else k).
  assert (sg s * x = IZR j * bpow radix2 (- d)) as Ej.
  { unfold j, x, sg. destruct s; [rewrite opp_IZR; ring|ring]. }
  assert (isf (if negb s then l else fneg l) (IZR j * bpow radix2 (- d))) as Hc.
  { rewrite <- Ej. unfold sg. destruct s; cbn [negb].
    - replace (-1 * x) with (- x) by ring. apply isf_fneg. assumption.
    - rewrite Rmult_1_l. assumption. }
  set (cpm := if negb s then l else fneg l) in *. clearbody cpm.
  assert (-255 <= IZR j * bpow radix2 (- d) <= 255) as Bj.
  { rewrite <- Ej. unfold sg. destruct s; lra. }
  set (c := Zfloor (IZR j * bpow radix2 (- d))).
  assert (c = (j / 2 ^ d)%Z) as Ec by (unfold c; apply (Zfloor_div j d); lia).
  assert (-255 <= c <= 255)%Z as Bc.
  { split.
    - apply Zfloor_lub. lra.
    - apply le_IZR. pose proof (Zfloor_lb (IZR j * bpow radix2 (- d))). fold c in H. lra. }
  rewrite (f2int_isf 16 _ c); [|apply isf_ffloor; assumption|unfold fits_s; lia].
  cbv beta iota delta [bind].
  set (r := (j mod 2 ^ d)%Z).
  pose proof (Z.mod_pos_bound j (2 ^ d) ltac:(lia)) as Br. fold r in Br.
  assert (IZR j * bpow radix2 (- d) = IZR c + IZR r * bpow radix2 (- d)) as Esplit.
  { rewrite (Z.div_mod j (2 ^ d)) at 1 by lia. rewrite <- Ec. fold r.
    rewrite plus_IZR, mult_IZR, IZR_pow2 by lia. rewrite Rmult_plus_distr_r. f_equal.
    replace (bpow radix2 d * IZR c * bpow radix2 (- d)) with (IZR c * (bpow radix2 d * bpow radix2 (- d))) by ring.
    rewrite <- bpow_plus, Z.add_opp_diag_r. simpl. ring. }
  assert (0 <= IZR r * bpow radix2 (- d) < 1) as B.
  { split; [apply Rmult_le_pos; [apply IZR_le; lia|apply bpow_ge_0]|].
    apply Rmult_lt_reg_r with (bpow radix2 d); [apply bpow_gt_0|]. rewrite Rmult_assoc, <- bpow_plus.
    replace (- d + d)%Z with 0%Z by lia; simpl (bpow radix2 0). rewrite Rmult_1_r, Rmult_1_l, <- IZR_pow2 by lia. apply IZR_lt. lia. }
  assert (isf (fsub cpm (fint F c)) (IZR r * bpow radix2 (- d))) as Hm.
  { replace (IZR r * bpow radix2 (- d)) with (IZR j * bpow radix2 (- d) - IZR c) by (rewrite Esplit; ring).
    apply isf_fsub_exact; [assumption|apply fintF; lia| |];
      (replace (IZR j * bpow radix2 (- d) - IZR c) with (IZR r * bpow radix2 (- d)) by (rewrite Esplit; ring)).
    - apply FFd. rewrite pow_d1. lia.
    - apply lt_emax_512. rewrite Rabs_pos_eq; lra. }
  set (m0 := fsub cpm (fint F c)) in *. clearbody m0.
  assert (isf (fint F 1) 1) as I1 by (apply fintF; lia).
  rewrite (feq_isf _ _ _ _ Hm I1), Req_bool_false by lra.
  rewrite (feq_isf _ _ _ _ Hm (isf_zero F)).
  eexists; split; [reflexivity|].
  assert (forall h (g : flt F) q, isf g (IZR q * bpow radix2 (- d)) -> (0 <= q <= 2 ^ d)%Z -> (-300 <= h <= 300)%Z ->
     Lin x = (1 + IZR q * bpow radix2 (- d)) * bpow radix2 h ->
     isf (fmul (fint F (1 - 2 * b2z s)) (fldexp (fadd (fint F 1) g) h)) (sg s * Lin x)) as fin.
  { intros h g q Hg Hq Hh ->. apply isf_mulsgF. apply ldexp_F; assumption. }
  destruct s; cbn [negb].
  - assert (x = - (IZR c + IZR r * bpow radix2 (- d))) as Ex.
    { rewrite <- Esplit, <- Ej. unfold sg. ring. }
    destruct (Req_bool_spec (IZR r * bpow radix2 (- d)) 0) as [E0|E0].
    + replace (to_s 16 (to_s 16 ((1 - 2 * b2z true) * (c + b2z true)) + 1)) with (- c)%Z.
      2:{ change (b2z true) with 1%Z. rewrite to_s16_id; rewrite ?to_s16_id; lia. }
      apply (fin _ _ 0%Z); [rewrite Rmult_0_l; apply isf_zero|lia|lia|].
      rewrite Ex, E0, Rplus_0_r. unfold Lin. rewrite <- opp_IZR, Zfloor_IZR. ring.
    + rewrite to_s16_id by (change (b2z true) with 1%Z; lia).
      assert (isf (fsub (fint F 1) m0) (IZR (2 ^ d - r) * bpow radix2 (- d))) as Hg.
      { assert (IZR (2 ^ d - r) * bpow radix2 (- d) = 1 - IZR r * bpow radix2 (- d)) as ->.
        { rewrite minus_IZR, IZR_pow2 by lia. rewrite Rmult_minus_distr_r, <- bpow_plus. replace (d + - d)%Z with 0%Z by lia; simpl (bpow radix2 0). ring. }
        apply isf_fsub_exact; try assumption.
        - replace (1 - IZR r * bpow radix2 (- d)) with (IZR (2 ^ d - r) * bpow radix2 (- d)).
          + apply FFd. rewrite pow_d1. lia.
          + rewrite minus_IZR, IZR_pow2 by lia. rewrite Rmult_minus_distr_r, <- bpow_plus. replace (d + - d)%Z with 0%Z by lia; simpl (bpow radix2 0). ring.
        - apply lt_emax_512. rewrite Rabs_pos_eq; lra. }
      eapply fin; [exact Hg|lia|change (b2z true) with 1%Z; lia|].
      rewrite Ex. unfold Lin. rewrite Zfloor_opp_int_frac by lra.
      replace ((1 - 2 * b2z true) * (c + b2z true))%Z with (- c - 1)%Z by (change (b2z true) with 1%Z; lia).
      rewrite (minus_IZR (2 ^ d)), (IZR_pow2 d) by lia. rewrite Rmult_minus_distr_r, <- bpow_plus.
      replace (d + - d)%Z with 0%Z by lia; simpl (bpow radix2 0). rewrite minus_IZR, opp_IZR. ring.
  - replace (to_s 16 ((1 - 2 * b2z false) * (c + b2z false))) with c.
    2:{ change (b2z false) with 0%Z. rewrite to_s16_id; lia. }
    eapply fin; [exact Hm|lia|lia|].
    assert (x = IZR c + IZR r * bpow radix2 (- d)) as Ex.
    { rewrite <- Esplit, <- Ej. unfold sg. ring. }
    rewrite Ex. unfold Lin. replace (Zfloor (IZR c + IZR r * bpow radix2 (- d))) with c.
    + ring.
    + symmetry. apply Zfloor_imp. rewrite plus_IZR. lra.
Qed.

End fraction.

Lemma dec_common_F : forall pf n t (l : flt (ld pf)), ld pf <> f32 -> (6 <= n <= 64)%Z -> (n - 4 <= fprec (ld pf))%Z -> is_real_takum n t -> isf l (l_ n t) ->
  exists y, linear_l_to_ld pf (t <? 0)%Z l = Val y /\ isf y (lv n t).
Proof.
  intros [F b] n t l N32 Hn Hp Hr Hl. cbn [ld] in *. destruct (l_dyadic n t Hn Hr) as [k Hk]. pose proof (l_abs n t Hn Hr) as Hb. apply Rabs_le_inv in Hb.
  unfold lv. rewrite Hk in *. apply (lin_dec_F F (n - 5)); try assumption; lia.
Qed.
Lemma ieee_unique : forall F (y z : flt F) x, x <> 0 -> ieee_rounds x y -> ieee_rounds x z -> y = z.
Proof.
  intros F y z x Nx. unfold ieee_rounds. case Rlt_bool; [|congruence].
  intros (A1 & A2 & A3) (B1 & B2 & B3). apply B2R_Bsign_inj; congruence.
Qed.
Lemma same_float64 : forall pf n t (l : flt (ld pf)) (l' : flt f80), ld pf <> f32 -> (6 <= n <= 64)%Z -> (n - 4 <= fprec (ld pf))%Z -> is_real_takum n t -> isf l (l_ n t) -> isf l' (l_ n t) ->
  codec_s_and_linear_l_to_float64 pf (t <? 0)%Z l = codec_s_and_linear_l_to_float64 x86_64 (t <? 0)%Z l'.
Proof.
  intros pf n t l l' N32 Hn Hp Hr Hl Hl'. destruct (dec_common_F pf n t l N32 Hn Hp Hr Hl) as (y & E & Hy). destruct (dec_common n t l' Hn Hr Hl') as (y' & E' & Hy'). fold (lv n t) in Hy'.
  unfold codec_s_and_linear_l_to_float64. rewrite E, E'. cbv beta iota delta [bind]. f_equal. pose proof (lv_neq0 n t Hn Hr).
  eapply ieee_unique; [eassumption|apply fcast_ieee; assumption|apply fcast_ieee; assumption].
Qed.
Lemma wide_facts : forall pf, wide pf -> ld pf <> f32 /\ fsub_fmt f32 (ld pf) /\ fsub_fmt f64 (ld pf) /\ (53 <= fprec (ld pf))%Z.
Proof. intros pf [E|[E|E]]; rewrite E; repeat split; try discriminate; simpl; lia. Qed.

Theorem to_float_portable : forall pf t, wide pf ->
  (is_intn 8 t -> takum_linear8_to_float64 pf t = takum_linear8_to_float64 x86_64 t /\ takum_linear8_to_float32 pf t = takum_linear8_to_float32 x86_64 t) /\
  (is_intn 16 t -> takum_linear16_to_float64 pf t = takum_linear16_to_float64 x86_64 t /\ takum_linear16_to_float32 pf t = takum_linear16_to_float32 x86_64 t) /\
  (is_intn 32 t -> takum_linear32_to_float64 pf t = takum_linear32_to_float64 x86_64 t /\ takum_linear32_to_float32 pf t = takum_linear32_to_float32 x86_64 t) /\
  (ld pf <> f64 -> is_intn 64 t -> takum_linear64_to_float64 pf t = takum_linear64_to_float64 x86_64 t /\ takum_linear64_to_float32 pf t = takum_linear64_to_float32 x86_64 t).
Proof.
  assert (forall (a b : outcome (flt f64)), a = b -> a = b /\ (let! d := a in Val (fcast f32 d)) = (let! d := b in Val (fcast f32 d))) as K by (intros a b ->; split; reflexivity).
  assert (fsub_fmt f32 f80 /\ fsub_fmt f64 f80) as [S1 S2] by (unfold fsub_fmt; simpl; lia).
  intros pf t W. destruct (wide_facts pf W) as (N32 & G1 & G2 & Pr).
  assert (forall n, nar n = nar n -> (t = 0 \/ t = nar n \/ is_real_takum n t)%Z -> True) as _ by trivial.
  split; [|split; [|split]].
  - intros It. unfold takum_linear8_to_float64, takum_linear8_to_float32. destruct (takum_cases 8 t It) as [->|[->|Hr]].
    + destruct W as [E|[E|E]]; destruct pf as [F b]; cbn [ld] in E; subst F; split; reflexivity.
    + destruct W as [E|[E|E]]; destruct pf as [F b]; cbn [ld] in E; subst F; split; reflexivity.
    + destruct (to_l_8 t Hr) as (l & E & Hl). rewrite E. cbv beta iota delta [bind]. apply (K (codec_s_and_linear_l_to_float64 pf _ _)).
      apply (same_float64 pf 8); try assumption; try lia; apply isf_fcast_up; assumption.
  - intros It. unfold takum_linear16_to_float64, takum_linear16_to_float32. destruct (takum_cases 16 t It) as [->|[->|Hr]].
    + destruct W as [E|[E|E]]; destruct pf as [F b]; cbn [ld] in E; subst F; split; reflexivity.
    + destruct W as [E|[E|E]]; destruct pf as [F b]; cbn [ld] in E; subst F; split; reflexivity.
    + destruct (to_l_16 t Hr) as (l & E & Hl). rewrite E. cbv beta iota delta [bind]. apply (K (codec_s_and_linear_l_to_float64 pf _ _)).
      apply (same_float64 pf 16); try assumption; try lia; apply isf_fcast_up; assumption.
  - intros It. unfold takum_linear32_to_float64, takum_linear32_to_float32. destruct (takum_cases 32 t It) as [->|[->|Hr]].
    + destruct W as [E|[E|E]]; destruct pf as [F b]; cbn [ld] in E; subst F; split; reflexivity.
    + destruct W as [E|[E|E]]; destruct pf as [F b]; cbn [ld] in E; subst F; split; reflexivity.
    + destruct (to_l_32 t Hr) as (l & E & Hl). rewrite E. cbv beta iota delta [bind]. apply (K (codec_s_and_linear_l_to_float64 pf _ _)).
      apply (same_float64 pf 32); try assumption; try lia; apply isf_fcast_up; assumption.
  - intros N64 It. assert (64 <= fprec (ld pf))%Z as P64 by (destruct W as [E|[E|E]]; [contradiction|rewrite E; simpl; lia..]).
    unfold takum_linear64_to_float64, takum_linear64_to_float32. destruct (takum_cases 64 t It) as [->|[->|Hr]].
    + destruct W as [E|[E|E]]; [contradiction|..]; destruct pf as [F b]; cbn [ld] in E; subst F; split; reflexivity.
    + destruct W as [E|[E|E]]; [contradiction|..]; destruct pf as [F b]; cbn [ld] in E; subst F; split; reflexivity.
    + destruct (to_l_64 pf t P64 Hr) as (l & E & Hl). destruct (to_l_64 x86_64 t ltac:(simpl; lia) Hr) as (l' & E' & Hl'). rewrite E, E'. cbv beta iota delta [bind].
      apply (K (codec_s_and_linear_l_to_float64 pf _ _)). apply (same_float64 pf 64); try assumption; lia.
Qed.

Lemma ext_dec : forall pf n t (l : flt (ld pf)), wide pf -> (6 <= n <= 32)%Z -> is_real_takum n t -> isf l (l_ n t) ->
  exists y, (let! d := codec_s_and_linear_l_to_float64 pf (t <? 0)%Z l in Val (fcast (ld pf) d)) = Val y /\ float_is (lv n t) y.
Proof.
  intros pf n t l W Hn Hr Hl. destruct (wide_facts pf W) as (N32 & G1 & G2 & Pr). destruct (dec_common_F pf n t l N32 ltac:(lia) ltac:(lia) Hr Hl) as (y & E & Hy).
  unfold codec_s_and_linear_l_to_float64. rewrite E. eexists; split; [reflexivity|]. apply isf_float_is; [|apply lv_neq0; [lia|assumption]]. apply isf_fcast_up; [assumption|].
  apply isf_fcast_exact; [assumption| |].
  - apply FF_lin_value; [lia|discriminate|simpl; lia|assumption].
  - pose proof (lin_value_bound n t ltac:(lia) Hr) as H. eapply Rle_lt_trans; [apply H|]. apply bpow_lt. reflexivity.
Qed.
Lemma denotes_0 : forall F n (o : outcome (flt F)), o = Val (B754_zero false) -> denotes n 0 o.
Proof. intros F n o ->. eexists. split; [reflexivity|]. rewrite value_0. repeat split. Qed.
Lemma denotes_nar : forall F n (o : outcome (flt F)), (6 <= n <= 64)%Z -> o = Val B754_nan -> denotes n (nar n) o.
Proof. intros F n o Hn ->. eexists. split; [reflexivity|]. rewrite value_nar by lia. reflexivity. Qed.
Lemma denotes_lv : forall F n t (o : outcome (flt F)), (6 <= n <= 64)%Z -> is_real_takum n t -> (exists y, o = Val y /\ float_is (lv n t) y) -> denotes n t o.
Proof. intros F n t o Hn Hr (y & E & H). exists y. split; [assumption|]. rewrite lin_value by assumption. exact H. Qed.

Theorem to_extended_portable : forall pf t, wide pf ->
  (is_intn 8 t -> denotes 8 t (takum_linear8_to_extended_float pf t)) /\ (is_intn 16 t -> denotes 16 t (takum_linear16_to_extended_float pf t)) /\
  (is_intn 32 t -> denotes 32 t (takum_linear32_to_extended_float pf t)) /\ (ld pf <> f64 -> is_intn 64 t -> denotes 64 t (takum_linear64_to_extended_float pf t)).
Proof.
  intros pf t W. destruct (wide_facts pf W) as (N32 & G1 & G2 & Pr). assert (fsub_fmt f32 f64) as S1 by (unfold fsub_fmt; simpl; lia).
  split; [|split; [|split]].
  - intros It. destruct (takum_cases 8 t It) as [->|[->|Hr]].
    + apply denotes_0. destruct W as [E|[E|E]]; destruct pf as [F b]; cbn [ld] in E; subst F; reflexivity.
    + apply denotes_nar; [lia|]. destruct W as [E|[E|E]]; destruct pf as [F b]; cbn [ld] in E; subst F; reflexivity.
    + apply denotes_lv; [lia|assumption|]. unfold takum_linear8_to_extended_float. destruct (to_l_8 t Hr) as (l & E & Hl). rewrite E. cbv beta iota.
      apply (ext_dec pf 8); [assumption|lia|assumption|]. apply isf_fcast_up; [assumption|]. apply isf_fcast_up; assumption.
  - intros It. destruct (takum_cases 16 t It) as [->|[->|Hr]].
    + apply denotes_0. destruct W as [E|[E|E]]; destruct pf as [F b]; cbn [ld] in E; subst F; reflexivity.
    + apply denotes_nar; [lia|]. destruct W as [E|[E|E]]; destruct pf as [F b]; cbn [ld] in E; subst F; reflexivity.
    + apply denotes_lv; [lia|assumption|]. unfold takum_linear16_to_extended_float. destruct (to_l_16 t Hr) as (l & E & Hl). rewrite E. cbv beta iota.
      apply (ext_dec pf 16); [assumption|lia|assumption|]. apply isf_fcast_up; assumption.
  - intros It. destruct (takum_cases 32 t It) as [->|[->|Hr]].
    + apply denotes_0. destruct W as [E|[E|E]]; destruct pf as [F b]; cbn [ld] in E; subst F; reflexivity.
    + apply denotes_nar; [lia|]. destruct W as [E|[E|E]]; destruct pf as [F b]; cbn [ld] in E; subst F; reflexivity.
    + apply denotes_lv; [lia|assumption|]. unfold takum_linear32_to_extended_float. destruct (to_l_32 t Hr) as (l & E & Hl). rewrite E. cbv beta iota.
      apply (ext_dec pf 32); [assumption|lia|assumption|]. apply isf_fcast_up; assumption.
  - intros N64 It. assert (64 <= fprec (ld pf))%Z as P64 by (destruct W as [E|[E|E]]; [contradiction|rewrite E; simpl; lia..]). destruct (takum_cases 64 t It) as [->|[->|Hr]].
    + apply denotes_0. destruct W as [E|[E|E]]; [contradiction|..]; destruct pf as [F b]; cbn [ld] in E; subst F; reflexivity.
    + apply denotes_nar; [lia|]. destruct W as [E|[E|E]]; [contradiction|..]; destruct pf as [F b]; cbn [ld] in E; subst F; reflexivity.
    + apply denotes_lv; [lia|assumption|]. unfold takum_linear64_to_extended_float. destruct (to_l_64 pf t P64 Hr) as (l & E & Hl). rewrite E. cbv beta iota delta [bind].
      destruct (dec_common_F pf 64 t l N32 ltac:(lia) ltac:(lia) Hr Hl) as (y & E2 & Hy). exists y. split; [exact E2|]. apply isf_float_is; [assumption|apply lv_neq0; [lia|assumption]].
Qed.
Theorem linear64_53_nan : forall pf t, ld pf = f64 -> takum_linear64_to_float64 pf t = Val B754_nan /\ takum_linear64_to_float32 pf t = Val B754_nan /\ takum_linear64_to_extended_float pf t = Val B754_nan.
Proof. intros [F b] t E. cbn [ld] in E. subst F. repeat split; reflexivity. Qed.

Definition pf53 := {| ld := f64; big_endian_struct := true |}.
Definition pf113 := {| ld := f128; big_endian_struct := true |}.
Theorem quietly_wrong :
  (let! t := takum_linear32_from_float64 pf53 (fconst f64 5 (-2)) in takum_linear32_to_float64 pf53 t) = Val (fconst f64 3 (-1)) /\
  (let! t := takum_linear32_from_float64 pf113 (fconst f64 5 (-2)) in takum_linear32_to_float64 pf113 t) = Val (fconst f64 3 (-1)) /\
  (let! t := takum_linear64_from_float64 pf113 (fconst f64 5 (-2)) in takum_linear64_to_float64 pf113 t) = Val (fconst f64 3 (-1)) /\
  (let! t := takum_linear64_from_float64 x86_64 (fconst f64 5 (-2)) in takum_linear64_to_float64 x86_64 t) = Val (fconst f64 5 (-2)).
Proof.
  assert (forall (o : outcome (flt f64)) y, match o with Val z => B2SF z = B2SF y | UB => False end -> o = Val y) as K.
  { intros [z|] y H; [f_equal; apply B2SF_inj; assumption|contradiction]. }
  repeat split; apply K; vm_compute; reflexivity.
Qed.
