(** The decoders compute the logarithmic value of the specification. *)
From Coq Require Import ZArith Reals Bool Lia Lra.
From Flocq Require Import Core.Core IEEE754.BinarySingleNaN.
From Verif Require Import CModel FloatModel WidthConv Codec Spec CodeFacts SpecFacts ValueFacts RoundFacts
  WidthFacts FloatFacts.
Local Open Scope Z_scope.

Lemma div_mod_pow2 : forall a i j, 0 <= i -> 0 <= j -> (a / 2 ^ i) mod 2 ^ j = (a mod 2 ^ (i + j)) / 2 ^ i.
Proof.
  intros a i j Hi Hj. pose proof (pow2_pos i Hi). pose proof (pow2_pos j Hj).
  rewrite pow2_split by assumption. rewrite Z.rem_mul_r by lia.
  rewrite Z.add_comm, Z.mul_comm, Z.div_add_l by lia.
  rewrite (Z.div_small (a mod 2 ^ i)) by (apply Z.mod_pos_bound; lia). lia.
Qed.

Lemma mul_mod_pow2 : forall a k n, 0 <= k <= n -> (a * 2 ^ k) mod 2 ^ n = (a mod 2 ^ (n - k)) * 2 ^ k.
Proof.
  intros a k n H. replace (2 ^ n) with (2 ^ (n - k) * 2 ^ k) by (rewrite <- pow2_split by lia; f_equal; lia).
  pose proof (pow2_pos k ltac:(lia)). pose proof (pow2_pos (n - k) ltac:(lia)).
  apply Zmult_mod_distr_r.
Qed.

Lemma mod_mod_pow2 : forall a i j, 0 <= i <= j -> (a mod 2 ^ j) mod 2 ^ i = a mod 2 ^ i.
Proof.
  intros a i j H. symmetry. apply Znumtheory.Zmod_div_mod; try (apply pow2_pos; lia).
  exists (2 ^ (j - i)). rewrite <- pow2_split by lia. f_equal. lia.
Qed.

Lemma lookup_p : forall DR, 0 <= DR < 16 -> lookup p_lut DR = Val (11 - regZ DR).
Proof. intros DR H. case_DR H; subst; reflexivity. Qed.
Lemma lookup_bias : forall DR, 0 <= DR < 16 -> lookup c_bias_lut DR = Val (biasZ DR).
Proof. intros DR H. case_DR H; subst; reflexivity. Qed.

Lemma get_c_eq : forall inp, 0 <= inp ->
  let DR := (inp / 2 ^ 11) mod 2 ^ 4 in
  get_c_and_return_shift inp = Val (biasZ DR + (inp mod 2 ^ 11) / 2 ^ (11 - regZ DR), 5 + regZ DR).
Proof.
  intros inp Hi DR. unfold get_c_and_return_shift.
  assert (0 <= DR < 16) as HD by (apply Z.mod_pos_bound; lia).
  pose proof (regZ_bounds DR HD) as Hr.
  assert (Z.land inp 0x7800 / 2 ^ 11 = DR) as E1.
  { rewrite <- Z.shiftr_div_pow2 by lia. rewrite Z.shiftr_land. change (Z.shiftr 0x7800 11) with (Z.ones 4).
    rewrite Z.land_ones, Z.shiftr_div_pow2 by lia. reflexivity. }
  unfold shr_promoted at 1, shr_u, guard.
  change ((0 <=? 11) && (11 <? Z.max 32 16)) with true. cbv beta iota delta [bind]. rewrite E1.
  rewrite lookup_p, lookup_bias by assumption. cbv beta iota delta [bind].
  change 0x07ff with (Z.ones 11). rewrite Z.land_ones by lia.
  unfold shr_promoted, shr_u, guard. change (Z.max 32 16) with 32.
  replace ((0 <=? 11 - regZ DR) && (11 - regZ DR <? 32)) with true by lia. cbv beta iota.
  f_equal. f_equal. lia.
Qed.

(** the characteristic and mantissa extracted from the n bits of t *)
Lemma decode_bits : forall n t, 16 <= n <= 64 -> is_intn n t ->
  let W := to_u n t in let inp := W / 2 ^ (n - 16) in
  exists DR y,
    low n t = DR * 2 ^ (n - 5) + y /\ 0 <= DR < 16 /\ 0 <= y < 2 ^ (n - 5) /\
    0 <= inp < 2 ^ 16 /\
    (let p := n - 5 - regZ DR in
    get_c_and_return_shift inp = Val (biasZ DR + y / 2 ^ p, 5 + regZ DR) /\
    (W * 2 ^ (5 + regZ DR)) mod 2 ^ n = (y mod 2 ^ p) * 2 ^ (5 + regZ DR)).
Proof.
  intros n t Hn Ht W inp.
  pose proof (low_bounds n ltac:(lia) t) as Hl.
  destruct (u_split n ltac:(lia) (low n t) Hl) as (DR & y & E1 & Hy & HD).
  exists DR, y. split; [assumption|]. split; [assumption|]. split; [assumption|].
  assert (0 <= W < 2 ^ n) as HW by (apply Z.mod_pos_bound; apply pow2_pos; lia).
  assert (0 <= inp < 2 ^ 16) as Hinp.
  { unfold inp. split; [apply Z.div_pos; [lia|apply pow2_pos; lia]|].
    apply Z.div_lt_upper_bound; [apply pow2_pos; lia|]. rewrite <- pow2_split by lia.
    replace (n - 16 + 16) with n by lia. lia. }
  split; [assumption|].
  pose proof (regZ_bounds DR HD) as Hr.
  assert (low n t = W mod 2 ^ (n - 1)) as El.
  { unfold W, to_u, low. rewrite mod_mod_pow2 by lia. reflexivity. }
  assert (y = W mod 2 ^ (n - 5)) as Ey.
  { rewrite <- (mod_mod_pow2 W (n - 5) (n - 1)) by lia. rewrite <- El, E1.
    rewrite Z.add_comm, Z.mod_add, Z.mod_small by (lia || (pose proof (pow2_pos (n - 5)); lia)). reflexivity. }
  assert ((inp / 2 ^ 11) mod 2 ^ 4 = DR) as ED.
  { unfold inp. rewrite Z.div_div by (lia || apply pow2_pos; lia). rewrite <- pow2_split by lia.
    replace (n - 16 + 11) with (n - 5) by lia. rewrite div_mod_pow2 by lia.
    replace (n - 5 + 4) with (n - 1) by lia. rewrite <- El, E1.
    rewrite Z.div_add_l, Z.div_small by (lia || (pose proof (pow2_pos (n - 5)); lia)). lia. }
  cbv zeta. split.
  - rewrite get_c_eq by lia. cbv zeta. rewrite ED. f_equal. f_equal. f_equal.
    unfold inp. rewrite div_mod_pow2 by lia. replace (n - 16 + 11) with (n - 5) by lia. rewrite <- Ey.
    rewrite Z.div_div by (lia || apply pow2_pos; lia). rewrite <- pow2_split by lia. f_equal. f_equal. lia.
  - rewrite mul_mod_pow2 by lia. replace (n - (5 + regZ DR)) with (n - 5 - regZ DR) by lia.
    rewrite Ey, mod_mod_pow2 by lia. reflexivity.
Qed.

Local Open Scope R_scope.

Lemma signed_cpm_isf : forall f neg n DR y k, (16 <= n <= 64)%Z -> (n <= fprec f)%Z ->
  (0 <= DR < 16)%Z -> (0 <= y < 2 ^ (n - 5))%Z -> (0 <= k <= n)%Z ->
  ((y mod 2 ^ (n - 5 - regZ DR)) * 2 ^ (5 + regZ DR) mod 2 ^ k = 0)%Z ->
  isf (@signed_cpm f neg (biasZ DR + y / 2 ^ (n - 5 - regZ DR))
        (((y mod 2 ^ (n - 5 - regZ DR)) * 2 ^ (5 + regZ DR)) / 2 ^ k) (n - k))
      ((if neg then -1 else 1) * cpm n (DR * 2 ^ (n - 5) + y)).
Proof.
  intros f neg n DR y k Hn Hf HD Hy Hk Hdiv. unfold signed_cpm.
  pose proof (regZ_bounds DR HD) as Hr. pose proof (biasZ_bounds DR ltac:(lia)) as Hb.
  set (p := (n - 5 - regZ DR)%Z) in *. set (M := ((y mod 2 ^ p) * 2 ^ (5 + regZ DR))%Z) in *.
  set (q := (y / 2 ^ p)%Z).
  assert (0 <= p)%Z as Hp by lia.
  pose proof (pow2_pos p Hp) as Hpp. pose proof (pow2_pos k ltac:(lia)) as Hkp.
  pose proof (Z.div_mod y (2 ^ p) ltac:(lia)) as Edm. pose proof (Z.mod_pos_bound y (2 ^ p) Hpp) as Hmod.
  fold q in Edm.
  assert (2 ^ p * 2 ^ regZ DR = 2 ^ (n - 5))%Z as E5 by (rewrite <- pow2_split by lia; f_equal; lia).
  assert (2 ^ p * 2 ^ (5 + regZ DR) = 2 ^ n)%Z as En by (rewrite <- pow2_split by lia; f_equal; lia).
  assert (0 <= q < 2 ^ regZ DR)%Z as Hq.
  { split; [apply Z.div_pos; lia|]. apply Z.div_lt_upper_bound; lia. }
  assert (2 ^ regZ DR <= 2 ^ 7)%Z as Hr7 by (apply Z.pow_le_mono_r; lia). change (2 ^ 7)%Z with 128%Z in Hr7.
  assert (0 <= M < 2 ^ n)%Z as HM.
  { unfold M. pose proof (pow2_pos (5 + regZ DR) ltac:(lia)). nia. }
  assert (M = M / 2 ^ k * 2 ^ k)%Z as EM by (pose proof (Z.div_mod M (2 ^ k)); lia).
  set (M' := (M / 2 ^ k)%Z) in *.
  pose proof (fmt_pos f) as (P1 & P2 & P3).
  assert (2 ^ n <= 2 ^ fprec f)%Z as Hnf by (apply Z.pow_le_mono_r; lia).
  assert (0 <= M' <= M)%Z as HM' by nia.
  assert (2 ^ 16 <= 2 ^ fprec f)%Z as H16 by (apply Z.pow_le_mono_r; lia). change (2 ^ 16)%Z with 65536%Z in H16.
  assert (isf (fint f (1 - 2 * b2z neg)) (if neg then -1 else 1)) as I1.
  { eapply isf_eq; [apply isf_fint; destruct neg; cbv [b2z]; lia|]. destruct neg; reflexivity. }
  assert (isf (fint f (biasZ DR + q)) (IZR (biasZ DR + q))) as I2 by (apply isf_fint; lia).
  assert (isf (fint f M') (IZR M')) as I3 by (apply isf_fint; lia).
  assert (IZR M' * bpow radix2 (- (n - k)) = IZR (y mod 2 ^ p) * bpow radix2 (- p)) as EM'.
  { assert (IZR M' * bpow radix2 k = IZR (y mod 2 ^ p) * bpow radix2 (5 + regZ DR)) as E1.
    { rewrite <- !IZR_pow2 by lia. rewrite <- !mult_IZR. f_equal. rewrite <- EM. reflexivity. }
    replace (- (n - k))%Z with (k + - n)%Z by lia. rewrite bpow_plus, <- Rmult_assoc, E1, Rmult_assoc, <- bpow_plus.
    f_equal. f_equal. lia. }
  assert (0 <= IZR (y mod 2 ^ p) * bpow radix2 (- p) < 1) as Hfr.
  { pose proof (bpow_gt_0 radix2 (- p)). split.
    - apply Rmult_le_pos; [apply IZR_le; lia|lra].
    - replace 1 with (IZR (2 ^ p) * bpow radix2 (- p)).
      + apply Rmult_lt_compat_r; [assumption|apply IZR_lt; lia].
      + rewrite IZR_pow2 by lia. rewrite <- bpow_plus, Z.add_opp_diag_r. reflexivity. }
  assert (bpow radix2 9 = 512) as B9 by reflexivity.
  assert (bpow radix2 9 < bpow radix2 (femax f)) as Hmax by (apply bpow_lt; lia).
  assert (isf (fldexp (fint f M') (- (n - k))) (IZR (y mod 2 ^ p) * bpow radix2 (- p))) as I4.
  { rewrite <- EM'. apply isf_fldexp_exact; [assumption| |].
    - apply FF_dyadic; [lia|]. lia.
    - rewrite EM'. rewrite Rabs_pos_eq by lra. lra. }
  assert (IZR (biasZ DR + q) + IZR (y mod 2 ^ p) * bpow radix2 (- p)
          = IZR (biasZ DR * 2 ^ p + y) * bpow radix2 (- p)) as ES.
  { rewrite Edm at 2. rewrite !plus_IZR, !mult_IZR, !IZR_pow2 by lia.
    assert (bpow radix2 p * bpow radix2 (- p) = 1) as E1 by (rewrite <- bpow_plus, Z.add_opp_diag_r; reflexivity).
    rewrite !Rmult_plus_distr_r.
    replace (IZR (biasZ DR) * bpow radix2 p * bpow radix2 (- p)) with (IZR (biasZ DR) * (bpow radix2 p * bpow radix2 (- p))) by ring.
    replace (bpow radix2 p * IZR q * bpow radix2 (- p)) with (IZR q * (bpow radix2 p * bpow radix2 (- p))) by ring.
    rewrite E1. ring. }
  assert (FF f (IZR (biasZ DR + q) + IZR (y mod 2 ^ p) * bpow radix2 (- p))) as HFS.
  { rewrite ES. apply FF_dyadic; [|lia].
    assert (Z.abs (biasZ DR) <= 2 * 2 ^ regZ DR)%Z as Hbb.
    { clear - HD. case_DR HD; subst; cbv; discriminate. }
    assert (2 ^ (n - 5) * 4 <= 2 ^ fprec f)%Z.
    { change 4%Z with (2 ^ 2)%Z. rewrite <- pow2_split by lia. apply Z.pow_le_mono_r; lia. }
    assert (Z.abs (biasZ DR * 2 ^ p) <= 2 * 2 ^ (n - 5))%Z by (rewrite Z.abs_mul, (Z.abs_eq (2 ^ p)) by lia; nia).
    lia. }
  assert (Rabs (IZR (biasZ DR + q) + IZR (y mod 2 ^ p) * bpow radix2 (- p)) < bpow radix2 (femax f)) as HbS.
  { assert (-255 <= IZR (biasZ DR + q) <= 400) by (split; apply IZR_le; lia).
    apply Rabs_lt. lra. }
  assert (isf (fadd (fint f (biasZ DR + q)) (fldexp (fint f M') (- (n - k))))
           (IZR (biasZ DR + q) + IZR (y mod 2 ^ p) * bpow radix2 (- p))) as I5.
  { apply isf_fadd_exact; assumption. }
  rewrite cpm_affine.
  2:lia. 2:assumption. 2:lia.
  2:{ assert (2 ^ (n - 1) = 16 * 2 ^ (n - 5))%Z as E1.
      { change 16%Z with (2 ^ 4)%Z. rewrite <- pow2_split by lia. f_equal. lia. } nia. }
  assert (IZR (biasZ DR) + IZR y * bpow radix2 (regZ DR - (n - 5)) =
          IZR (biasZ DR + q) + IZR (y mod 2 ^ p) * bpow radix2 (- p)) as EC.
  { rewrite ES. replace (regZ DR - (n - 5))%Z with (- p)%Z by lia.
    rewrite plus_IZR, mult_IZR, IZR_pow2 by lia. rewrite Rmult_plus_distr_r.
    rewrite Rmult_assoc, <- bpow_plus, Z.add_opp_diag_r. simpl (bpow radix2 0). ring. }
  rewrite EC. apply isf_fmul_exact; [assumption|assumption| |].
  - destruct neg; [|rewrite Rmult_1_l; assumption].
    replace (-1 * (IZR (biasZ DR + q) + IZR (y mod 2 ^ p) * bpow radix2 (- p)))
      with (- (IZR (biasZ DR + q) + IZR (y mod 2 ^ p) * bpow radix2 (- p))) by ring.
    apply FF_opp. assumption.
  - rewrite Rabs_mult. replace (Rabs (if neg then -1 else 1)) with 1; [lra|].
    destruct neg; unfold Rabs; destruct Rcase_abs; lra.
Qed.

Lemma real_not_special : forall n t, is_real_takum n t -> (t =? 0)%Z = false /\ (t =? NaR n)%Z = false.
Proof. intros n t (_ & H0 & H1). unfold nar in H1. unfold NaR. lia. Qed.

Lemma to_l_16 : forall t, is_real_takum 16 t -> exists l, codec_takum16_to_l t = Val l /\ isf l (l_ 16 t).
Proof.
  intros t Hr. pose proof (real_not_special 16 t Hr) as [N0 N1]. unfold codec_takum16_to_l. rewrite N0, N1.
  destruct (decode_bits 16 t ltac:(lia) (proj1 Hr)) as (DR & y & El & HD & Hy & Hinp & Hc & HM).
  change (16 - 16)%Z with 0%Z in *. change (2 ^ 0)%Z with 1%Z in *. rewrite Z.div_1_r in *.
  rewrite Hc. cbv beta iota delta [bind fst snd].
  pose proof (regZ_bounds DR HD) as Hrg.
  assert (2 ^ (5 + regZ DR) <= 2 ^ 12)%Z by (apply Z.pow_le_mono_r; lia).
  pose proof (pow2_pos (5 + regZ DR) ltac:(lia)).
  assert (to_u 16 t * 2 ^ (5 + regZ DR) < 2 ^ 31)%Z.
  { change (2 ^ 31)%Z with (2 ^ 19 * 2 ^ 12)%Z. change (2 ^ 16)%Z with 65536%Z in Hinp. change (2 ^ 19)%Z with 524288%Z. nia. }
  unfold shl_int, guard.
  replace ((0 <=? 5 + regZ DR) && (5 + regZ DR <? 32) && (0 <=? to_u 16 t) &&
           (to_u 16 t * 2 ^ (5 + regZ DR) <? 2 ^ 31))%Z with true by lia.
  cbv beta iota. eexists. split; [reflexivity|]. unfold to_u at 1. rewrite HM.
  rewrite (l_cpm 16 ltac:(lia) t Hr), El.
  pose proof (signed_cpm_isf f32 (t <? 0)%Z 16 DR y 0 ltac:(lia) ltac:(simpl; lia) HD Hy ltac:(lia)) as HS.
  rewrite Z.pow_0_r, Z.div_1_r, Z.mod_1_r in HS. apply HS. reflexivity.
Qed.

Lemma to_l_8 : forall t, is_real_takum 8 t -> exists l, codec_takum8_to_l t = Val l /\ isf l (l_ 8 t).
Proof.
  intros t Hr. pose proof (real_not_special 8 t Hr) as [N0 N1]. unfold codec_takum8_to_l. rewrite N0, N1.
  pose proof (real_mul 8 16 t ltac:(lia) ltac:(lia) Hr) as Hr'.
  change (16 - 8)%Z with 8%Z in Hr'.
  destruct (decode_bits 16 (t * 2 ^ 8) ltac:(lia) (proj1 Hr')) as (DR & y & El & HD & Hy & Hinp & Hc & HM).
  change (16 - 16)%Z with 0%Z in *. change (2 ^ 0)%Z with 1%Z in *. rewrite Z.div_1_r in *.
  assert (0 <= to_u 8 t < 2 ^ 8)%Z as H8 by (apply Z.mod_pos_bound; lia).
  assert (to_u 16 (t * 2 ^ 8) = to_u 8 t * 2 ^ 8)%Z as E8 by (unfold to_u; rewrite mul_mod_pow2 by lia; reflexivity).
  unfold shl_int at 1, guard.
  replace ((0 <=? 8) && (8 <? 32) && (0 <=? to_u 8 t) && (to_u 8 t * 2 ^ 8 <? 2 ^ 31))%Z with true by lia.
  cbv beta iota delta [bind fst snd].
  rewrite <- E8. rewrite (to_u_small 16 (to_u 16 (t * 2 ^ 8))) by assumption. rewrite Hc.
  pose proof (regZ_bounds DR HD) as Hrg.
  assert (2 ^ (5 + regZ DR) <= 2 ^ 12)%Z by (apply Z.pow_le_mono_r; lia).
  pose proof (pow2_pos (5 + regZ DR) ltac:(lia)).
  change (2 ^ 8)%Z with 256%Z in H8. change (2 ^ 12)%Z with 4096%Z in *.
  assert (to_u 8 t * 2 ^ (5 + regZ DR) < 2 ^ 31)%Z by (change (2 ^ 31)%Z with 2147483648%Z; nia).
  unfold shl_int, guard.
  replace ((0 <=? 5 + regZ DR) && (5 + regZ DR <? 32) && (0 <=? to_u 8 t) &&
           (to_u 8 t * 2 ^ (5 + regZ DR) <? 2 ^ 31))%Z with true by lia.
  cbv beta iota. eexists. split; [reflexivity|].
  rewrite E8 in HM.
  assert (to_u 8 (to_u 8 t * 2 ^ (5 + regZ DR)) * 2 ^ 8 = (y mod 2 ^ (16 - 5 - regZ DR)) * 2 ^ (5 + regZ DR))%Z as EM.
  { rewrite <- HM. unfold to_u at 1. replace (to_u 8 t * 2 ^ 8 * 2 ^ (5 + regZ DR))%Z
      with (to_u 8 t * 2 ^ (5 + regZ DR) * 2 ^ 8)%Z by ring.
    rewrite (mul_mod_pow2 _ 8 16) by lia. reflexivity. }
  rewrite <- (l_mul 8 16 t) by (try lia; apply Hr). change (16 - 8)%Z with 8%Z.
  rewrite (l_cpm 16 ltac:(lia) _ Hr'), El.
  pose proof (signed_cpm_isf f32 (t <? 0)%Z 16 DR y 8 ltac:(lia) ltac:(simpl; lia) HD Hy ltac:(lia)) as HS.
  rewrite <- EM in HS. rewrite Z_div_mult, Z_mod_mult in HS by lia. change (16 - 8)%Z with 8%Z in HS.
  replace (t * 2 ^ 8 <? 0)%Z with (t <? 0)%Z by (change (2 ^ 8)%Z with 256%Z; lia).
  apply HS. reflexivity.
Qed.

Lemma to_l_32 : forall t, is_real_takum 32 t -> exists l, codec_takum32_to_l t = Val l /\ isf l (l_ 32 t).
Proof.
  intros t Hr. pose proof (real_not_special 32 t Hr) as [N0 N1]. unfold codec_takum32_to_l. rewrite N0, N1.
  destruct (decode_bits 32 t ltac:(lia) (proj1 Hr)) as (DR & y & El & HD & Hy & Hinp & Hc & HM).
  change (32 - 16)%Z with 16%Z in *.
  unfold shr_u, guard. change ((0 <=? 16) && (16 <? 32))%Z with true. cbv beta iota delta [bind fst snd].
  rewrite to_u_small by assumption. rewrite Hc.
  pose proof (regZ_bounds DR HD) as Hrg. unfold shl_u, guard.
  replace ((0 <=? 5 + regZ DR) && (5 + regZ DR <? 32))%Z with true by lia.
  eexists. split; [reflexivity|]. unfold to_u at 1. rewrite HM.
  rewrite (l_cpm 32 ltac:(lia) t Hr), El.
  pose proof (signed_cpm_isf f64 (t <? 0)%Z 32 DR y 0 ltac:(lia) ltac:(simpl; lia) HD Hy ltac:(lia)) as HS.
  rewrite Z.pow_0_r, Z.div_1_r, Z.mod_1_r in HS. apply HS. reflexivity.
Qed.

Lemma to_l_64 : forall pf t, (64 <= fprec (ld pf))%Z -> is_real_takum 64 t ->
  exists l, codec_takum64_to_l pf t = Val l /\ isf l (l_ 64 t).
Proof.
  intros pf t Hpf Hr. pose proof (real_not_special 64 t Hr) as [N0 N1]. unfold codec_takum64_to_l. rewrite N0, N1.
  replace (fprec (ld pf) <? 64)%Z with false by lia.
  destruct (decode_bits 64 t ltac:(lia) (proj1 Hr)) as (DR & y & El & HD & Hy & Hinp & Hc & HM).
  change (64 - 16)%Z with 48%Z in *.
  unfold shr_u, guard. change ((0 <=? 48) && (48 <? 64))%Z with true. cbv beta iota delta [bind fst snd].
  rewrite to_u_small by assumption. rewrite Hc.
  pose proof (regZ_bounds DR HD) as Hrg. unfold shl_u, guard.
  replace ((0 <=? 5 + regZ DR) && (5 + regZ DR <? 64))%Z with true by lia.
  eexists. split; [reflexivity|]. unfold to_u at 1. rewrite HM.
  rewrite (l_cpm 64 ltac:(lia) t Hr), El.
  pose proof (signed_cpm_isf (ld pf) (t <? 0)%Z 64 DR y 0 ltac:(lia) Hpf HD Hy ltac:(lia)) as HS.
  rewrite Z.pow_0_r, Z.div_1_r, Z.mod_1_r in HS. apply HS. reflexivity.
Qed.
