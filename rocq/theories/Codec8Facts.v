(** The 8-bit encoder: rounding twice (to 32 and to 8 bits) is harmless for
    arguments of type float. *)
From Coq Require Import ZArith Reals Bool Lia Lra List.
From Flocq Require Import Core.Core IEEE754.BinarySingleNaN.
From Verif Require Import CModel FloatModel WidthConv Codec Spec CodeFacts SpecFacts ValueFacts RoundFacts
  WidthFacts WidthProps FloatFacts DecodeFacts EncodeFacts PhiFacts.
Local Open Scope R_scope.

(** |y| in units: a number of the format is a multiple of 2^(k - prec + 1) when |y| >= 2^k *)
Lemma FF_multiple : forall F y k, FF F y -> bpow radix2 k <= Rabs y ->
  exists z, y = IZR z * bpow radix2 (k - fprec F + 1).
Proof.
  intros F y k HF Hk. apply FF_inv in HF as (m & e & Hm & He & ->).
  assert (0 <= fprec F)%Z as Hp0 by (pose proof (fmt_pos F); lia).
  assert (k - fprec F + 1 <= e)%Z as Hle.
  { assert (bpow radix2 k < bpow radix2 (fprec F + e)) as K.
    { eapply Rle_lt_trans; [exact Hk|]. rewrite Rabs_mult, (Rabs_pos_eq (bpow radix2 e)) by apply bpow_ge_0.
      rewrite bpow_plus. apply Rmult_lt_compat_r; [apply bpow_gt_0|].
      rewrite <- abs_IZR, <- IZR_pow2 by assumption. apply IZR_lt. assumption. }
    apply lt_bpow in K. lia. }
  exists (m * 2 ^ (e - (k - fprec F + 1)))%Z.
  rewrite mult_IZR, IZR_pow2 by lia. rewrite Rmult_assoc, <- bpow_plus. f_equal. f_equal. lia.
Qed.

Lemma reg_abs : forall y, -255 <= y < 255 -> IZR (2 ^ regZ (DRof (Zfloor y))) - 1 <= Rabs y.
Proof.
  intros y Hy. assert (-255 <= Zfloor y < 255)%Z as Hf.
  { split; [apply Zfloor_lub; lra|]. apply lt_IZR. pose proof (Zfloor_lb y). lra. }
  destruct (DRof_spec (Zfloor y) Hf) as [HD [H1 H2]]. set (DR := DRof (Zfloor y)) in *.
  pose proof (Zfloor_lb y). pose proof (Zfloor_ub y).
  assert (DR < 8 /\ biasZ (DR + 1) = - 2 ^ regZ DR + 1 \/ 8 <= DR /\ biasZ DR = 2 ^ regZ DR - 1)%Z as [[K E]|[K E]].
  { clearbody DR. clear - HD. case_DR HD; subst; vm_compute; intuition (try discriminate). }
  - rewrite E in H2. assert (IZR (Zfloor y) + 1 <= IZR (- 2 ^ regZ DR + 1)) as K2 by (rewrite <- plus_IZR; apply IZR_le; lia).
    rewrite plus_IZR, opp_IZR in K2. unfold Rabs. destruct Rcase_abs; lra.
  - rewrite E in H1. assert (IZR (2 ^ regZ DR - 1) <= IZR (Zfloor y)) as K2 by (apply IZR_le; lia).
    rewrite minus_IZR in K2. unfold Rabs. destruct Rcase_abs; lra.
Qed.

(** floats of magnitude at least 1/16 are 32-bit takum coordinates *)
Lemma float_on_grid32 : forall y, FF f32 y -> / 16 <= Rabs y -> -255 <= y < 255 ->
  exists u, (0 <= u < 2 ^ 31)%Z /\ y = cpm 32 u.
Proof.
  intros y HF H16 Hy. assert (y <> 0) as Hy0 by (intros ->; rewrite Rabs_R0 in H16; lra).
  destruct (mag radix2 y) as [k Hk]. specialize (Hk Hy0).
  destruct (FF_multiple f32 y (k - 1) HF (proj1 Hk)) as [z Hz]. simpl fprec in Hz.
  assert (-4 < k)%Z as Hk4.
  { assert (bpow radix2 (-4) < bpow radix2 k) as K by (simpl (bpow radix2 (-4)); lra). apply lt_bpow in K. assumption. }
  pose proof (reg_abs y Hy) as Hr. set (r := regZ (DRof (Zfloor y))) in *.
  assert (0 <= r <= 7)%Z as Hr7.
  { apply regZ_bounds. apply DRof_spec. split; [apply Zfloor_lub; lra|]. apply lt_IZR. pose proof (Zfloor_lb y). lra. }
  assert (r <= k + 3)%Z as Hrk.
  { destruct (Z.le_gt_cases r 0) as [|Hr0]; [lia|].
    assert (bpow radix2 (r - 1) < bpow radix2 k) as K.
    { rewrite IZR_pow2 in Hr by lia. eapply Rle_lt_trans; [|apply Hk].
      replace r with (r - 1 + 1)%Z in Hr at 1 by lia. rewrite bpow_plus in Hr. change (bpow radix2 1) with 2 in Hr.
      assert (1 <= bpow radix2 (r - 1)) by (change 1 with (bpow radix2 0); apply bpow_le; lia). lra. }
    apply lt_bpow in K. lia. }
  assert (y * bpow radix2 (32 - 5 - r) = IZR (z * 2 ^ (k - 1 - 24 + 1 + (32 - 5 - r)))) as Eg.
  { rewrite Hz at 1. rewrite Rmult_assoc, <- bpow_plus, mult_IZR, IZR_pow2 by lia. reflexivity. }
  destruct (on_grid 32 y _ ltac:(lia) Hy Eg) as (u & Hu & Ey). exists u. split; assumption.
Qed.

Lemma cpm_center : forall n, (6 <= n <= 64)%Z -> cpm n (2 ^ (n - 2)) = 0.
Proof.
  intros n Hn. assert (cpm n (2 ^ (n - 1) - 2 ^ (n - 2)) = - cpm n (2 ^ (n - 2))) as H.
  { apply cpm_opp; [assumption|]. split; [apply pow2_pos; lia|]. apply Z.pow_lt_mono_r; lia. }
  replace (2 ^ (n - 1) - 2 ^ (n - 2))%Z with (2 ^ (n - 2))%Z in H; [lra|].
  replace (n - 1)%Z with (Z.succ (n - 2)) by lia. rewrite Z.pow_succ_r by lia. lia.
Qed.

(** everything nearer to 0 than 1/16 rounds to the 8-bit code of 0 *)
Lemma enc8_small : forall x, Rabs x <= / 16 -> enc 8 x = 64%Z.
Proof.
  assert (enc 8 (/ 16) = 64%Z) as H1.
  { apply (nearestU_unique 8 ltac:(lia) (/ 16)); [apply enc_nearestU; lia|].
    split; [lia|]. intros u' Hu'. change (2 ^ (8 - 1))%Z with 128%Z in Hu'.
    assert (cpm 8 64 = 0) as E64 by (apply (cpm_center 8); lia).
    assert (cpm 8 65 = / 8) as E65.
    { change 65%Z with (8 * 2 ^ (8 - 5) + 1)%Z. rewrite cpm_affine by (simpl; lia).
      change (biasZ 8) with 0%Z. change (regZ 8) with 0%Z. simpl. lra. }
    rewrite E64. split; [|auto].
    destruct (Z.le_gt_cases u' 64) as [K|K].
    - assert (cpm 8 u' <= cpm 8 64) by (apply cpm_le; simpl; lia). rewrite !Rabs_left1; lra.
    - assert (cpm 8 65 <= cpm 8 u') by (apply cpm_le; simpl; lia).
      rewrite Rabs_left1, Rabs_pos_eq; lra. }
  intros x Hx. assert (enc 8 (- / 16) = 64%Z) as H2 by (rewrite enc_opp, H1 by lia; reflexivity).
  apply Rabs_le_inv in Hx.
  assert (enc 8 x <= 64)%Z by (rewrite <- H1; apply enc_mono; [lia|lra]).
  assert (64 <= enc 8 x)%Z by (rewrite <- H2; apply enc_mono; [lia|lra]). lia.
Qed.

Lemma enc8_via_32 : forall y, FF f32 y -> enc 8 (cpm 32 (enc 32 (phi f80 y))) = enc 8 y.
Proof.
  intros y HF.
  assert (forall u, (0 < u < 2 ^ 31)%Z -> phi f80 (cpm 32 u) = cpm 32 u) as Hphi.
  { intros u Hu. apply phi_cpm; [auto|simpl; lia|simpl; lia]. }
  assert (forall u, (0 < u < 2 ^ 31)%Z -> enc 32 (cpm 32 u) = u) as Henc.
  { intros u Hu. apply enc_cpm; [lia|simpl; lia]. }
  (* monotone, with explicit bounds *)
  assert (forall u, (0 < u < 2 ^ 31)%Z -> y <= cpm 32 u -> cpm 32 (enc 32 (phi f80 y)) <= cpm 32 u) as Hup.
  { intros u Hu K. pose proof (enc_range 32 ltac:(lia) (phi f80 y)) as Hr. apply cpm_le; [lia| |simpl; lia].
    split; [lia|]. rewrite <- (Henc u Hu). apply enc_mono; [lia|]. rewrite <- (Hphi u Hu). apply phi_mono. assumption. }
  assert (forall u, (0 < u < 2 ^ 31)%Z -> cpm 32 u <= y -> cpm 32 u <= cpm 32 (enc 32 (phi f80 y))) as Hdn.
  { intros u Hu K. pose proof (enc_range 32 ltac:(lia) (phi f80 y)) as Hr. apply cpm_le; [lia| |simpl in *; lia].
    split; [lia|]. rewrite <- (Henc u Hu) at 1. apply enc_mono; [lia|]. rewrite <- (Hphi u Hu). apply phi_mono. assumption. }
  assert (forall u8, (0 <= u8 < 128)%Z -> cpm 8 u8 = cpm 32 (u8 * 2 ^ 24)) as H832.
  { intros u8 Hu. unfold cpm. f_equal. f_equal. symmetry. apply (Xn_mul 8 32). lia. }
  destruct (Rle_lt_dec (/ 16) (Rabs y)) as [K|K].
  - destruct (Rlt_le_dec y (-255)) as [L|L]; [|destruct (Rlt_le_dec y 255) as [L'|L']].
    + (* saturation *)
      assert (cpm 8 1 = cpm 32 (2 ^ 24)) as E1 by (rewrite H832 by lia; reflexivity).
      pose proof (cpm_bounds 8 ltac:(lia) 1 ltac:(simpl; lia)) as Hb.
      assert (cpm 32 (enc 32 (phi f80 y)) <= cpm 8 1) as K1 by (rewrite E1; apply Hup; [lia|lra]).
      pose proof (enc_bounds 8 ltac:(lia) (cpm 32 (enc 32 (phi f80 y)))). pose proof (enc_bounds 8 ltac:(lia) y).
      apply (enc_mono 8 ltac:(lia)) in K1. rewrite enc_cpm in K1 by (simpl; lia).
      assert (enc 8 y <= enc 8 (cpm 8 1))%Z as K2 by (apply enc_mono; [lia|lra]). rewrite enc_cpm in K2 by (simpl; lia). lia.
    + destruct (float_on_grid32 y HF K ltac:(lra)) as (u & Hu & Ey).
      destruct (Z.eq_dec u 0) as [->|Hu0].
      * (* y = -255 *)
        assert (cpm 8 1 = cpm 32 (2 ^ 24)) as E1 by (rewrite H832 by lia; reflexivity).
        assert (y <= cpm 8 1) as K0. { rewrite Ey, E1. apply cpm_le; simpl; lia. }
        assert (cpm 32 (enc 32 (phi f80 y)) <= cpm 8 1) as K1 by (rewrite E1; apply Hup; [lia|lra]).
        pose proof (enc_bounds 8 ltac:(lia) (cpm 32 (enc 32 (phi f80 y)))). pose proof (enc_bounds 8 ltac:(lia) y).
        apply (enc_mono 8 ltac:(lia)) in K1. rewrite enc_cpm in K1 by (simpl; lia).
        assert (enc 8 y <= enc 8 (cpm 8 1))%Z as K2 by (apply enc_mono; [lia|lra]). rewrite enc_cpm in K2 by (simpl; lia). lia.
      * rewrite Ey, Hphi, Henc by lia. reflexivity.
    + assert (cpm 8 127 = cpm 32 (127 * 2 ^ 24)) as E1 by (rewrite H832 by lia; reflexivity).
      pose proof (cpm_bounds 8 ltac:(lia) 127 ltac:(simpl; lia)) as Hb.
      assert (cpm 8 127 <= cpm 32 (enc 32 (phi f80 y))) as K1 by (rewrite E1; apply Hdn; [lia|lra]).
      pose proof (enc_bounds 8 ltac:(lia) (cpm 32 (enc 32 (phi f80 y)))). pose proof (enc_bounds 8 ltac:(lia) y).
      change (umax 8) with 127%Z in *.
      apply (enc_mono 8 ltac:(lia)) in K1. rewrite enc_cpm in K1 by (simpl; lia).
      assert (enc 8 (cpm 8 127) <= enc 8 y)%Z as K2 by (apply enc_mono; [lia|lra]). rewrite enc_cpm in K2 by (simpl; lia). lia.
  - rewrite (enc8_small y) by lra. apply enc8_small.
    assert (forall u, u = 2^30 + 2 ^ 23 -> cpm 32 u = / 16)%Z as E1.
    { intros u ->. change (2^30 + 2 ^ 23)%Z with (8 * 2 ^ (32 - 5) + 2 ^ 23)%Z. rewrite cpm_affine by (simpl; lia).
      change (biasZ 8) with 0%Z. change (regZ 8) with 0%Z. rewrite IZR_pow2 by lia.
      rewrite <- bpow_plus. simpl. lra. }
    assert (cpm 32 (2 ^ 31 - (2^30 + 2 ^ 23)) = - / 16) as E2.
    { rewrite <- (E1 _ eq_refl). apply (cpm_opp 32); [lia|simpl; lia]. }
    apply Rabs_lt_inv in K. apply Rabs_le. split.
    + rewrite <- E2. apply Hdn; [lia|]. rewrite E2. lra.
    + rewrite <- (E1 _ eq_refl). apply Hup; [lia|]. rewrite (E1 _ eq_refl). lra.
Qed.

Lemma codec8_eq : forall s (l : flt f32) x, isf l x ->
  codec_takum8_from_s_and_l x86_64 s l = Val (asm 8 s (enc 8 ((if s then -1 else 1) * x))).
Proof.
  intros s l x Hl. unfold codec_takum8_from_s_and_l.
  assert (isf (fcast (ld x86_64) l) x) as Hl' by (apply isf_fcast_up; [split; simpl; lia|assumption]).
  rewrite (codec32_eq s _ x Hl'). cbv beta iota delta [bind].
  set (y := (if s then -1 else 1) * x).
  assert (FF f32 y) as HF.
  { pose proof (isf_FF _ _ _ Hl). unfold y. destruct s; [|rewrite Rmult_1_l; assumption].
    replace (-1 * x) with (- x) by ring. apply FF_opp. assumption. }
  pose proof (enc_range 32 ltac:(lia) (phi f80 y)) as Hr.
  unfold takum8_from_takum32. rewrite reduce_eq; [|unfold std_width; auto|unfold std_width; auto|lia|apply asm_real; assumption].
  rewrite asm_neg, low_asm by lia. rewrite enc8_via_32 by assumption. reflexivity.
Qed.
