(** What the encoders compute. *)
From Coq Require Import ZArith Reals Bool Lia Lra List.
From Flocq Require Import Core.Core IEEE754.BinarySingleNaN.
From Verif Require Import CModel FloatModel WidthConv Codec Spec CodeFacts SpecFacts ValueFacts RoundFacts
  WidthFacts FloatFacts DecodeFacts.
Local Open Scope Z_scope.

(** ** Rounding of fractions *)

Lemma lor_add : forall a b k, 0 <= k -> 0 <= a < 2 ^ k -> Z.lor (b * 2 ^ k) a = b * 2 ^ k + a.
Proof.
  intros a b k Hk Ha.
  assert (Z.land (b * 2 ^ k) a = 0) as HL.
  { apply Z.bits_inj'. intros i Hi. rewrite Z.land_spec, Z.bits_0.
    destruct (Z.lt_ge_cases i k).
    - rewrite Z.mul_pow2_bits_low by assumption. reflexivity.
    - rewrite <- (Z.mod_small a (2 ^ k)) by assumption. rewrite Z.mod_pow2_bits_high by lia. apply andb_false_r. }
  rewrite <- Z.lxor_lor by assumption. symmetry. apply Z.add_nocarry_lxor. assumption.
Qed.

Local Open Scope R_scope.

(** the finite nonzero numbers of a format: normalised or tiny *)
Lemma finite_mag : forall f s m e H, let x := (B754_finite s m e H : flt f) in
  (2 ^ (fprec f - 1) <= Zpos m < 2 ^ fprec f /\ (mag radix2 (B2R x) : Z) = fprec f + e)%Z \/
  (Zpos m < 2 ^ (fprec f - 1) /\ e = femin f /\ (mag radix2 (B2R x) < fprec f + e))%Z.
Proof.
  intros f s m e H x. pose proof (fmt_pos f) as (P1 & P2 & P3).
  unfold SpecFloat.bounded in H. pose proof H as H'. apply andb_prop in H' as [Hc _].
  unfold SpecFloat.canonical_mantissa in Hc. apply Zeq_bool_eq in Hc.
  assert ((mag radix2 (B2R x) : Z) = Digits.Zdigits radix2 (Zpos m) + e)%Z as Em.
  { unfold x, B2R. rewrite mag_F2R by (destruct s; discriminate).
    f_equal. rewrite <- Zdigits_mag by (destruct s; discriminate).
    destruct s; [apply (Digits.Zdigits_abs radix2 (Z.neg m))|reflexivity]. }
  rewrite Digits.Zpos_digits2_pos in Hc. 
  pose proof (Digits.Zdigits_correct radix2 (Zpos m)) as Hd. simpl Z.abs in Hd.
  set (d := Digits.Zdigits radix2 (Zpos m)) in *.
  assert (0 < d)%Z as Hd0 by (apply Digits.Zdigits_gt_0; discriminate).
  unfold SpecFloat.fexp, SpecFloat.emin in Hc. unfold femin.
  change (radix2 ^ (d - 1) <= Z.pos m < radix2 ^ d)%Z with (2 ^ (d - 1) <= Z.pos m < 2 ^ d)%Z in Hd.
  destruct (Z.eq_dec d (fprec f)) as [Hp|Hp].
  - left. rewrite Em, <- Hp. split; [assumption|reflexivity].
  - right. assert (d < fprec f)%Z by lia. repeat split; [|lia|lia].
    apply Z.lt_le_trans with (2 ^ d)%Z; [apply Hd|]. apply Z.pow_le_mono_r; lia.
Qed.

Lemma Zfloor_div : forall a k, (0 <= k)%Z -> Zfloor (IZR a * bpow radix2 (- k)) = (a / 2 ^ k)%Z.
Proof.
  intros a k Hk. rewrite bpow_opp, <- IZR_pow2 by assumption.
  apply Zfloor_div. pose proof (pow2_pos k Hk). lia.
Qed.

Lemma Zfloor_small : forall r, 0 <= r < 1 -> Zfloor r = 0%Z.
Proof. intros r H. apply Zfloor_imp. simpl. lra. Qed.

Lemma mag_lt_1 : forall r, 0 < r < 1 -> (mag radix2 r <= 0)%Z.
Proof.
  intros r H. apply mag_le_bpow; [lra|]. rewrite Rabs_pos_eq by lra. simpl. lra.
Qed.

Lemma floor64_bounds : forall r, 0 <= r < 1 -> (0 <= Zfloor (r * bpow radix2 64) < 2 ^ 64)%Z.
Proof.
  intros r H. pose proof (bpow_gt_0 radix2 64). split.
  - apply Zfloor_lub. simpl. nra.
  - apply lt_IZR. eapply Rle_lt_trans; [apply Zfloor_lb|]. rewrite IZR_pow2 by lia. nra.
Qed.

Lemma tiny_floor64 : forall r, 0 < r < 1 -> (mag radix2 r <= -64)%Z -> Zfloor (r * bpow radix2 64) = 0%Z.
Proof.
  intros r H Hm. apply Zfloor_small. split; [pose proof (bpow_gt_0 radix2 64); nra|].
  destruct (mag radix2 r) as [q Hq]. simpl in Hm. specialize (Hq ltac:(lra)). rewrite Rabs_pos_eq in Hq by lra.
  apply Rlt_le_trans with (bpow radix2 q * bpow radix2 64).
  - apply Rmult_lt_compat_r; [apply bpow_gt_0|apply Hq].
  - rewrite <- bpow_plus. change 1 with (bpow radix2 0). apply bpow_le. lia.
Qed.

Lemma rne_0 : forall d, (0 <= d)%Z -> rne 0 d = 0%Z.
Proof. intros d Hd. apply (rne_exact 0 d Hd). Qed.

Lemma frac64_eq : forall (m : flt f64) r p, isf m r -> 0 <= r < 1 -> (1 <= p < 64)%Z ->
  float64_fraction_to_rounded_bits m p = Val (rne (Zfloor (r * bpow radix2 64)) (64 - p)).
Proof.
  intros m r p Hm Hr Hp. unfold float64_fraction_to_rounded_bits.
  rewrite (feq_isf m (fzero f64) r 0 Hm (isf_zero _)).
  destruct (Req_bool_spec r 0) as [->|Hne].
  { rewrite orb_true_l. rewrite Rmult_0_l, Zfloor_IZR, rne_0 by lia. reflexivity. }
  replace (p =? 0)%Z with false by lia. rewrite orb_false_l.
  destruct (ffrexp_isf f64 m r Hm Hne) as [_ Hq]. rewrite Hq.
  pose proof (mag_lt_1 r ltac:(lra)) as Hmag.
  pose proof (floor64_bounds r Hr) as Hfl.
  set (F0 := Z.lor (Z.land (image m) (2 ^ 52 - 1)) (2 ^ 52)).
  unfold shl_u at 1, guard. change ((0 <=? 12 - 1) && (12 - 1 <? 64))%Z with true. cbv beta iota delta [bind].
  destruct (Z.ltb_spec (- mag radix2 r) 64) as [Hlt|Hge].
  - assert (to_u 64 (F0 * 2 ^ (12 - 1)) / 2 ^ (- mag radix2 r) = Zfloor (r * bpow radix2 64))%Z as EF.
    { destruct Hm as [Fm Em]. destruct m as [| | |s m e He]; try discriminate; [simpl in Em; congruence|].
      assert (r = IZR (cond_Zopp s (Zpos m)) * bpow radix2 e) as Er by (rewrite <- Em; reflexivity).
      destruct (finite_mag f64 s m e He) as [[H1 H2]|(H1 & H2 & H3)].
      - rewrite Em in H2. simpl fprec in *.
        change (53 - 1)%Z with 52%Z in H1.
        assert (F0 = Zpos m) as EF0.
        { unfold F0. unfold image. simpl fprec. change (53 - 1)%Z with 52%Z.
          replace (2 ^ 52 <=? Z.pos m)%Z with true by lia.
          unfold frac_bits. simpl fprec. change (53 - 1)%Z with 52%Z.
          replace (2 ^ 52 - 1)%Z with (Z.ones 52) by reflexivity. rewrite Z.land_ones by lia.
          rewrite Z.add_0_r.
          replace (b2z s * 2 ^ (exp_bits f64 + 52) + (e - SpecFloat.emin 53 (femax f64) + 1) * 2 ^ 52 + (Z.pos m - 2 ^ 52))%Z
            with ((Z.pos m - 2 ^ 52) + (b2z s * 2 ^ exp_bits f64 + (e - SpecFloat.emin 53 (femax f64) + 1)) * 2 ^ 52)%Z.
          2:{ rewrite (Z.pow_add_r 2 (exp_bits f64) 52) by (simpl; lia). ring. }
          rewrite Z.mod_add by lia. rewrite Z.mod_small by lia.
          rewrite Z.lor_comm. rewrite <- (Z.mul_1_l (2 ^ 52)) at 1. rewrite lor_add by lia. lia. }
        rewrite EF0. change (12 - 1)%Z with 11%Z. unfold to_u. rewrite Z.mod_small by lia.
        rewrite <- Zfloor_div by lia. f_equal. rewrite mult_IZR, IZR_pow2 by lia.
        rewrite Rmult_assoc, <- bpow_plus. rewrite H2, Er.
        assert (s = false) as ->.
        { destruct s; [|reflexivity]. exfalso. pose proof (bpow_gt_0 radix2 e).
          assert (IZR (cond_Zopp true (Z.pos m)) < 0) by (apply IZR_lt; reflexivity). nra. }
        simpl cond_Zopp. rewrite Rmult_assoc, <- bpow_plus. f_equal. f_equal. lia.
      - exfalso. rewrite Em in H3. subst e. unfold femin in H3. simpl in H3. lia. }
    unfold shr_u, guard. replace ((0 <=? - mag radix2 r) && (- mag radix2 r <? 64))%Z with true by lia.
    rewrite EF. apply util_round_eq; [unfold std_width; auto|lia|assumption].
  - rewrite (tiny_floor64 r) by (lra || lia). apply util_round_eq; [unfold std_width; auto|lia|lia].
Qed.

Lemma frac80_eq : forall (m : flt f80) r p, isf m r -> 0 <= r < 1 -> (1 <= p < 64)%Z ->
  extended_float_fraction_to_rounded_bits x86_64 m p = Val (rne (Zfloor (r * bpow radix2 64)) (64 - p)).
Proof.
  intros m r p Hm Hr Hp. unfold extended_float_fraction_to_rounded_bits. simpl (ld x86_64).
  rewrite (feq_isf m (fzero f80) r 0 Hm (isf_zero _)).
  destruct (Req_bool_spec r 0) as [->|Hne].
  { rewrite orb_true_l. rewrite Rmult_0_l, Zfloor_IZR, rne_0 by lia. reflexivity. }
  replace (p =? 0)%Z with false by lia. rewrite orb_false_l.
  destruct (ffrexp_isf f80 m r Hm Hne) as [_ Hq]. rewrite Hq.
  pose proof (mag_lt_1 r ltac:(lra)) as Hmag.
  pose proof (floor64_bounds r Hr) as Hfl.
  cbv beta iota zeta delta [fst snd].
  destruct (Z.ltb_spec (- mag radix2 r) 64) as [Hlt|Hge].
  - assert (ld_fraction_member x86_64 m / 2 ^ (- mag radix2 r) = Zfloor (r * bpow radix2 64))%Z as EF.
    { destruct Hm as [Fm Em]. destruct m as [| | |s m e He]; try discriminate; [simpl in Em; congruence|].
      assert (r = IZR (cond_Zopp s (Zpos m)) * bpow radix2 e) as Er by (rewrite <- Em; reflexivity).
      destruct (finite_mag f80 s m e He) as [[H1 H2]|(H1 & H2 & H3)].
      - rewrite Em in H2. simpl fprec in *. change (64 - 1)%Z with 63%Z in H1.
        assert (ld_fraction_member x86_64 (B754_finite s m e He : flt f80) = Zpos m) as EF0.
        { unfold ld_fraction_member. simpl (ld x86_64). cbv beta iota. simpl (big_endian_struct x86_64). cbv iota.
          rewrite Z.pow_0_r, Z.div_1_r. unfold image. simpl fprec. change (64 - 1)%Z with 63%Z.
          replace (2 ^ 63 <=? Z.pos m)%Z with true by lia. unfold frac_bits. cbv iota zeta.
          unfold to_u.
          replace (b2z s * 2 ^ (exp_bits f80 + 64) + (e - SpecFloat.emin 64 (femax f80) + 1) * 2 ^ 64 + (Z.pos m - 2 ^ 63 + 2 ^ 63))%Z
            with (Z.pos m + (b2z s * 2 ^ exp_bits f80 + (e - SpecFloat.emin 64 (femax f80) + 1)) * 2 ^ 64)%Z.
          2:{ rewrite (Z.pow_add_r 2 (exp_bits f80) 64) by (simpl; lia). ring. }
          rewrite Z.mod_add by lia. apply Z.mod_small. lia. }
        rewrite EF0.
        rewrite <- Zfloor_div by lia. f_equal. rewrite H2, Er.
        assert (s = false) as ->.
        { destruct s; [|reflexivity]. exfalso. pose proof (bpow_gt_0 radix2 e).
          assert (IZR (cond_Zopp true (Z.pos m)) < 0) by (apply IZR_lt; reflexivity). nra. }
        simpl cond_Zopp. rewrite Rmult_assoc, <- bpow_plus. f_equal. f_equal. lia.
      - exfalso. rewrite Em in H3. subst e. unfold femin in H3. simpl in H3. lia. }
    unfold shr_u, guard. replace ((0 <=? - mag radix2 r) && (- mag radix2 r <? 64))%Z with true by lia.
    cbv beta iota delta [bind].
    rewrite EF. apply util_round_eq; [unfold std_width; auto|lia|assumption].
  - rewrite (tiny_floor64 r) by (lra || lia). cbv beta iota delta [bind]. apply util_round_eq; [unfold std_width; auto|lia|lia].
Qed.

(** ** Direction and regime from the characteristic *)
Lemma get_DR_eq : forall c, (-255 <= c <= 254)%Z -> get_DR_from_c c = Val (DRof c).
Proof.
  assert (forallb (fun i => match get_DR_from_c (Z.of_nat i - 255) with
                            | Val d => Z.eqb d (DRof (Z.of_nat i - 255)) | UB => false end) (seq 0 510) = true) as H
    by (vm_compute; reflexivity).
  intros c Hc. rewrite forallb_forall in H. specialize (H (Z.to_nat (c + 255))).
  assert (In (Z.to_nat (c + 255)) (seq 0 510)) as HI by (apply in_seq; lia).
  specialize (H HI). rewrite Z2Nat.id in H by lia. replace (c + 255 - 255)%Z with c in H by lia.
  destruct (get_DR_from_c c) as [d|]; [|discriminate]. apply Z.eqb_eq in H. congruence.
Qed.

(** ** Assembling the bit pattern *)
Definition frac_ok {F} (frac : flt F -> Z -> outcome Z) : Prop :=
  forall m r p, isf m r -> 0 <= r < 1 -> (1 <= p < 64)%Z ->
    frac m p = Val (rne (Zfloor (r * bpow radix2 64)) (64 - p)).

Lemma assemble_eq : forall F n frac s c (m : flt F) r, (n = 16 \/ n = 32 \/ n = 64)%Z -> frac_ok frac ->
  isf m r -> 0 <= r < 1 -> (-255 <= c <= 254)%Z ->
  let x := IZR c + IZR (Zfloor (r * bpow radix2 64)) * bpow radix2 (-64) in
  cpm n 1 <= x <= cpm n (umax n) ->
  encode_assemble n (n - 16) frac s c m = Val (asm n s (enc n x)).
Proof.
  intros F n frac s c m r Hn Hfrac Hm Hr Hc x Hx.
  assert (16 <= n <= 64)%Z as Hn' by lia.
  assert (std_width n) as Hstd by (unfold std_width; lia).
  pose proof (floor64_bounds r Hr) as Hfl. set (Fz := Zfloor (r * bpow radix2 64)) in *.
  unfold encode_assemble. rewrite get_DR_eq by assumption. cbv beta iota delta [bind].
  destruct (DRof_spec c ltac:(lia)) as [HD Hcb]. set (DR := DRof c) in *.
  rewrite lookup_p, lookup_bias by assumption. cbv beta iota delta [bind].
  pose proof (regZ_bounds DR HD) as Hreg. rewrite bias_step in Hcb by assumption.
  set (p := (11 - regZ DR + (n - 16))%Z).
  assert (4 <= p < 64)%Z as Hp by (unfold p; lia).
  rewrite (Hfrac m r p Hm Hr) by lia. cbv beta iota delta [bind]. fold Fz.
  set (M := rne Fz (64 - p)).
  pose proof (pow2_pos p ltac:(lia)) as Hpp. pose proof (pow2_pos (n - 5) ltac:(lia)) as Hn5.
  assert (2 ^ (n - 1) = 16 * 2 ^ (n - 5))%Z as E1.
  { change 16%Z with (2 ^ 4)%Z. rewrite <- pow2_split by lia. f_equal. lia. }
  assert (2 ^ n = 32 * 2 ^ (n - 5))%Z as En.
  { change 32%Z with (2 ^ 5)%Z. rewrite <- pow2_split by lia. f_equal. lia. }
  assert (2 ^ (n - 5) = 2 ^ regZ DR * 2 ^ p)%Z as E5.
  { rewrite <- pow2_split by lia. f_equal. unfold p. lia. }
  set (k := (c - biasZ DR)%Z). assert (0 <= k < 2 ^ regZ DR)%Z as Hk by (unfold k; lia).
  pose proof (pow2_pos (regZ DR) ltac:(lia)) as Hrp.
  assert (0 <= M <= 2 ^ p)%Z as HM.
  { unfold M. split.
    - rewrite <- (rne_0 (64 - p)) by lia. apply rne_mono; lia.
    - rewrite <- (rne_exact (2 ^ p) (64 - p)) by lia. apply rne_mono; [lia|].
      rewrite <- pow2_split by lia. replace (p + (64 - p))%Z with 64%Z by lia. lia. }
  (* the rounded code *)
  assert (x = IZR c + IZR Fz * bpow radix2 (-64)) as Ex by reflexivity.
  assert (0 <= IZR Fz * bpow radix2 (-64) < 1) as HFz.
  { pose proof (bpow_gt_0 radix2 (-64)). split; [apply Rmult_le_pos; [apply IZR_le; lia|lra]|].
    replace 1 with (IZR (2 ^ 64) * bpow radix2 (-64)).
    - apply Rmult_lt_compat_r; [assumption|apply IZR_lt; lia].
    - rewrite IZR_pow2 by lia. rewrite <- bpow_plus. reflexivity. }
  assert (Zfloor x = c) as Efl by (apply Zfloor_imp; rewrite plus_IZR; lra).
  assert (-255 <= x < 255) as Hx255.
  { assert (-255 <= IZR c <= 254) by (split; apply IZR_le; lia). lra. }
  assert (G n x = IZR (DR * 2 ^ (n - 5) + k * 2 ^ p) + IZR Fz / IZR (2 ^ (64 - p))) as EG.
  { unfold G. cbv zeta. rewrite Efl. fold DR. replace (n - 5 - regZ DR)%Z with p by (unfold p; lia).
    rewrite plus_IZR, !mult_IZR. rewrite Rplus_assoc. f_equal.
    unfold k. rewrite minus_IZR, !IZR_pow2 by lia. rewrite Ex.
    replace (-64)%Z with (- p + - (64 - p))%Z by lia. rewrite bpow_plus, !bpow_opp.
    field. split; apply Rgt_not_eq, bpow_gt_0. }
  assert (ZnearestE (G n x) = DR * 2 ^ (n - 5) + k * 2 ^ p + M)%Z as ER.
  { rewrite EG. unfold M.
    replace (IZR (DR * 2 ^ (n - 5) + k * 2 ^ p) + IZR Fz / IZR (2 ^ (64 - p)))
      with (IZR (Fz + (DR * 2 ^ (n - 5) + k * 2 ^ p) * 2 ^ (64 - p)) / IZR (2 ^ (64 - p))).
    - fold (rne (Fz + (DR * 2 ^ (n - 5) + k * 2 ^ p) * 2 ^ (64 - p)) (64 - p)).
      rewrite rne_add; [lia|lia|]. rewrite Z.even_add, !Z.even_mul, !pow2_even by lia.
      rewrite !orb_true_r. reflexivity.
    - rewrite plus_IZR, mult_IZR. field. apply not_0_IZR. pose proof (pow2_pos (64 - p) ltac:(lia)). lia. }
  assert (enc n x = DR * 2 ^ (n - 5) + k * 2 ^ p + M)%Z as EE.
  { rewrite <- ER. rewrite enc_clamp by (lia || assumption).
    assert (1 <= ZnearestE (G n x) <= umax n)%Z; [|lia].
    assert (32 <= 2 ^ (n - 1))%Z by (apply two_pow_ge; lia).
    split.
    - rewrite <- (ZnearestE_IZR 1) at 1. apply ZnearestE_mono. rewrite <- (G_cpm n ltac:(lia) 1) by lia.
      destruct (proj1 Hx) as [K|K]; [|rewrite K; lra]. left. apply G_strict_mono; try lia; try lra.
      pose proof (cpm_bounds n ltac:(lia) 1 ltac:(lia)). lra.
    - rewrite <- (ZnearestE_IZR (umax n)). apply ZnearestE_mono. rewrite <- (G_cpm n ltac:(lia) (umax n)) by (unfold umax; lia).
      destruct (proj2 Hx) as [K|K]; [|rewrite <- K; lra]. left. apply G_strict_mono; try lia; try lra.
      pose proof (cpm_bounds n ltac:(lia) (umax n) ltac:(unfold umax; lia)). lra. }
  pose proof (enc_range n ltac:(lia) x) as Hrange. rewrite EE in *.
  (* the shifts *)
  assert (shl_promoted n (b2z s) (n - 1) = Val (b2z s * 2 ^ (n - 1))%Z) as S1.
  { destruct s; cbv [b2z].
    - rewrite shl_promoted_1 by (assumption || lia). f_equal. lia.
    - destruct Hn as [-> |[-> | ->]]; reflexivity. }
  assert (forall a j, (0 <= a)%Z -> (0 <= j < n)%Z -> (a * 2 ^ j < 2 ^ n)%Z -> shl_promoted n a j = Val (a * 2 ^ j)%Z) as S2.
  { intros a j Ha Hj Hlt. unfold shl_promoted, shl_int, shl_u, guard.
    pose proof (pow2_pos j ltac:(lia)).
    destruct (Z.ltb_spec n 32) as [Hlt'|Hge'].
    - assert (2 ^ n <= 2 ^ 31)%Z by (apply Z.pow_le_mono_r; lia).
      replace ((0 <=? j) && (j <? 32) && (0 <=? a) && (a * 2 ^ j <? 2 ^ 31))%Z with true by lia. reflexivity.
    - replace ((0 <=? j) && (j <? n))%Z with true by lia. rewrite to_u_small by nia. reflexivity. }
  rewrite S1. cbv beta iota delta [bind]. rewrite (S2 DR (n - 5)%Z) by nia. cbv beta iota delta [bind].
  fold k. 
  assert (2 ^ regZ DR <= 2 ^ (n - 5))%Z by nia.
  rewrite (to_u_small n k) by nia. rewrite (S2 k p) by nia. cbv beta iota delta [bind].
  assert (Z.lor (Z.lor (b2z s * 2 ^ (n - 1)) (DR * 2 ^ (n - 5))) (k * 2 ^ p)
          = b2z s * 2 ^ (n - 1) + DR * 2 ^ (n - 5) + k * 2 ^ p)%Z as EL.
  { rewrite (lor_add (DR * 2 ^ (n - 5)) (b2z s) (n - 1)) by nia.
    replace (b2z s * 2 ^ (n - 1) + DR * 2 ^ (n - 5))%Z with ((b2z s * 16 + DR) * 2 ^ (n - 5))%Z by (rewrite E1; ring).
    rewrite lor_add by nia. ring. }
  rewrite EL. rewrite (to_u_small n M) by nia. f_equal.
  set (u := (DR * 2 ^ (n - 5) + k * 2 ^ p + M)%Z) in *.
  replace (b2z s * 2 ^ (n - 1) + DR * 2 ^ (n - 5) + k * 2 ^ p + M)%Z with (asm n s u + b2z s * 2 ^ n)%Z.
  - unfold to_u. rewrite Z.mod_add by lia. apply to_s_to_u; [lia|]. apply asm_intn. lia.
  - unfold asm, u. rewrite En, E1. destruct s; cbv [b2z]; ring.
Qed.
