(** The conversion of long doubles to logarithmic takums is not odd. *)
From Coq Require Import ZArith Reals Bool Lia Lra.
From Flocq Require Import Core.Core IEEE754.BinarySingleNaN.
From Verif Require Import CModel FloatModel Libm LibmSpec Codec Conversion Spec CodeFacts SpecFacts ValueFacts RoundFacts WidthFacts WidthApi WidthProps FloatFacts FloatSym Machine RealBounds ConstFacts WrapApi LogConv.
Local Open Scope R_scope.

Lemma enc64_between : forall s (l lo hi : flt f80) x xl xh t, isf l x -> isf lo xl -> isf hi xh -> xl <= x <= xh ->
  codec_takum64_from_s_and_l x86_64 s lo = Val t -> codec_takum64_from_s_and_l x86_64 s hi = Val t ->
  codec_takum64_from_s_and_l x86_64 s l = Val t.
Proof.
  intros s l lo hi x xl xh t Hl Hlo Hhi B. pose proof mach64_ok as Hm.
  pose proof (mo_enc mach64 Hm s l x Hl) as E. pose proof (mo_enc mach64 Hm s lo xl Hlo) as E1. pose proof (mo_enc mach64 Hm s hi xh Hhi) as E2.
  cbn [m_n m_enc mach64] in E, E1, E2. rewrite E, E1, E2. intros K1 K2.
  assert (asm 64 s (enc 64 (m_psi mach64 (sg s * xl))) = t) as A1 by congruence. assert (asm 64 s (enc 64 (m_psi mach64 (sg s * xh))) = t) as A2 by congruence.
  clear E E1 E2 K1 K2. assert (sg s * xl <= sg s * x <= sg s * xh \/ sg s * xh <= sg s * x <= sg s * xl) as [[I1 I2]|[I1 I2]] by (unfold sg; destruct s; lra).
  all: apply (mo_psi_mono mach64 Hm) in I1, I2; apply (enc_mono 64) in I1, I2; try lia.
  all: f_equal; unfold asm in *; destruct s; lia.
Qed.

Definition ok_between (k e v d M1 M2 E : Z) : bool :=
  ((-900 <=? e) && (e <=? 0) && (0 <? v - d) && (0 <? k) && iexp_ok (pt v) && near_check (iexp (pt v)) k e d && (-190 <=? E) &&
  (M1 * 2 ^ (E + 190) <=? 2 * (v - d) * 2 ^ 62 - 2 * (v + d)) && (2 * (v + d) * 2 ^ 62 + 2 * (v + d) <=? M2 * 2 ^ (E + 190)) &&
  (k <=? 2 ^ 64) && (Z.abs M1 <=? 2 ^ 64) && (Z.abs M2 <=? 2 ^ 64) && (E <=? 0))%Z.

Lemma isf_f80 : forall m e, (Z.abs m <= 2 ^ 64)%Z -> (-1000 <= e <= 0)%Z -> isf (fconst f80 m e) (IZR m * bpow radix2 e).
Proof.
  intros m e Hm He. apply isf_fconst; [apply FF_dyadic; [exact Hm|unfold femin; simpl; lia]|].
  rewrite Rabs_mult, (Rabs_pos_eq (bpow _ _)) by apply bpow_ge_0. rewrite <- abs_IZR.
  apply Rle_lt_trans with (bpow radix2 64 * bpow radix2 0); [|rewrite <- bpow_plus; apply bpow_lt; simpl; lia].
  apply Rmult_le_compat; [apply (IZR_le 0); lia|apply bpow_ge_0| |apply bpow_le; lia]. rewrite <- IZR_pow2 by lia. apply IZR_le. exact Hm.
Qed.

Lemma log_between : forall lm k e v d M1 M2 E, c99 lm -> ok_between k e v d M1 M2 E = true ->
  exists L, isf (fmul (fint f80 2) (clog lm (fconst f80 k e))) L /\ IZR M1 * bpow radix2 E <= L <= IZR M2 * bpow radix2 E.
Proof.
  intros lm k e v d M1 M2 E C H. unfold ok_between in H. do 10 (apply andb_prop in H as [H ?]). apply andb_prop in H as [He H]. apply andb_prop in He as [He0 He]. apply Z.leb_le in He0, He.
  apply Z.ltb_lt in H, H9. apply Z.leb_le in H0, H1, H2, H3, H4, H5, H6.
  pose proof (near_check_ln (sc v) _ k e d H7 (iexp_in _ _ H8 (pt_sc _))) as N.
  set (a := IZR k * bpow radix2 e) in *. assert (isf (fconst f80 k e) a) as Ia by (apply isf_f80; lia).
  assert (0 < a) as Pa by (apply Rmult_lt_0_compat; [apply (IZR_lt 0); assumption|apply bpow_gt_0]).
  destruct (log_val lm f80 _ a C Ia Pa) as (L & HL & EL & _). exists L. split; [exact HL|].
  change (fprec f80) with 64%Z in EL. change (2 - 64)%Z with (-62)%Z in EL.
  assert (forall m, IZR m * bpow radix2 E = IZR (m * 2 ^ (E + 190)) * bpow radix2 (-190)) as EE.
  { intros m. rewrite mult_IZR, IZR_pow2 by lia. rewrite Rmult_assoc, <- bpow_plus. do 2 f_equal. lia. }
  assert (forall z, sc z = IZR (z * 2 ^ 62) * bpow radix2 (-190)) as ES.
  { intros z. unfold sc, PB. rewrite mult_IZR, IZR_pow2 by lia. rewrite Rmult_assoc, <- bpow_plus. reflexivity. }
  assert (forall z, bpow radix2 (-62) * sc z = IZR z * bpow radix2 (-190)) as ET.
  { intros z. unfold sc, PB. rewrite (Rmult_comm _ (_ * _)), Rmult_assoc, <- bpow_plus. reflexivity. }
  apply Rabs_le_inv in N. assert (sc (v - d) <= ln a <= sc (v + d)) as [N1 N2] by (unfold sc in *; rewrite plus_IZR, minus_IZR; lra).
  assert (0 < sc (v - d)) as P0 by (apply Rmult_lt_0_compat; [apply (IZR_lt 0); assumption|apply bpow_gt_0]).
  rewrite (Rabs_pos_eq (2 * ln a)) in EL by lra. apply Rabs_le_inv in EL. pose proof (bpow_gt_0 radix2 (-62)) as P62.
  assert (bpow radix2 (-62) * (2 * ln a) <= 2 * (bpow radix2 (-62) * sc (v + d))) as EL2 by nra. rewrite ET in EL2.
  assert (2 * sc (v - d) - 2 * (IZR (v + d) * bpow radix2 (-190)) <= L <= 2 * sc (v + d) + 2 * (IZR (v + d) * bpow radix2 (-190))) as [B1 B2] by lra.
  rewrite !ES in *. rewrite !EE. pose proof (bpow_gt_0 radix2 (-190)) as P190.
  split.
  - eapply Rle_trans; [|exact B1]. apply IZR_le in H5. rewrite minus_IZR, (mult_IZR 2 (v + d)), <- Z.mul_assoc, (mult_IZR 2 (_ * _)) in H5. 
    apply (Rmult_le_compat_r (bpow radix2 (-190))) in H5; [|lra]. lra.
  - eapply Rle_trans; [exact B2|]. apply IZR_le in H4. rewrite plus_IZR, (mult_IZR 2 (v + d)), <- Z.mul_assoc, (mult_IZR 2 (_ * _)) in H4.
    apply (Rmult_le_compat_r (bpow radix2 (-190))) in H4; [|lra]. lra.
Qed.

Lemma log64_at : forall lm k e v d M1 M2 E s t, c99 lm -> ok_between k e v d M1 M2 E = true ->
  codec_takum64_from_s_and_l x86_64 s (fconst f80 M1 E) = Val t -> codec_takum64_from_s_and_l x86_64 s (fconst f80 M2 E) = Val t ->
  codec_takum64_from_s_and_l x86_64 s (fmul (fint f80 2) (clog lm (fconst f80 k e))) = Val t.
Proof.
  intros lm k e v d M1 M2 E s t C H K1 K2. destruct (log_between lm k e v d M1 M2 E C H) as (L & HL & B).
  unfold ok_between in H. do 10 (apply andb_prop in H as [H ?]). apply andb_prop in H as [He H]. apply andb_prop in He as [He0 He]. apply Z.leb_le in He0, He. apply Z.leb_le in H0, H1, H2, H6.
  eapply enc64_between; [exact HL|apply isf_f80|apply isf_f80|exact B|exact K1|exact K2]; lia.
Qed.

Lemma odd64_ok : ok_between 9223372036854775820 (-63) 442721857769029238496 128 13835058055282163695 13835058055282163711 (-122) = true.
Proof. vm_compute. reflexivity. Qed.
Lemma odd64_enc : forall lm s, c99 lm -> codec_takum64_from_s_and_l x86_64 s (fmul (fint f80 2) (clog lm (fconst f80 9223372036854775820 (-63)))) = Val (if s then -4611686018427387906 else 4611686018427387905)%Z.
Proof. intros lm s C. apply (log64_at lm _ _ _ _ _ _ _ _ _ C odd64_ok); destruct s; vm_compute; reflexivity. Qed.

Lemma odd32_ok : ok_between 9223372088394383500 (-63) 1901475900194770140584407505119 128 13835058054208421813 13835058054208421833 (-90) = true.
Proof. vm_compute. reflexivity. Qed.
Lemma odd32_enc : forall lm s, c99 lm -> codec_takum64_from_s_and_l x86_64 s (fmul (fint f80 2) (clog lm (fconst f80 9223372088394383500 (-63)))) = Val (if s then -4611686024869838848 else 4611686024869838847)%Z.
Proof. intros lm s C. apply (log64_at lm _ _ _ _ _ _ _ _ _ C odd32_ok); destruct s; vm_compute; reflexivity. Qed.

Lemma odd16_ok : ok_between 9231256704416336671 (-63) 290768624077950199028392731616842481 128 16140901064495849432 16140901064495849447 (-73) = true.
Proof. vm_compute. reflexivity. Qed.
Lemma odd16_enc : forall lm s, c99 lm -> codec_takum64_from_s_and_l x86_64 s (fmul (fint f80 2) (clog lm (fconst f80 9231256704416336671 (-63)))) = Val (if s then -4612671180845875200 else 4612671180845875199)%Z.
Proof. intros lm s C. apply (log64_at lm _ _ _ _ _ _ _ _ _ C odd16_ok); destruct s; vm_compute; reflexivity. Qed.


Lemma fabs_neg_const : forall k, ffabs (fneg (fconst f80 k (-63))) = ffabs (fconst f80 k (-63)).
Proof. intros k. destruct (fconst f80 k (-63)); reflexivity. Qed.

Lemma log_from_extended_not_odd : forall lm n h, c99 lm -> log_from_float lm n f80 h -> n <> 8%Z ->
  exists (y : flt f80) t, fisfinite y = true /\ h y = Val t /\ h (fneg y) = Val (- t - 1)%Z.
Proof.
  intros lm n h C H N8. remember f80 as F eqn:EF. destruct H; try discriminate; try lia; clear EF N8.
  - eexists (fconst f80 9231256704416336671 (-63)), _. split; [vm_compute; reflexivity|]. unfold takum16_from_extended_float. change (ld x86_64) with f80. rewrite fabs_neg_const.
    replace (ffabs (fconst f80 9231256704416336671 (-63))) with (fconst f80 9231256704416336671 (-63)) by (apply B2SF_inj; vm_compute; reflexivity).
    rewrite !odd16_enc by assumption.
    split; vm_compute; reflexivity.
  - eexists (fconst f80 9223372088394383500 (-63)), _. split; [vm_compute; reflexivity|]. unfold takum32_from_extended_float. change (ld x86_64) with f80. rewrite fabs_neg_const.
    replace (ffabs (fconst f80 9223372088394383500 (-63))) with (fconst f80 9223372088394383500 (-63)) by (apply B2SF_inj; vm_compute; reflexivity).
    rewrite !odd32_enc by assumption.
    split; vm_compute; reflexivity.
  - eexists (fconst f80 9223372036854775820 (-63)), _. split; [vm_compute; reflexivity|]. unfold takum64_from_extended_float. change (ld x86_64) with f80. rewrite fabs_neg_const.
    replace (ffabs (fconst f80 9223372036854775820 (-63))) with (fconst f80 9223372036854775820 (-63)) by (apply B2SF_inj; vm_compute; reflexivity).
    rewrite !odd64_enc by assumption.
    split; vm_compute; reflexivity.
Qed.
