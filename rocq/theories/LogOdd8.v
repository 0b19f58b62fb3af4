(** The conversion of long doubles to takum8 is not odd either, with the
    correctly rounding library. *)
From Coq Require Import ZArith Reals Bool Lia Lra.
From Flocq Require Import Core.Core IEEE754.BinarySingleNaN.
From Verif Require Import CModel FloatModel Libm LibmSpec LibmIdeal Codec Conversion Spec CodeFacts SpecFacts ValueFacts RoundFacts WidthFacts FloatFacts FloatSym Machine RealBounds ConstFacts WrapApi LogConv LogOddRefute.
Local Open Scope R_scope.

Definition K8 : Z := 16795951612838286754.
Definition V8 : Z := 31901471898837980800515437759705383780.
Definition L8 : Z := -13835058055282163647.

Definition below_check (i : itv) : bool :=
  ((0 <? lo i) && (K8 * hi i <=? 2 ^ 64 * (2 ^ 128 + 2 ^ 20)) && (2 ^ 64 * 2 ^ 128 * 2 ^ 128 <=? K8 * lo i * (2 ^ 128 + 2 ^ 20)))%Z.
Lemma below_ok : iexp_ok (pt V8) && below_check (iexp (pt V8)) = true.
Proof. vm_compute. reflexivity. Qed.
Definition a8 : R := IZR K8 * bpow radix2 (-64).
Lemma a8_pos : 0 < a8.
Proof. apply Rmult_lt_0_compat; [apply IZR_lt; reflexivity|apply bpow_gt_0]. Qed.
Lemma ln_small : forall u d, 0 < d -> 0 < u -> u <= 1 + d -> 1 <= u * (1 + d) -> Rabs (ln u) <= d.
Proof.
  intros u d D P H1 H2. assert (ln (1 + d) <= d) as K. { pose proof (exp_ineq1 d ltac:(lra)) as K. rewrite <- (ln_exp d) at 2. apply Rlt_le, ln_increasing; lra. }
  apply Rabs_le. split.
  - assert (0 <= ln (u * (1 + d))) as Q. { rewrite <- ln_1. destruct H2 as [H2|<-]; [apply Rlt_le, ln_increasing; lra|lra]. }
    rewrite ln_mult in Q by lra. lra.
  - apply Rle_trans with (ln (1 + d)); [|assumption]. destruct H1 as [H1| ->]; [apply Rlt_le, ln_increasing; lra|lra].
Qed.
Lemma ln_a8 : Rabs (ln a8 + sc V8) <= bpow radix2 (-108).
Proof.
  pose proof below_ok as H. apply andb_prop in H as [H1 H]. destruct (iexp_in _ _ H1 (pt_sc V8)) as [E1 E2]. unfold below_check in H. apply andb_prop in H as [H H4]. apply andb_prop in H as [H2 H3].
  apply Z.ltb_lt in H2. apply Z.leb_le in H3, H4. set (i := iexp (pt V8)) in *. clearbody i. clear H1.
  assert (bpow radix2 64 * bpow radix2 (-64) = 1) as B64 by (rewrite <- bpow_plus; reflexivity). assert (bpow radix2 128 * bpow radix2 (-128) = 1) as B128 by (rewrite <- bpow_plus; reflexivity).
  assert (bpow radix2 20 * bpow radix2 (-128) = bpow radix2 (-108)) as B20 by (rewrite <- bpow_plus; reflexivity).
  apply IZR_le in H3, H4. rewrite !mult_IZR in H3. rewrite (mult_IZR (K8 * lo i)), (mult_IZR K8), !mult_IZR in H4. rewrite plus_IZR in H3, H4. rewrite !IZR_pow2 in H3, H4 by lia.
  rewrite <- (ln_exp (sc V8)), <- ln_mult by (apply a8_pos || apply exp_pos). apply ln_small; [apply bpow_gt_0|apply Rmult_lt_0_compat; [apply a8_pos|apply exp_pos]| |].
  - apply Rle_trans with (a8 * sc (hi i)); [apply Rmult_le_compat_l; [apply Rlt_le, a8_pos|assumption]|]. unfold a8, sc, PB. 
    replace (IZR K8 * bpow radix2 (-64) * (IZR (hi i) * bpow radix2 (- (128)))) with (IZR K8 * IZR (hi i) * (bpow radix2 (-64) * bpow radix2 (-128))) by (change (- (128))%Z with (-128)%Z; ring).
    apply Rle_trans with (bpow radix2 64 * (bpow radix2 128 + bpow radix2 20) * (bpow radix2 (-64) * bpow radix2 (-128))).
    + apply Rmult_le_compat_r; [apply Rmult_le_pos; apply bpow_ge_0|assumption].
    + apply Req_le. rewrite <- B20. transitivity ((bpow radix2 64 * bpow radix2 (-64)) * (bpow radix2 128 * bpow radix2 (-128) + bpow radix2 20 * bpow radix2 (-128))); [ring|]. rewrite B64, B128. ring.
  - apply Rle_trans with (a8 * sc (lo i) * (1 + bpow radix2 (-108))); [|apply Rmult_le_compat_r; [pose proof (bpow_gt_0 radix2 (-108)); lra|apply Rmult_le_compat_l; [apply Rlt_le, a8_pos|assumption]]].
    apply Rle_trans with ((bpow radix2 64 * bpow radix2 128 * bpow radix2 128) * (bpow radix2 (-64) * bpow radix2 (-128) * bpow radix2 (-128))).
    { apply Req_le. transitivity ((bpow radix2 64 * bpow radix2 (-64)) * (bpow radix2 128 * bpow radix2 (-128)) * (bpow radix2 128 * bpow radix2 (-128))); [rewrite B64, B128; ring|ring]. }
    apply Rle_trans with ((IZR K8 * IZR (lo i) * (bpow radix2 128 + bpow radix2 20)) * (bpow radix2 (-64) * bpow radix2 (-128) * bpow radix2 (-128))).
    + apply Rmult_le_compat_r; [repeat apply Rmult_le_pos; apply bpow_ge_0|assumption].
    + apply Req_le. unfold a8, sc, PB. change (- (128))%Z with (-128)%Z. rewrite <- B20.
      transitivity (IZR K8 * IZR (lo i) * bpow radix2 (-64) * bpow radix2 (-128) * (bpow radix2 128 * bpow radix2 (-128) + bpow radix2 20 * bpow radix2 (-128))); [ring|rewrite B128; ring].
Qed.
(** the correctly rounded logarithm *)
Lemma round_ln : RF f80 (ln a8) = IZR L8 * bpow radix2 (-67).
Proof.
  pose proof ln_a8 as H. apply Rabs_le_inv in H.
  assert (sc V8 = IZR V8 * bpow radix2 (-61) * bpow radix2 (-67)) as Es by (unfold sc, PB; rewrite Rmult_assoc, <- bpow_plus; reflexivity).
  assert (bpow radix2 (-108) = bpow radix2 (-41) * bpow radix2 (-67)) as E41 by (rewrite <- bpow_plus; reflexivity).
  assert (IZR V8 * bpow radix2 (-61) <= IZR (- L8) + 4 / 10) as U1. { apply (Rmult_le_reg_r (bpow radix2 61)); [apply bpow_gt_0|]. rewrite Rmult_assoc, <- bpow_plus. change (bpow radix2 (-61 + 61)) with 1. change (bpow radix2 61) with (IZR (2 ^ 61)). unfold V8, L8. simpl Z.opp. change (2 ^ 61)%Z with 2305843009213693952%Z. lra. }
  assert (IZR (- L8) + 2 / 10 <= IZR V8 * bpow radix2 (-61)) as U2. { apply (Rmult_le_reg_r (bpow radix2 61)); [apply bpow_gt_0|]. rewrite Rmult_assoc, <- bpow_plus. change (bpow radix2 (-61 + 61)) with 1. change (bpow radix2 61) with (IZR (2 ^ 61)). unfold V8, L8. simpl Z.opp. change (2 ^ 61)%Z with 2305843009213693952%Z. lra. }
  assert (bpow radix2 (-41) <= 1 / 100) as S. { apply Rle_trans with (bpow radix2 (-10)); [apply bpow_le; lia|simpl; lra]. }
  rewrite opp_IZR in U1, U2. set (q := bpow radix2 (-67)) in *. assert (0 < q) as Q by apply bpow_gt_0.
  assert ((IZR L8 - 1 / 2) * q < ln a8 < (IZR L8) * q) as [B1 B2]. { rewrite Es, E41 in H. set (v := IZR V8 * bpow radix2 (-61)) in *. set (d := bpow radix2 (-41)) in *. assert (0 < d) by apply bpow_gt_0. clearbody v d. assert (v * q <= (- IZR L8 + 4/10) * q) by (apply Rmult_le_compat_r; lra). assert ((- IZR L8 + 2/10) * q <= v * q) by (apply Rmult_le_compat_r; lra). assert (d * q <= 1/100 * q) by (apply Rmult_le_compat_r; lra). lra. }
  assert (mag_val radix2 (ln a8) (mag radix2 (ln a8)) = (-3)%Z) as M.
  { apply mag_unique. assert (Rabs (ln a8) = - ln a8) as ->. { apply Rabs_left. assert (IZR L8 * q < 0). { assert (IZR L8 < 0) by (apply IZR_lt; reflexivity). nra. } lra. }
    assert (bpow radix2 (-3 - 1) = bpow radix2 63 * q) as -> by (unfold q; rewrite <- bpow_plus; reflexivity). assert (bpow radix2 (-3) = bpow radix2 64 * q) as -> by (unfold q; rewrite <- bpow_plus; reflexivity).
    change (bpow radix2 63) with (IZR (2 ^ 63)). change (bpow radix2 64) with (IZR (2 ^ 64)). unfold L8 in *. change (2 ^ 63)%Z with 9223372036854775808%Z. change (2 ^ 64)%Z with 18446744073709551616%Z. clearbody q. split; nra. }
  unfold RF, round, F2R, scaled_mantissa, cexp, Fnum, Defs.Fexp. rewrite M. change (fexpo f80 (-3)) with (-67)%Z. fold q. do 2 f_equal.
  apply Znearest_imp. change (- (-67))%Z with 67%Z. assert (q * bpow radix2 67 = 1) as Q1 by (unfold q; rewrite <- bpow_plus; reflexivity). pose proof (bpow_gt_0 radix2 67) as P67. set (w := bpow radix2 67) in *. clearbody w.
  apply (Rmult_lt_compat_r w) in B1; [|assumption]. apply (Rmult_lt_compat_r w) in B2; [|assumption]. rewrite Rmult_assoc, Q1 in B1, B2. apply Rabs_lt. lra.
Qed.

Lemma fabs_neg_any : forall k e, ffabs (fneg (fconst f80 k e)) = ffabs (fconst f80 k e).
Proof. intros k e. destruct (fconst f80 k e); reflexivity. Qed.
Lemma log_a8 : isf (fmul (fint f80 2) (clog ideal (fconst f80 K8 (-64)))) (IZR L8 * bpow radix2 (-66)).
Proof.
  assert (isf (fconst f80 K8 (-64)) a8) as [Fa Va] by (apply isf_f80; [vm_compute; discriminate|lia]). set (y := fconst f80 K8 (-64)) in *. clearbody y.
  assert (isf (clog ideal y) (IZR L8 * bpow radix2 (-67))) as I.
  { change (clog ideal y) with (ideal1 Flog f80 y). rewrite ideal1_finite by assumption. assert (domb Flog (B2R y) = true) as -> by (rewrite Va; apply domb_spec; exact a8_pos).
    rewrite Va. change (real1 Flog a8) with (ln a8). rewrite <- round_ln at 1. apply of_real_spec. rewrite round_ln. rewrite Rabs_mult, (Rabs_pos_eq (bpow _ _)) by apply bpow_ge_0. rewrite <- abs_IZR.
    apply Rle_lt_trans with (bpow radix2 64 * bpow radix2 (-67)); [|rewrite <- bpow_plus; apply bpow_lt; simpl; lia]. apply Rmult_le_compat_r; [apply bpow_ge_0|]. rewrite <- IZR_pow2 by lia. apply IZR_le. vm_compute. discriminate. }
  replace (IZR L8 * bpow radix2 (-66)) with (2 * (IZR L8 * bpow radix2 (-67))) by (change (bpow radix2 (-66)) with (bpow radix2 (1 + -67)); rewrite bpow_plus; change (bpow radix2 1) with 2; ring).
  assert (2 * (IZR L8 * bpow radix2 (-67)) = IZR L8 * bpow radix2 (-66)) as EQ by (change (bpow radix2 (-66)) with (bpow radix2 (1 + -67)); rewrite bpow_plus; change (bpow radix2 1) with 2; ring).
  apply isf_fmul_exact; [apply isf_fint; simpl; lia|exact I| |]; rewrite EQ.
  - apply FF_dyadic; [vm_compute; discriminate|unfold femin; simpl; lia].
  - rewrite Rabs_mult, (Rabs_pos_eq (bpow _ _)) by apply bpow_ge_0. rewrite <- abs_IZR.
    apply Rle_lt_trans with (bpow radix2 64 * bpow radix2 (-66)); [|rewrite <- bpow_plus; apply bpow_lt; simpl; lia]. apply Rmult_le_compat_r; [apply bpow_ge_0|]. rewrite <- IZR_pow2 by lia. apply IZR_le. vm_compute. discriminate.
Qed.
Lemma log8_not_odd : exists (y : flt f80) t, fisfinite y = true /\ takum8_from_extended_float x86_64 ideal y = Val t /\ takum8_from_extended_float x86_64 ideal (fneg y) = Val (- t - 1)%Z.
Proof.
  assert (forall s t, codec_takum64_from_s_and_l x86_64 s (fconst f80 L8 (-66)) = Val t -> codec_takum64_from_s_and_l x86_64 s (fmul (fint f80 2) (clog ideal (fconst f80 K8 (-64)))) = Val t) as E.
  { intros s t H. apply (enc64_between s _ (fconst f80 L8 (-66)) (fconst f80 L8 (-66)) _ (IZR L8 * bpow radix2 (-66)) (IZR L8 * bpow radix2 (-66)) t log_a8); try assumption; try (apply isf_f80; [vm_compute; discriminate|lia]). lra. }
  eexists (fconst f80 K8 (-64)), _. split; [vm_compute; reflexivity|]. unfold takum8_from_extended_float. change (ld x86_64) with f80. rewrite fabs_neg_any.
  replace (ffabs (fconst f80 K8 (-64))) with (fconst f80 K8 (-64)) by (apply B2SF_inj; vm_compute; reflexivity).
  split.
  - erewrite E by (vm_compute; reflexivity). vm_compute. reflexivity.
  - erewrite E by (vm_compute; reflexivity). vm_compute. reflexivity.
Qed.
