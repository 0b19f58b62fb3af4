(** Facts about the conversions from linear takums to floats. *)
From Coq Require Import ZArith Reals Bool Lia Lra List.
From Flocq Require Import Core.Core IEEE754.BinarySingleNaN.
From Verif Require Import CModel FloatModel WidthConv Codec Spec FloatSpec CodeFacts SpecFacts ValueFacts RoundFacts
  WidthFacts WidthProps FloatFacts DecodeFacts EncodeFacts PhiFacts Codec8Facts Machine Libm Conversion LinApi LinFacts.
Local Open Scope R_scope.

Lemma FF80_frac : forall k, (0 <= k <= 2 ^ 64)%Z -> FF f80 (IZR k * bpow radix2 (-59)).
Proof. intros k Hk. apply FF_dyadic; [change (fprec f80) with 64%Z; lia|change (femin f80) with (-16445)%Z; lia]. Qed.

Lemma Lin_exp_bound : forall x, -255 <= x <= 255 -> 0 < Lin x <= bpow radix2 256.
Proof.
  intros x Hx. split; [apply Lin_pos|]. pose proof (Lin_bounds x) as [_ H]. left.
  eapply Rlt_le_trans; [exact H|]. apply bpow_le.
  assert (Zfloor x <= 255)%Z by (apply le_IZR; pose proof (Zfloor_lb x); lra). lia.
Qed.

Lemma fint80 : forall z, (Z.abs z <= 2 ^ 60)%Z -> isf (fint f80 z) (IZR z).
Proof. intros z Hz. apply isf_fint. change (fprec f80) with 64%Z. lia. Qed.

(** (1 + g) 2^h for a fraction with 59 digits *)
Lemma ldexp_80 : forall (g : flt f80) k h, isf g (IZR k * bpow radix2 (-59)) -> (0 <= k <= 2 ^ 59)%Z ->
  (-300 <= h <= 300)%Z ->
  isf (fldexp (fadd (fint f80 1) g) h) ((1 + IZR k * bpow radix2 (-59)) * bpow radix2 h).
Proof.
  intros g k h Hg Hk Hh.
  assert (1 + IZR k * bpow radix2 (-59) = IZR (k + 2 ^ 59) * bpow radix2 (-59)) as E1.
  { rewrite plus_IZR, IZR_pow2 by lia. rewrite Rmult_plus_distr_r, <- bpow_plus. simpl (bpow radix2 (59 + -59)). ring. }
  assert (isf (fint f80 1) 1) as I1 by (apply fint80; lia).
  assert (0 <= IZR k * bpow radix2 (-59) <= 1) as B.
  { split; [apply Rmult_le_pos; [apply IZR_le; lia|apply bpow_ge_0]|].
    apply Rmult_le_reg_r with (bpow radix2 59); [apply bpow_gt_0|]. rewrite Rmult_assoc, <- bpow_plus.
    simpl (bpow radix2 (-59 + 59)). rewrite Rmult_1_r, Rmult_1_l, <- IZR_pow2 by lia. apply IZR_le. lia. }
  assert (isf (fadd (fint f80 1) g) (1 + IZR k * bpow radix2 (-59))) as Ha.
  { apply isf_fadd_exact; try assumption.
    - rewrite E1. apply FF80_frac. lia.
    - apply lt_emax_512. rewrite Rabs_pos_eq; lra. }
  apply isf_fldexp_exact; [assumption| |].
  - rewrite E1, Rmult_assoc, <- bpow_plus. apply FF_dyadic; [change (fprec f80) with 64%Z; lia|change (femin f80) with (-16445)%Z; lia].
  - rewrite Rabs_mult, (Rabs_pos_eq (bpow radix2 h)) by apply bpow_ge_0. rewrite Rabs_pos_eq by lra.
    apply Rle_lt_trans with (2 * bpow radix2 h).
    + apply Rmult_le_compat_r; [apply bpow_ge_0|lra].
    + change 2 with (bpow radix2 1). rewrite <- bpow_plus. apply bpow_lt. change (femax f80) with 16384%Z. lia.
Qed.

Lemma isf_mulsg : forall (y : flt f80) z s, isf y z -> isf (fmul (fint f80 (1 - 2 * b2z s)) y) (sg s * z).
Proof.
  intros y z s Hy.
  assert (isf (fint f80 (1 - 2 * b2z s)) (sg s)) as Is by (destruct s; apply fint80; simpl; lia).
  apply isf_fmul_exact; try assumption.
  - destruct s; unfold sg.
    + replace (-1 * z) with (- z) by ring. apply FF_opp. eapply isf_FF; eassumption.
    + rewrite Rmult_1_l. eapply isf_FF; eassumption.
  - rewrite Rabs_mult, sg_abs, Rmult_1_l. apply isf_lt in Hy. assumption.
Qed.

Lemma lin_dec_80 : forall s (l : flt f80) k,
  isf l (IZR k * bpow radix2 (-59)) -> -255 <= IZR k * bpow radix2 (-59) <= 255 ->
  exists y, linear_l_to_ld x86_64 s l = Val y /\ isf y (sg s * Lin (IZR k * bpow radix2 (-59))).
Proof.
  intros s l k Hl Hb. unfold linear_l_to_ld. change (ld x86_64) with f80. cbv zeta.
  rewrite (fisnan_isf _ _ Hl), (fisinf_isf _ _ Hl). cbn [orb andb].
  set (x := IZR k * bpow radix2 (-59)) in *.
  set (j := if s then (- k)%Z else k).
  assert (sg s * x = IZR j * bpow radix2 (-59)) as Ej.
  { unfold j, x, sg. destruct s; [rewrite opp_IZR; ring|ring]. }
  assert (isf (if negb s then l else fneg l) (IZR j * bpow radix2 (-59))) as Hc.
  { rewrite <- Ej. unfold sg. destruct s; cbn [negb].
    - replace (-1 * x) with (- x) by ring. apply isf_fneg. assumption.
    - rewrite Rmult_1_l. assumption. }
  set (cpm := if negb s then l else fneg l) in *. clearbody cpm.
  assert (-255 <= IZR j * bpow radix2 (-59) <= 255) as Bj.
  { rewrite <- Ej. unfold sg. destruct s; lra. }
  set (c := Zfloor (IZR j * bpow radix2 (-59))).
  assert (c = (j / 2 ^ 59)%Z) as Ec by (unfold c; apply (Zfloor_div j 59); lia).
  assert (-255 <= c <= 255)%Z as Bc.
  { split.
    - apply Zfloor_lub. lra.
    - apply le_IZR. pose proof (Zfloor_lb (IZR j * bpow radix2 (-59))). fold c in H. lra. }
  rewrite (f2int_isf 16 _ c); [|apply isf_ffloor; assumption|unfold fits_s; lia].
  cbv beta iota delta [bind].
  set (r := (j mod 2 ^ 59)%Z).
  pose proof (Z.mod_pos_bound j (2 ^ 59) ltac:(lia)) as Br. fold r in Br.
  assert (IZR j * bpow radix2 (-59) = IZR c + IZR r * bpow radix2 (-59)) as Esplit.
  { rewrite (Z.div_mod j (2 ^ 59)) at 1 by lia. rewrite <- Ec. fold r.
    rewrite plus_IZR, mult_IZR, IZR_pow2 by lia. rewrite Rmult_plus_distr_r. f_equal.
    replace (bpow radix2 59 * IZR c * bpow radix2 (-59)) with (IZR c * (bpow radix2 59 * bpow radix2 (-59))) by ring.
    rewrite <- bpow_plus. simpl. ring. }
  assert (0 <= IZR r * bpow radix2 (-59) < 1) as B.
  { split; [apply Rmult_le_pos; [apply IZR_le; lia|apply bpow_ge_0]|].
    apply Rmult_lt_reg_r with (bpow radix2 59); [apply bpow_gt_0|]. rewrite Rmult_assoc, <- bpow_plus.
    simpl (bpow radix2 (-59 + 59)). rewrite Rmult_1_r, Rmult_1_l, <- IZR_pow2 by lia. apply IZR_lt. lia. }
  assert (isf (fsub cpm (fint f80 c)) (IZR r * bpow radix2 (-59))) as Hm.
  { replace (IZR r * bpow radix2 (-59)) with (IZR j * bpow radix2 (-59) - IZR c) by (rewrite Esplit; ring).
    apply isf_fsub_exact; [assumption|apply fint80; lia| |];
      (replace (IZR j * bpow radix2 (-59) - IZR c) with (IZR r * bpow radix2 (-59)) by (rewrite Esplit; ring)).
    - apply FF80_frac. lia.
    - apply lt_emax_512. rewrite Rabs_pos_eq; lra. }
  set (m0 := fsub cpm (fint f80 c)) in *. clearbody m0.
  assert (isf (fint f80 1) 1) as I1 by (apply fint80; lia).
  rewrite (feq_isf _ _ _ _ Hm I1), Req_bool_false by lra.
  rewrite (feq_isf _ _ _ _ Hm (isf_zero f80)).
  eexists; split; [reflexivity|].
  assert (forall h (g : flt f80) q, isf g (IZR q * bpow radix2 (-59)) -> (0 <= q <= 2 ^ 59)%Z -> (-300 <= h <= 300)%Z ->
     Lin x = (1 + IZR q * bpow radix2 (-59)) * bpow radix2 h ->
     isf (fmul (fint f80 (1 - 2 * b2z s)) (fldexp (fadd (fint f80 1) g) h)) (sg s * Lin x)) as fin.
  { intros h g q Hg Hq Hh ->. apply isf_mulsg. apply ldexp_80; assumption. }
  destruct s; cbn [negb].
  - assert (x = - (IZR c + IZR r * bpow radix2 (-59))) as Ex.
    { rewrite <- Esplit, <- Ej. unfold sg. ring. }
    destruct (Req_bool_spec (IZR r * bpow radix2 (-59)) 0) as [E0|E0].
    + replace (to_s 16 (to_s 16 ((1 - 2 * b2z true) * (c + b2z true)) + 1)) with (- c)%Z.
      2:{ change (b2z true) with 1%Z. rewrite to_s16_id; rewrite ?to_s16_id; lia. }
      apply (fin _ _ 0%Z); [rewrite Rmult_0_l; apply isf_zero|lia|lia|].
      rewrite Ex, E0, Rplus_0_r. unfold Lin. rewrite <- opp_IZR, Zfloor_IZR. ring.
    + rewrite to_s16_id by (change (b2z true) with 1%Z; lia).
      assert (isf (fsub (fint f80 1) m0) (IZR (2 ^ 59 - r) * bpow radix2 (-59))) as Hg.
      { assert (IZR (2 ^ 59 - r) * bpow radix2 (-59) = 1 - IZR r * bpow radix2 (-59)) as ->.
        { rewrite minus_IZR, IZR_pow2 by lia. rewrite Rmult_minus_distr_r, <- bpow_plus. simpl (bpow radix2 (59 + -59)). ring. }
        apply isf_fsub_exact; try assumption.
        - replace (1 - IZR r * bpow radix2 (-59)) with (IZR (2 ^ 59 - r) * bpow radix2 (-59)).
          + apply FF80_frac. lia.
          + rewrite minus_IZR, IZR_pow2 by lia. rewrite Rmult_minus_distr_r, <- bpow_plus. simpl (bpow radix2 (59 + -59)). ring.
        - apply lt_emax_512. rewrite Rabs_pos_eq; lra. }
      eapply fin; [exact Hg|lia|change (b2z true) with 1%Z; lia|].
      rewrite Ex. unfold Lin. rewrite Zfloor_opp_int_frac by lra.
      replace ((1 - 2 * b2z true) * (c + b2z true))%Z with (- c - 1)%Z by (change (b2z true) with 1%Z; lia).
      rewrite (minus_IZR (2 ^ 59)), (IZR_pow2 59) by lia. rewrite Rmult_minus_distr_r, <- bpow_plus.
      simpl (bpow radix2 (59 + -59)). rewrite minus_IZR, opp_IZR. ring.
  - replace (to_s 16 ((1 - 2 * b2z false) * (c + b2z false))) with c.
    2:{ change (b2z false) with 0%Z. rewrite to_s16_id; lia. }
    eapply fin; [exact Hm|lia|lia|].
    assert (x = IZR c + IZR r * bpow radix2 (-59)) as Ex.
    { rewrite <- Esplit, <- Ej. unfold sg. ring. }
    rewrite Ex. unfold Lin. replace (Zfloor (IZR c + IZR r * bpow radix2 (-59))) with c.
    + ring.
    + symmetry. apply Zfloor_imp. rewrite plus_IZR. lra.
Qed.

(** ** IEEE rounding by conversion *)
Lemma fcast_ieee : forall f g (x : flt f) a, isf x a -> a <> 0 -> ieee_rounds a (fcast g x).
Proof.
  intros f g x a [Fx <-] Ha. destruct x as [s|s| |s m e He]; try discriminate; [simpl in Ha; congruence|].
  unfold ieee_rounds, fcast.
  pose proof (binary_normalize_correct (fprec g) (femax g) _ _ mode_NE (cond_Zopp s (Zpos m)) e s) as H.
  cbv zeta in H.
  change (F2R (Float radix2 (cond_Zopp s (Zpos m)) e)) with (B2R (B754_finite s m e He)) in H.
  change (round radix2 (SpecFloat.fexp (fprec g) (femax g)) (round_mode mode_NE) (B2R (B754_finite s m e He)))
    with (round_to g (B2R (B754_finite s m e He))) in H.
  set (a := B2R (B754_finite s m e He)) in *. destruct (Rlt_bool _ _).
  - destruct H as (H1 & H2 & H3). split; [assumption|]. split; [assumption|].
    rewrite H3. destruct (Rcompare_spec a 0) as [C|C|C].
    + rewrite Rlt_bool_true; auto.
    + contradiction.
    + rewrite Rlt_bool_false by lra. reflexivity.
  - unfold binary_overflow in H. cbn in H.
    destruct (binary_normalize (fprec g) (femax g) _ _ mode_NE (cond_Zopp s (Zpos m)) e s) as [s'|s'| |s' m' e' He'];
      cbn in H; try discriminate. injection H as H. rewrite H. reflexivity.
Qed.

Lemma round_to_RF : forall F x, round_to F x = RF F x.
Proof. reflexivity. Qed.

Lemma ieee_isf : forall F (y : flt F) x, ieee_rounds x y -> Rabs (RF F x) < bpow radix2 (femax F) -> isf y (RF F x).
Proof.
  intros F y x H Hb. unfold ieee_rounds in H. rewrite round_to_RF, Rlt_bool_true in H by assumption.
  destruct H as (H1 & H2 & _). split; assumption.
Qed.

(** ** The numbers denoted by linear takums are floats *)
Lemma Lin_dyadic : forall k d, (0 <= d)%Z -> exists j, (2 ^ d <= j < 2 ^ (d + 1))%Z /\
  Lin (IZR k * bpow radix2 (- d)) = IZR j * bpow radix2 (Zfloor (IZR k * bpow radix2 (- d)) - d).
Proof.
  intros k d Hd. unfold Lin. rewrite Zfloor_div by lia.
  pose proof (Z.mod_pos_bound k (2 ^ d) ltac:(apply Z.pow_pos_nonneg; lia)) as Hm.
  exists (k mod 2 ^ d + 2 ^ d)%Z. split; [rewrite Z.pow_add_r by lia; lia|].
  assert (IZR k * bpow radix2 (- d) - IZR (k / 2 ^ d) = IZR (k mod 2 ^ d) * bpow radix2 (- d)) as ->.
  { rewrite Z.mod_eq by (apply Z.pow_nonzero; lia). rewrite minus_IZR, mult_IZR, IZR_pow2 by lia.
    rewrite Rmult_minus_distr_r. f_equal.
    replace (bpow radix2 d * IZR (k / 2 ^ d) * bpow radix2 (- d)) with (IZR (k / 2 ^ d) * (bpow radix2 d * bpow radix2 (- d))) by ring.
    rewrite <- bpow_plus, Z.add_opp_diag_r. simpl. ring. }
  unfold Z.sub. rewrite bpow_plus, plus_IZR, IZR_pow2 by lia.
  assert (bpow radix2 d * bpow radix2 (- d) = 1) as E by (rewrite <- bpow_plus, Z.add_opp_diag_r; reflexivity).
  replace ((IZR (k mod 2 ^ d) + bpow radix2 d) * (bpow radix2 (k / 2 ^ d) * bpow radix2 (- d)))
    with ((IZR (k mod 2 ^ d) * bpow radix2 (- d) + bpow radix2 d * bpow radix2 (- d)) * bpow radix2 (k / 2 ^ d)) by ring.
  rewrite E. ring.
Qed.

Lemma lin_value : forall n t, (6 <= n <= 64)%Z -> is_real_takum n t ->
  value Linear n t = Some (sg (t <? 0)%Z * Lin (l_ n t)).
Proof. intros n t Hn Hr. rewrite value_real by (assumption || lia). reflexivity. Qed.

Lemma FF_lin_value : forall n t F, (6 <= n <= 64)%Z -> F <> f32 -> (n - 4 <= fprec F)%Z -> is_real_takum n t ->
  FF F (sg (t <? 0)%Z * Lin (l_ n t)).
Proof.
  intros n t F Hn HF0 HF Hr. destruct (l_dyadic n t Hn Hr) as [k Hk].
  destruct (Z_le_gt_dec 5 n) as [H5|]; [|lia].
  destruct (Lin_dyadic k (n - 5) ltac:(lia)) as (j & Hj & Ej).
  pose proof (l_abs n t Hn Hr) as Hb.
  rewrite Hk in *. rewrite Ej.
  assert (-256 <= Zfloor (IZR k * bpow radix2 (- (n - 5))))%Z as Bf.
  { apply Zfloor_lub. apply Rabs_le_inv in Hb. lra. }
  replace (sg (t <? 0)%Z * (IZR j * bpow radix2 (Zfloor (IZR k * bpow radix2 (- (n - 5))) - (n - 5))))
    with (IZR (if (t <? 0)%Z then - j else j) * bpow radix2 (Zfloor (IZR k * bpow radix2 (- (n - 5))) - (n - 5))).
  2:{ unfold sg. destruct (t <? 0)%Z; [rewrite opp_IZR|]; ring. }
  apply FF_dyadic.
  - replace (n - 5 + 1)%Z with (n - 4)%Z in Hj by lia.
    assert (2 ^ (n - 4) <= 2 ^ fprec F)%Z by (apply Z.pow_le_mono_r; lia).
    destruct (t <? 0)%Z; lia.
  - unfold femin. destruct F; [congruence|simpl fprec; simpl femax; lia..].
Qed.

Lemma lin_value_bound : forall n t, (6 <= n <= 64)%Z -> is_real_takum n t ->
  0 < Rabs (sg (t <? 0)%Z * Lin (l_ n t)) <= bpow radix2 256.
Proof.
  intros n t Hn Hr. rewrite Rabs_mult, sg_abs, Rmult_1_l.
  pose proof (l_abs n t Hn Hr) as Hb. apply Rabs_le_inv in Hb.
  pose proof (Lin_exp_bound (l_ n t) Hb). rewrite Rabs_pos_eq; lra.
Qed.

(** ** Decoding: takum_linearN_to_* *)
Lemma dec_common : forall n t (l : flt f80), (6 <= n <= 64)%Z -> is_real_takum n t -> isf l (l_ n t) ->
  exists y, linear_l_to_ld x86_64 (t <? 0)%Z l = Val y /\ isf y (sg (t <? 0)%Z * Lin (l_ n t)).
Proof.
  intros n t l Hn Hr Hl. destruct (l_dyadic n t Hn Hr) as [k Hk].
  assert (l_ n t = IZR (k * 2 ^ (64 - n)) * bpow radix2 (-59)) as E.
  { rewrite Hk, mult_IZR, IZR_pow2 by lia. rewrite Rmult_assoc, <- bpow_plus. f_equal. f_equal. lia. }
  pose proof (l_abs n t Hn Hr) as Hb. apply Rabs_le_inv in Hb.
  rewrite E in *. apply lin_dec_80; assumption.
Qed.

Definition lv (n t : Z) : R := sg (t <? 0)%Z * Lin (l_ n t).
Lemma lv_neq0 : forall n t, (6 <= n <= 64)%Z -> is_real_takum n t -> lv n t <> 0.
Proof.
  intros n t Hn Hr E. pose proof (lin_value_bound n t Hn Hr) as H. fold (lv n t) in H. rewrite E, Rabs_R0 in H. lra.
Qed.

Lemma isf_lv64 : forall n t (y : flt f80), (6 <= n <= 32)%Z -> is_real_takum n t -> isf y (lv n t) ->
  isf (fcast f64 y) (lv n t).
Proof.
  intros n t y Hn Hr Hy. apply isf_fcast_exact; [assumption| |].
  - apply FF_lin_value; [lia|discriminate|simpl; lia|assumption].
  - pose proof (lin_value_bound n t ltac:(lia) Hr). unfold lv. eapply Rle_lt_trans; [apply H|]. apply bpow_lt. reflexivity.
Qed.

(** what the conversion to each format does to a real takum *)
Definition to_res (n : Z) {F : fmt} (v : R) : flt F -> Prop :=
  match F return flt F -> Prop with
  | f80 => fun y => isf y v
  | f64 => fun y => ieee_rounds v y
  | f32 => fun y => ieee_rounds (RF f64 v) y
  | f128 => fun _ => False
  end.

Lemma linear_to_real : forall n F h t, linear_to_float n F h -> is_real_takum n t ->
  exists y, h t = Val y /\ to_res n (lv n t) y.
Proof.
  assert (fsub_fmt f32 f64 /\ fsub_fmt f64 f80 /\ fsub_fmt f32 f80) as (S1 & S2 & S3) by (unfold fsub_fmt; simpl; lia).
  assert (forall n t, (6 <= n <= 64)%Z -> is_real_takum n t -> Rabs (RF f64 (lv n t)) < bpow radix2 1024) as Hb64.
  { intros n t Hn Hr. apply (RF_lt_emax f64 _ 256); [unfold femin; simpl; lia|]. apply lin_value_bound; assumption. }
  assert (forall n t, (6 <= n <= 64)%Z -> is_real_takum n t -> RF f64 (lv n t) <> 0) as Hnz64.
  { intros n t Hn Hr E. pose proof (lv_neq0 n t Hn Hr) as Hv.
    assert (bpow radix2 (-256) <= Rabs (lv n t)) as Hlow.
    { unfold lv. rewrite Rabs_mult, sg_abs, Rmult_1_l, Rabs_pos_eq by (left; apply Lin_pos).
      pose proof (Lin_bounds (l_ n t)) as [L1 _]. eapply Rle_trans; [|exact L1]. apply bpow_le.
      apply Zfloor_lub. pose proof (l_abs n t Hn Hr) as B. apply Rabs_le_inv in B. lra. }
    assert (bpow radix2 (-256) <= Rabs (RF f64 (lv n t))).
    { apply abs_round_ge_generic; [apply fexpo_valid|apply valid_rnd_N| |assumption].
      apply FF_bpow. unfold femin. simpl. lia. }
    rewrite E, Rabs_R0 in H. pose proof (bpow_gt_0 radix2 (-256)). lra. }
  assert (forall n t (l : flt f80), (6 <= n <= 64)%Z -> is_real_takum n t -> isf l (l_ n t) ->
     exists y, codec_s_and_linear_l_to_float64 x86_64 (t <? 0)%Z l = Val y /\ ieee_rounds (lv n t) y) as D64.
  { intros n t l Hn Hr Hl. destruct (dec_common n t l Hn Hr Hl) as (y & E & Hy).
    unfold codec_s_and_linear_l_to_float64. rewrite E. eexists; split; [reflexivity|].
    apply fcast_ieee; [assumption|apply lv_neq0; assumption]. }
  assert (forall n t (l : flt f80), (6 <= n <= 64)%Z -> is_real_takum n t -> isf l (l_ n t) ->
     exists y, (let! d := codec_s_and_linear_l_to_float64 x86_64 (t <? 0)%Z l in Val (fcast f32 d)) = Val y /\
       ieee_rounds (RF f64 (lv n t)) y) as D32.
  { intros n t l Hn Hr Hl. destruct (D64 n t l Hn Hr Hl) as (y & E & Hy). rewrite E.
    eexists; split; [reflexivity|]. apply fcast_ieee.
    - apply ieee_isf; [assumption|apply Hb64; assumption].
    - apply Hnz64; assumption. }
  assert (forall n t (l : flt f80), (6 <= n <= 32)%Z -> is_real_takum n t -> isf l (l_ n t) ->
     exists y, (let! d := codec_s_and_linear_l_to_float64 x86_64 (t <? 0)%Z l in Val (fcast f80 d)) = Val y /\
       isf y (lv n t)) as D80.
  { intros n t l Hn Hr Hl. destruct (dec_common n t l ltac:(lia) Hr Hl) as (y & E & Hy).
    unfold codec_s_and_linear_l_to_float64. rewrite E. eexists; split; [reflexivity|].
    apply isf_fcast_up; [assumption|]. apply isf_lv64; assumption. }
  assert (forall t, is_real_takum 64 t -> exists l, codec_takum64_to_l x86_64 t = Val l /\ isf (f:=f80) l (l_ 64 t)) as T64
    by exact (mo_dec mach64 mach64_ok).
  intros n F h t H Hr. destruct H; cbn [to_res].
  - destruct (to_l_8 t Hr) as (l & E & Hl). unfold takum_linear8_to_float32. rewrite E.
    exact (D32 8%Z t (fcast f80 l) ltac:(lia) Hr (isf_fcast_up _ _ _ _ S3 Hl)).
  - destruct (to_l_16 t Hr) as (l & E & Hl). unfold takum_linear16_to_float32. rewrite E.
    exact (D32 16%Z t (fcast f80 l) ltac:(lia) Hr (isf_fcast_up _ _ _ _ S3 Hl)).
  - destruct (to_l_32 t Hr) as (l & E & Hl). unfold takum_linear32_to_float32. rewrite E.
    exact (D32 32%Z t (fcast f80 l) ltac:(lia) Hr (isf_fcast_up _ _ _ _ S2 Hl)).
  - destruct (T64 t Hr) as (l & E & Hl). unfold takum_linear64_to_float32. rewrite E.
    exact (D32 64%Z t l ltac:(lia) Hr Hl).
  - destruct (to_l_8 t Hr) as (l & E & Hl). unfold takum_linear8_to_float64. rewrite E.
    exact (D64 8%Z t (fcast f80 l) ltac:(lia) Hr (isf_fcast_up _ _ _ _ S3 Hl)).
  - destruct (to_l_16 t Hr) as (l & E & Hl). unfold takum_linear16_to_float64. rewrite E.
    exact (D64 16%Z t (fcast f80 l) ltac:(lia) Hr (isf_fcast_up _ _ _ _ S3 Hl)).
  - destruct (to_l_32 t Hr) as (l & E & Hl). unfold takum_linear32_to_float64. rewrite E.
    exact (D64 32%Z t (fcast f80 l) ltac:(lia) Hr (isf_fcast_up _ _ _ _ S2 Hl)).
  - destruct (T64 t Hr) as (l & E & Hl). unfold takum_linear64_to_float64. rewrite E.
    exact (D64 64%Z t l ltac:(lia) Hr Hl).
  - destruct (to_l_8 t Hr) as (l & E & Hl). unfold takum_linear8_to_extended_float. rewrite E.
    exact (D80 8%Z t (fcast f80 (fcast f64 l)) ltac:(lia) Hr (isf_fcast_up _ _ _ _ S2 (isf_fcast_up _ _ _ _ S1 Hl))).
  - destruct (to_l_16 t Hr) as (l & E & Hl). unfold takum_linear16_to_extended_float. rewrite E.
    exact (D80 16%Z t (fcast f80 l) ltac:(lia) Hr (isf_fcast_up _ _ _ _ S3 Hl)).
  - destruct (to_l_32 t Hr) as (l & E & Hl). unfold takum_linear32_to_extended_float. rewrite E.
    exact (D80 32%Z t (fcast f80 l) ltac:(lia) Hr (isf_fcast_up _ _ _ _ S2 Hl)).
  - destruct (T64 t Hr) as (l & E & Hl). unfold takum_linear64_to_extended_float. rewrite E.
    exact (dec_common 64%Z t l ltac:(lia) Hr Hl).
Qed.

Lemma linear_to_0 : forall n F h, linear_to_float n F h -> h 0%Z = Val (B754_zero false).
Proof. intros n F h H. destruct H; reflexivity. Qed.
Lemma linear_to_nar : forall n F h, linear_to_float n F h -> h (nar n) = Val B754_nan.
Proof. intros n F h H. destruct H; reflexivity. Qed.
