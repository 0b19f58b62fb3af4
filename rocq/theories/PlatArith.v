(** 16 bits on every platform (C124), other widths (C125). *)
From Coq Require Import ZArith Reals Bool Lia Lra.
From Flocq Require Import Core.Core IEEE754.BinarySingleNaN.
From Verif Require Import CModel FloatModel Libm Codec Conversion Arith Spec FloatSpec FloatFacts CodeFacts RoundFacts SpecFacts DecodeFacts WidthConv WidthFacts EncodeFacts PhiFacts Machine LinFacts Wrappers PlatSpec PlatSpec2 PlatDec.
Local Open Scope R_scope.

Lemma exact_wide : forall G (f : flt f64) x, G = f80 \/ G = f128 -> isf f x -> x <> 0 -> RF G (lin_coord x) = lin_coord x.
Proof.
  intros G f x HG Hf Hx. pose proof (lin_coord_exact f64 f80 f x ltac:(auto) Hf Hx) as E.
  destruct HG as [-> | ->]; [exact E|].
  apply RF_id. apply FF_sub with f80; [split; vm_compute; discriminate|]. rewrite <- E. apply RF_FF.
Qed.

Lemma from16_value : forall pf (f : flt f64) x, wide pf -> isf f x -> x <> 0 ->
  takum_linear16_from_float64 pf f = Val (asm 16 (Rlt_bool x 0) (enc 16 (m_psi mach16 (sg (Rlt_bool x 0) * RF f64 (lin_coord x))))).
Proof.
  intros pf f x W Hf Hx.
  assert (fsub_fmt f64 (ld pf)) as S by (destruct W as [-> | [-> | -> ] ]; split; vm_compute; discriminate).
  unfold takum_linear16_from_float64. rewrite (flt_zero _ _ _ Hf).
  pose proof (mo_enc mach16 mach16_ok (Rlt_bool x 0) _ _ (isf_l_cast _ _ f64 _ _ Hf Hx S)) as K.
  assert (RF f64 (RF (ld pf) (lin_coord x)) = RF f64 (lin_coord x)) as E.
  { destruct W as [W|W]; [rewrite W; apply RF_id, RF_FF|]. f_equal. eapply exact_wide; eassumption. }
  rewrite E in K. exact K.
Qed.

Lemma from16_portable : forall pf (f : flt f64), wide pf -> takum_linear16_from_float64 pf f = takum_linear16_from_float64 x86_64 f.
Proof.
  intros pf f W. assert (wide x86_64) as W' by (right; left; reflexivity).
  destruct (is_finite f) eqn:Fi.
  - destruct (Req_dec (B2R f) 0) as [Z|N].
    + destruct f as [s| | |s m e H]; [|discriminate|discriminate|].
      * destruct pf as [F b]; destruct W as [W | [W | W] ]; cbn [ld] in W; subst F; destruct s; reflexivity.
      * exfalso. cbn in Z. apply (F2R_neq_0 radix2) in Z; [contradiction|]. destruct s; discriminate.
    + rewrite (from16_value pf f _ W (conj Fi eq_refl) N), (from16_value x86_64 f _ W' (conj Fi eq_refl) N). reflexivity.
  - destruct f as [s|s| |s m e H]; try discriminate; destruct pf as [F b]; destruct W as [W | [W | W] ]; cbn [ld] in W; subst F; reflexivity.
Qed.

Lemma to16 : forall pf t, wide pf -> is_intn 16 t -> takum_linear16_to_float64 pf t = takum_linear16_to_float64 x86_64 t.
Proof. intros pf t W It. destruct (to_float_portable pf t W) as (_ & H & _). apply H. assumption. Qed.

Lemma binary16 : forall pf fd fl fl' fx a b, wide pf -> is_intn 16 a -> is_intn 16 b ->
  binary_lin pf fd fl fx W16 a b = binary_lin x86_64 fd fl' fx W16 a b.
Proof.
  intros pf fd fl fl' fx a b W Ia Ib. unfold binary_lin, lin_to_double, lin_from_double.
  rewrite (to16 pf a W Ia), (to16 pf b W Ib).
  destruct (takum_linear16_to_float64 x86_64 a); [|reflexivity]. destruct (takum_linear16_to_float64 x86_64 b); [|reflexivity].
  cbn [bind]. apply from16_portable. assumption.
Qed.

Lemma unary16 : forall pf fd fl fl' fx a, wide pf -> is_intn 16 a ->
  unary_lin pf fd fl fx W16 a = unary_lin x86_64 fd fl' fx W16 a.
Proof.
  intros pf fd fl fl' fx a W Ia. unfold unary_lin, lin_to_double, lin_from_double.
  rewrite (to16 pf a W Ia).
  destruct (takum_linear16_to_float64 x86_64 a); [|reflexivity].
  cbn [bind]. apply from16_portable. assumption.
Qed.

Theorem sixteen_portable : forall pf lm, wide pf ->
  (forall f : flt f64, takum_linear16_from_float64 pf f = takum_linear16_from_float64 x86_64 f) /\
  (forall a b, is_intn 16 a -> is_intn 16 b ->
     takum_linear_addition pf W16 a b = takum_linear_addition x86_64 W16 a b /\
     takum_linear_subtraction pf W16 a b = takum_linear_subtraction x86_64 W16 a b /\
     takum_linear_multiplication pf W16 a b = takum_linear_multiplication x86_64 W16 a b /\
     takum_linear_division pf W16 a b = takum_linear_division x86_64 W16 a b /\
     takum_linear_power pf lm W16 a b = takum_linear_power x86_64 lm W16 a b /\
     takum_linear_hypotenuse pf lm W16 a b = takum_linear_hypotenuse x86_64 lm W16 a b /\
     takum_linear_arctan2 pf lm W16 a b = takum_linear_arctan2 x86_64 lm W16 a b) /\
  (forall a, is_intn 16 a ->
     takum_linear_square_root pf W16 a = takum_linear_square_root x86_64 W16 a) /\
  (forall u a, in_double u -> is_intn 16 a ->
     takum_linear_unary pf lm u W16 a = takum_linear_unary x86_64 lm u W16 a).
Proof.
  intros pf lm W. split; [intros f; apply from16_portable; assumption|]. split; [|split].
  - intros a b Ia Ib. repeat split; apply binary16; assumption.
  - intros a Ia. apply unary16; assumption.
  - intros u a Hu Ia. destruct Hu; apply unary16; assumption.
Qed.

(** the constant sqrt(e), converted to float and double *)
Lemma sqrte32 : forall pf, wide pf -> fcast f32 (SQRTE pf) = fcast f32 (SQRTE x86_64).
Proof.
  intros [F b] W. apply B2SF_inj. destruct W as [W | [W | W] ]; cbn [ld] in W; subst F; vm_compute; reflexivity.
Qed.
Lemma sqrte64 : forall pf, wide pf -> fcast f64 (SQRTE pf) = fcast f64 (SQRTE x86_64).
Proof.
  intros [F b] W. apply B2SF_inj. destruct W as [W | [W | W] ]; cbn [ld] in W; subst F; vm_compute; reflexivity.
Qed.

Theorem log_to_float_portable : forall pf lm t, wide pf ->
  takum8_to_float32 pf lm t = takum8_to_float32 x86_64 lm t /\
  takum16_to_float32 pf lm t = takum16_to_float32 x86_64 lm t /\
  takum32_to_float32 pf lm t = takum32_to_float32 x86_64 lm t /\
  takum16_to_float64 pf lm t = takum16_to_float64 x86_64 lm t /\
  takum32_to_float64 pf lm t = takum32_to_float64 x86_64 lm t /\
  takum_linear16_from_takum16 pf lm t = takum_linear16_from_takum16 x86_64 lm t.
Proof.
  intros pf lm t W. unfold takum8_to_float32, takum16_to_float32, takum32_to_float32, takum_linear16_from_takum16, takum16_to_float64, takum32_to_float64.
  rewrite (sqrte32 pf W), (sqrte64 pf W). repeat split; try reflexivity.
  destruct (codec_takum16_to_l t); [|reflexivity]. cbn [bind]. apply from16_portable. assumption.
Qed.

(** other widths: one times a number, and a number plus zero *)
Theorem other_widths_ub : forall pf, ld pf = f64 \/ ld pf = f128 ->
  takum8_multiplication pf 0x40 0x44 = UB /\
  takum32_multiplication pf 0x40000000 0x44000000 = UB /\
  takum_linear_addition pf W8 0x44 0 = UB /\
  takum_linear_addition pf W32 0x44000000 0 = UB.
Proof.
  intros [F b] W. destruct W as [W | W]; cbn [ld] in W; subst F; destruct b; vm_compute; repeat split; reflexivity.
Qed.
Theorem other_widths_wrong : forall pf, wide pf -> pf <> x86_64 ->
  takum8_multiplication pf 0x40 0x42 <> takum8_multiplication x86_64 0x40 0x42 /\
  takum32_multiplication pf 0x40000000 0x42000000 <> takum32_multiplication x86_64 0x40000000 0x42000000 /\
  takum64_multiplication pf 0x4000000000000000 0x4200000000000000 <> takum64_multiplication x86_64 0x4000000000000000 0x4200000000000000 /\
  takum_linear_addition pf W8 0x42 0 <> takum_linear_addition x86_64 W8 0x42 0 /\
  takum_linear_addition pf W32 0x42000000 0 <> takum_linear_addition x86_64 W32 0x42000000 0 /\
  takum_linear_addition pf W64 0x4200000000000000 0 <> takum_linear_addition x86_64 W64 0x4200000000000000 0.
Proof.
  intros [F b] W N. destruct W as [W | [W | W] ]; cbn [ld] in W; subst F; destruct b; try (exfalso; apply N; reflexivity);
    (split; [|split; [|split; [|split; [|split] ] ] ]); vm_compute; discriminate.
Qed.
