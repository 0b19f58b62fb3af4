(** Conversions from floats depend on the value of the float and not on its
    format (C109). *)
From Coq Require Import ZArith Reals Bool Lia Lra.
From Flocq Require Import Core.Core IEEE754.BinarySingleNaN.
From Verif Require Import CModel FloatModel WidthConv Codec Spec FloatSpec CodeFacts SpecFacts ValueFacts RoundFacts
  WidthFacts WidthProps FloatFacts DecodeFacts EncodeFacts Machine Libm LibmSpec Conversion LinApi LinFacts LinProps LogConv WrapApi LogAlgebra Faithful Agree.
Local Open Scope R_scope.

Lemma lin_coord_exact80 : forall F (f : flt F) x, F = f32 \/ F = f64 -> isf f x -> x <> 0 -> RF f80 (lin_coord x) = lin_coord x.
Proof.
  intros F f x [-> | ->] Hf Hx.
  - apply (lin_coord_exact f64 f80 (fcast f64 f)); [tauto| |assumption]. apply isf_fcast_up; [split; simpl; lia|assumption].
  - apply (lin_coord_exact f64 f80 f); tauto.
Qed.
Lemma zero_or : forall F (f : flt F), is_finite f = true -> B2R f = 0 -> exists s, f = B754_zero s.
Proof.
  intros F f Ff E. destruct f as [s|s| |s m e H]; try discriminate; [exists s; reflexivity|]. exfalso. simpl in E.
  apply eq_0_F2R in E. destruct s; discriminate.
Qed.
Lemma from_rho_format : forall n F F' (f : flt F) (f' : flt F') x, (F <> f128)%type -> F' <> f128 -> (n <> 16%Z \/ (F <> f32 /\ F' <> f32)) -> isf f x -> isf f' x -> x <> 0 ->
  from_rho n F (lin_coord x) = from_rho n F' (lin_coord x).
Proof.
  intros n F F' f f' x N N' H Hf Hf' Nx.
  assert (F = f80 -> F' = f80 \/ RF f80 (lin_coord x) = lin_coord x) as A.
  { intros _. destruct F'; try contradiction; [right; apply (lin_coord_exact80 f32 f'); tauto|right; apply (lin_coord_exact80 f64 f'); tauto|left; reflexivity]. }
  assert (F' = f80 -> F = f80 \/ RF f80 (lin_coord x) = lin_coord x) as A'.
  { intros _. destruct F; try contradiction; [right; apply (lin_coord_exact80 f32 f); tauto|right; apply (lin_coord_exact80 f64 f); tauto|left; reflexivity]. }
  unfold from_rho. destruct (Z.eqb_spec n 8); [|destruct (Z.eqb_spec n 16)]; destruct F, F'; try contradiction; try reflexivity;
  try (destruct H as [H|[H1 H2]]; [contradiction|]; try congruence);
  try (destruct (A eq_refl) as [K|K]; [discriminate|rewrite K; reflexivity]); try (destruct (A' eq_refl) as [K|K]; [discriminate|rewrite K; reflexivity]).
Qed.
Theorem linear_from_value : forall n F F' g g' (f : flt F) (f' : flt F'), linear_from_float n F g -> linear_from_float n F' g' ->
  n <> 16%Z \/ (F <> f32 /\ F' <> f32) -> is_finite f = true -> is_finite f' = true -> B2R f = B2R f' -> g f = g' f'.
Proof.
  intros n F F' g g' f f' Hg Hg' H Ff Ff' E. destruct (linear_from_form n F g Hg) as (_ & _ & _ & G & GZ & _). destruct (linear_from_form n F' g' Hg') as (_ & _ & _ & G' & GZ' & _).
  destruct (Req_dec (B2R f) 0) as [Z0|N0].
  - destruct (zero_or F f Ff Z0) as (s & ->). rewrite E in Z0. destruct (zero_or F' f' Ff' Z0) as (s' & ->). rewrite GZ, GZ'. reflexivity.
  - assert (isf f (B2R f)) as I by (split; [assumption|reflexivity]). assert (isf f' (B2R f)) as I' by (split; [assumption|congruence]).
    rewrite (G f _ I N0), (G' f' _ I' N0). rewrite (from_rho_format n F F' f f' (B2R f)); try assumption; [reflexivity|destruct Hg; discriminate|destruct Hg'; discriminate].
Qed.

(** * Logarithmic takums *)
Definition from80 (lm : libm) (n : Z) (f : flt f80) : outcome Z :=
  if (n =? 64)%Z then takum64_from_extended_float x86_64 lm f else if (n =? 16)%Z then takum16_from_extended_float x86_64 lm f else takum8_from_extended_float x86_64 lm f.
Lemma as_extended : forall lm n F g (f : flt F), log_from_float lm n F g -> n = 64%Z \/ ((n = 8%Z \/ n = 16%Z) /\ F <> f32) -> is_finite f = true -> B2R f <> 0 ->
  g f = from80 lm n (fcast f80 f).
Proof.
  intros lm n F g f Hg H Ff N0.
  assert (F <> f128) as NF by (destruct Hg; discriminate).
  assert (isf f (B2R f)) as I by (split; [assumption|reflexivity]).
  assert (isf (fcast f80 f) (B2R f)) as I' by (apply isf_fcast_up; [destruct F; try contradiction; split; simpl; lia|assumption]).
  assert (feq f (fzero F) = false) as Z1 by (rewrite (feq_isf _ _ _ _ I (isf_zero F)); apply Req_bool_false; assumption).
  assert (feq (fcast f80 f) (fzero f80) = false) as Z2 by (rewrite (feq_isf _ _ _ _ I' (isf_zero f80)); apply Req_bool_false; assumption).
  assert (fisfinite f = true) as F1 by exact Ff. assert (fisfinite (fcast f80 f) = true) as F2 by exact (proj1 I').
  pose proof (flt_zero F f _ I) as L1. pose proof (flt_zero f80 _ _ I') as L2.
  destruct Hg; try (exfalso; lia); try (exfalso; destruct H as [H|[_ H]]; [lia|congruence]);
  unfold from80; cbn [Z.eqb Pos.eqb];
  unfold takum64_from_float32, takum64_from_float64, takum64_from_extended_float, takum16_from_float64, takum16_from_extended_float, takum8_from_float64, takum8_from_extended_float;
  change (ld x86_64) with f80 in *; rewrite ?Z1, ?Z2, ?F1, ?F2, ?L1, ?L2; cbn [negb]; try reflexivity;
  replace (fcast f80 f) with f by (apply (isf_inj f80 _ _ (B2R f)); assumption); rewrite ?L1; reflexivity.
Qed.
Theorem log_from_value : forall lm n F F' g g' (f : flt F) (f' : flt F'), log_from_float lm n F g -> log_from_float lm n F' g' ->
  n = 64%Z \/ ((n = 8%Z \/ n = 16%Z) /\ F <> f32 /\ F' <> f32) -> is_finite f = true -> is_finite f' = true -> B2R f = B2R f' -> g f = g' f'.
Proof.
  intros lm n F F' g g' f f' Hg Hg' H Ff Ff' E.
  destruct (Req_dec (B2R f) 0) as [Z0|N0].
  - destruct (zero_or F f Ff Z0) as (s & ->). rewrite E in Z0. destruct (zero_or F' f' Ff' Z0) as (s' & ->).
    transitivity (Val 0%Z); [destruct Hg; destruct s; reflexivity|destruct Hg'; destruct s'; reflexivity].
  - rewrite (as_extended lm n F g f Hg) by (assumption || tauto). rewrite (as_extended lm n F' g' f' Hg') by (congruence || tauto). f_equal.
    assert (F <> f128) by (destruct Hg; discriminate). assert (F' <> f128) by (destruct Hg'; discriminate).
    apply (isf_inj f80 _ _ (B2R f)); [| |assumption]; (apply isf_fcast_up; [|split; [assumption|congruence]]); [destruct F|destruct F']; try contradiction; split; simpl; lia.
Qed.
Theorem log_from_value_close : forall lm n F F' g g' (f : flt F) (f' : flt F'), c99 lm -> log_from_float lm n F g -> log_from_float lm n F' g' ->
  is_finite f = true -> is_finite f' = true -> B2R f = B2R f' -> exists t t', g f = Val t /\ g' f' = Val t' /\ (Z.abs (t - t') <= 1)%Z.
Proof.
  intros lm n F F' g g' f f' C Hg Hg' Ff Ff' E. assert (std_width n) as Sw by (destruct Hg; unfold std_width; tauto).
  destruct (log_from_faithful lm n F g f C Hg Ff) as (t & Et & H). destruct (log_from_faithful lm n F' g' f' C Hg' Ff') as (t' & Et' & H').
  exists t, t'. split; [assumption|]. split; [assumption|]. rewrite <- E in H'. eapply faithful_unit; eassumption.
Qed.
Theorem linear_from_value_close : forall n F F' g g' (f : flt F) (f' : flt F'), linear_from_float n F g -> linear_from_float n F' g' ->
  is_finite f = true -> is_finite f' = true -> B2R f = B2R f' -> exists t t', g f = Val t /\ g' f' = Val t' /\ (Z.abs (t - t') <= 1)%Z.
Proof.
  intros n F F' g g' f f' Hg Hg' Ff Ff' E. assert (std_width n) as Sw by (destruct Hg; unfold std_width; tauto).
  destruct (lin_from_faithful n F g f Hg Ff) as (t & Et & _ & H). destruct (lin_from_faithful n F' g' f' Hg' Ff') as (t' & Et' & _ & H').
  exists t, t'. split; [assumption|]. split; [assumption|]. rewrite <- E in H'. eapply faithful_unit; eassumption.
Qed.

(** * Linear takums of 16 bits: the coordinate of a float32 is rounded to a float
    first; 1.0000001 (binary) 2^100 + 1 unit in the last place *)
Lemma linear16_formats_differ : ~ (forall f : flt f32, is_finite f = true ->
  takum_linear16_from_float32 f = takum_linear16_from_float64 x86_64 (fcast f64 f)).
Proof.
  intro H. assert (is_finite (fconst f32 8519681 77) = true) as Ff by (vm_compute; reflexivity). specialize (H (fconst f32 8519681 77) Ff).
  assert (takum_linear16_from_float32 (fconst f32 8519681 77) = Val 29856%Z) as A by (vm_compute; reflexivity).
  assert (takum_linear16_from_float64 x86_64 (fcast f64 (fconst f32 8519681 77)) = Val 29857%Z) as B by (vm_compute; reflexivity).
  pose proof (eq_trans (eq_sym A) (eq_trans H B)) as K. discriminate K.
Qed.
