(** Every function of the API returns a takum of its format for every argument,
    whatever the mathematical library does. *)
From Coq Require Import ZArith Reals Bool Lia Lra.
From Flocq Require Import Core.Core IEEE754.BinarySingleNaN.
From Verif Require Import CModel FloatModel Libm WidthConv Spec CodeFacts SpecFacts ValueFacts RoundFacts WidthFacts WidthApi WidthProps Codec FloatFacts DecodeFacts EncodeFacts
  FloatSpec Conversion Arith Wrappers LogApi LinApi Machine LogFacts LogProps MiscProps LinFacts LinDec LinProps LinArith WrapApi.
Local Open Scope Z_scope.

Definition good_val (n : Z) (r : outcome Z) : Prop := exists t, r = Val t /\ is_intn n t.

Lemma dec_total : forall m t, mach_ok m -> is_intn (m_n m) t -> exists l, m_dec m t = Val l.
Proof.
  intros m t Hm It. destruct (takum_cases _ t It) as [-> | [-> | Hr]].
  - rewrite (mo_dec0 m Hm). eauto.
  - rewrite (mo_decN m Hm). eauto.
  - destruct (mo_dec m Hm t Hr) as (l & E & _). eauto.
Qed.
Lemma enc_total : forall m s l, mach_ok m -> good_val (m_n m) (m_enc m s l).
Proof.
  intros m s l Hm. pose proof (mo_range m Hm) as Hr. unfold good_val. destruct l as [b|b| |b mm e He].
  - rewrite (mo_enc m Hm s _ 0%R) by (split; reflexivity). eexists. split; [reflexivity|]. apply asm_enc_intn. lia.
  - destruct b; [rewrite (mo_enc_ninf m Hm)|rewrite (mo_enc_pinf m Hm)]; eexists; (split; [reflexivity|]).
    + apply intn_0. lia.
    + apply nar_intn. lia.
  - rewrite (mo_enc_nan m Hm). eexists. split; [reflexivity|]. apply nar_intn. lia.
  - rewrite (mo_enc m Hm s _ (B2R (B754_finite b mm e He))) by (split; reflexivity). eexists. split; [reflexivity|]. apply asm_enc_intn. lia.
Qed.

Lemma enc8 : forall s l, good_val 8 (codec_takum8_from_s_and_l x86_64 s l).
Proof. intros. apply (enc_total mach8 s l mach8_ok). Qed.
Lemma enc16 : forall s l, good_val 16 (codec_takum16_from_s_and_l s l).
Proof. intros. apply (enc_total mach16 s l mach16_ok). Qed.
Lemma enc32 : forall s l, good_val 32 (codec_takum32_from_s_and_l x86_64 s l).
Proof. intros. apply (enc_total mach32 s l mach32_ok). Qed.
Lemma enc64 : forall s l, good_val 64 (codec_takum64_from_s_and_l x86_64 s l).
Proof. intros. apply (enc_total mach64 s l mach64_ok). Qed.
Lemma dec8 : forall t, is_intn 8 t -> exists l, codec_takum8_to_l t = Val l.
Proof. intros t. apply (dec_total mach8 t mach8_ok). Qed.
Lemma dec16 : forall t, is_intn 16 t -> exists l, codec_takum16_to_l t = Val l.
Proof. intros t. apply (dec_total mach16 t mach16_ok). Qed.
Lemma dec32 : forall t, is_intn 32 t -> exists l, codec_takum32_to_l t = Val l.
Proof. intros t. apply (dec_total mach32 t mach32_ok). Qed.
Lemma dec64 : forall t, is_intn 64 t -> exists l, codec_takum64_to_l x86_64 t = Val l.
Proof. intros t. apply (dec_total mach64 t mach64_ok). Qed.

Lemma narrow_total : forall k A B f r, narrowing k A B f -> good_val A r -> good_val B (bind r f).
Proof.
  intros k A B f r H (t & -> & It). cbn [bind]. destruct (narrowing_rounds k A B f t H It) as (t' & E & I & _). exists t'. auto.
Qed.

Lemma good_nar : forall n, (1 <= n)%Z -> good_val n (Val (nar n)).
Proof. intros n H. eexists. split; [reflexivity|apply nar_intn; assumption]. Qed.
Lemma good_0 : forall n, (1 <= n)%Z -> good_val n (Val 0).
Proof. intros n H. eexists. split; [reflexivity|apply intn_0; assumption]. Qed.

Lemma log_from_total : forall lm n F f x, log_from_float lm n F f -> good_val n (f x).
Proof.
  intros lm n F f x H. revert x. destruct H; intros x;
    unfold takum8_from_float32, takum16_from_float32, takum32_from_float32, takum64_from_float32,
      takum8_from_float64, takum16_from_float64, takum32_from_float64, takum64_from_float64,
      takum8_from_extended_float, takum16_from_extended_float, takum32_from_extended_float, takum64_from_extended_float;
    (destruct (feq _ _); [apply good_0; lia|]); (destruct (negb _); [first [apply (good_nar 8); lia|apply (good_nar 16); lia|apply (good_nar 32); lia|apply (good_nar 64); lia]|]).
  all: try first [apply enc8|apply enc16|apply enc32|apply enc64].
  all: eapply narrow_total; [constructor|apply enc64].
Qed.
Lemma lin_from_total : forall n F f x, linear_from_float n F f -> good_val n (f x).
Proof.
  intros n F f x H. destruct (linear_from_form _ _ _ H) as (Hm & En & _ & Hf & H0 & Hi & Hn).
  pose proof (std_range n (from_std _ _ _ H)) as Hr. destruct x as [s|s| |s m e He].
  - rewrite H0. apply good_0. lia.
  - rewrite Hi. apply good_nar. lia.
  - rewrite Hn. apply good_nar. lia.
  - eexists. split.
    + apply Hf; [split; reflexivity|]. intros E. apply (eq_0_F2R radix2) in E. destruct s; discriminate.
    + apply asm_enc_intn. lia.
Qed.
Lemma from_total : forall lm k n F f x, from_float lm k n F f -> good_val n (f x).
Proof. intros lm k n F f x H. revert x. destruct H as [? ? ? H|? ? ? H]; intros x; [eapply log_from_total|eapply lin_from_total]; eassumption. Qed.

Lemma log_to_total : forall lm n F f t, log_to_float lm n F f -> is_intn n t -> exists y, f t = Val y.
Proof.
  intros lm n F f t H It. destruct H;
    unfold takum8_to_float32, takum16_to_float32, takum32_to_float32, takum64_to_float32,
      takum8_to_float64, takum16_to_float64, takum32_to_float64, takum64_to_float64,
      takum8_to_extended_float, takum16_to_extended_float, takum32_to_extended_float, takum64_to_extended_float.
  all: first [destruct (dec8 t It) as [l ->]|destruct (dec16 t It) as [l ->]|destruct (dec32 t It) as [l ->]|destruct (dec64 t It) as [l ->]].
  all: eexists; reflexivity.
Qed.
Lemma lin_to_total : forall n F f t, linear_to_float n F f -> is_intn n t -> exists y, f t = Val y.
Proof.
  intros n F f t H It. destruct (takum_cases _ t It) as [-> | [-> | Hr]].
  - rewrite (linear_to_0 _ _ _ H). eauto.
  - rewrite (linear_to_nar _ _ _ H). eauto.
  - destruct (linear_to_real _ _ _ _ H Hr) as (y & E & _). eauto.
Qed.
Lemma to_total : forall lm k n F f t, to_float lm k n F f -> is_intn n t -> exists y, f t = Val y.
Proof. intros lm k n F f t [? ? ? H|? ? ? H] It; [eapply log_to_total|eapply lin_to_total]; eassumption. Qed.

(** conversions used by the wrappers *)
Lemma log_ld_to : forall lm w, log_to_float lm (bits w) f80 (log_to_ld x86_64 lm w).
Proof. intros lm []; constructor. Qed.
Lemma log_ld_from : forall lm w, log_from_float lm (bits w) f80 (log_from_ld x86_64 lm w).
Proof. intros lm []; constructor. Qed.
Lemma lin_ld_to : forall w, linear_to_float (bits w) f80 (lin_to_ld x86_64 w).
Proof. intros []; constructor. Qed.
Lemma lin_ld_from : forall w, linear_from_float (bits w) f80 (lin_from_ld x86_64 w).
Proof. intros []; constructor. Qed.
Lemma lin_d_to : forall w, linear_to_float (bits w) f64 (lin_to_double x86_64 w).
Proof. intros []; constructor. Qed.
Lemma lin_d_from : forall w, linear_from_float (bits w) f64 (lin_from_double x86_64 w).
Proof. intros []; constructor. Qed.

Lemma unary_log_total : forall lm fl fx w t, is_intn (bits w) t -> good_val (bits w) (unary_log x86_64 lm fl fx w t).
Proof.
  intros lm fl fx w t It. unfold unary_log. destruct (log_to_total _ _ _ _ t (log_ld_to lm w) It) as [y ->]. cbn [bind].
  apply (log_from_total _ _ _ _ _ (log_ld_from lm w)).
Qed.
Lemma unary_lin_total : forall fd fl fx w t, is_intn (bits w) t -> good_val (bits w) (unary_lin x86_64 fd fl fx w t).
Proof.
  intros fd fl fx w t It. unfold unary_lin.
  destruct (lin_to_total _ _ _ t (lin_ld_to w) It) as [y Ey]. destruct (lin_to_total _ _ _ t (lin_d_to w) It) as [z Ez].
  destruct w; [rewrite Ez|rewrite Ez|rewrite Ez|rewrite Ey]; cbn [bind].
  - apply (lin_from_total _ _ _ _ (lin_d_from W8)).
  - apply (lin_from_total _ _ _ _ (lin_d_from W16)).
  - apply (lin_from_total _ _ _ _ (lin_d_from W32)).
  - apply (lin_from_total _ _ _ _ (lin_ld_from W64)).
Qed.
Lemma binary_log_total : forall lm fl fx w a b, is_intn (bits w) a -> is_intn (bits w) b -> good_val (bits w) (binary_log x86_64 lm fl fx w a b).
Proof.
  intros lm fl fx w a b Ia Ib. unfold binary_log. destruct (log_to_total _ _ _ _ a (log_ld_to lm w) Ia) as [x ->].
  destruct (log_to_total _ _ _ _ b (log_ld_to lm w) Ib) as [y ->]. cbn [bind].
  apply (log_from_total _ _ _ _ _ (log_ld_from lm w)).
Qed.
Lemma binary_lin_total : forall fd fl fx w a b, is_intn (bits w) a -> is_intn (bits w) b -> good_val (bits w) (binary_lin x86_64 fd fl fx w a b).
Proof.
  intros fd fl fx w a b Ia Ib. unfold binary_lin.
  destruct (lin_to_total _ _ _ a (lin_ld_to w) Ia) as [x Ex]. destruct (lin_to_total _ _ _ a (lin_d_to w) Ia) as [u Eu].
  destruct (lin_to_total _ _ _ b (lin_ld_to w) Ib) as [y Ey]. destruct (lin_to_total _ _ _ b (lin_d_to w) Ib) as [v Ev].
  destruct w; [rewrite Eu, Ev|rewrite Eu, Ev|rewrite Eu, Ev|rewrite Ex, Ey]; cbn [bind].
  - apply (lin_from_total _ _ _ _ (lin_d_from W8)).
  - apply (lin_from_total _ _ _ _ (lin_d_from W16)).
  - apply (lin_from_total _ _ _ _ (lin_d_from W32)).
  - apply (lin_from_total _ _ _ _ (lin_ld_from W64)).
Qed.

Lemma unary_total : forall k lm u w t, is_intn (bits w) t -> good_val (bits w) (api_unary k lm u w t).
Proof. intros [] lm u w t It; [apply unary_log_total|apply unary_lin_total]; assumption. Qed.

Lemma binary_total : forall k lm b w x y, is_intn (bits w) x -> is_intn (bits w) y -> good_val (bits w) (api_binary k lm b w x y).
Proof.
  intros k lm b w x y Ix Iy.
  destruct k, b; try (apply binary_log_total; assumption); try (apply binary_lin_total; assumption).
  all: cbn [api_binary]; destruct w; cbn [bits] in *;
    unfold takum8_multiplication, takum16_multiplication, takum32_multiplication, takum64_multiplication,
      takum8_division, takum16_division, takum32_division, takum64_division.
  all: first [destruct (dec8 x Ix) as [l ->]; destruct (dec8 y Iy) as [l' ->]
             |destruct (dec16 x Ix) as [l ->]; destruct (dec16 y Iy) as [l' ->]
             |destruct (dec32 x Ix) as [l ->]; destruct (dec32 y Iy) as [l' ->]
             |destruct (dec64 x Ix) as [l ->]; destruct (dec64 y Iy) as [l' ->]]; cbn [bind].
  all: first [apply enc8|apply enc16|apply enc32|apply enc64].
Qed.

Lemma nar_good : forall n, std_width n -> good_val n (Val (NaR n)).
Proof. intros n H. pose proof (std_range n H). exists (nar n). split; [|apply nar_intn; lia]. unfold nar, NaR. reflexivity. Qed.

Lemma ipow_total : forall k lm w t m, is_intn (bits w) t -> good_val (bits w) (api_integer_power k lm w t m).
Proof.
  intros k lm w t m It. pose proof (nar_good _ (w_std w)) as Hn. destruct k; cbn [api_integer_power].
  - destruct w; cbn [bits] in *; unfold takum8_integer_power, takum16_integer_power, takum32_integer_power, takum64_integer_power.
    1-3: destruct (_ && _); [exact Hn|].
    4: destruct (_ || _); [exact Hn|].
    + destruct (dec8 t It) as [l ->]; apply enc8.
    + destruct (dec16 t It) as [l ->]; apply enc16.
    + destruct (dec32 t It) as [l ->]; apply enc32.
    + destruct (log_to_total _ _ _ _ t (log_ld_to lm W64) It) as [y ->]. cbn [bind]. apply (log_from_total _ _ _ _ _ (log_ld_from lm W64)).
  - unfold takum_linear_integer_power. destruct (_ || _); [exact Hn|].
    destruct (lin_to_total _ _ _ t (lin_ld_to w) It) as [y ->]. cbn [bind]. apply (lin_from_total _ _ _ _ (lin_ld_from w)).
Qed.
Lemma root_total : forall k lm w t m, is_intn (bits w) t -> good_val (bits w) (api_root k lm w t m).
Proof.
  intros k lm w t m It. pose proof (nar_good _ (w_std w)) as Hn. destruct k; cbn [api_root].
  - destruct w; cbn [bits] in *; unfold takum8_root, takum16_root, takum32_root, takum64_root;
      (destruct (root_nar t m); [exact Hn|]).
    + destruct (dec8 t It) as [l ->]; apply enc8.
    + destruct (dec16 t It) as [l ->]; apply enc16.
    + destruct (dec32 t It) as [l ->]; apply enc32.
    + destruct (dec64 t It) as [l ->]; apply enc64.
  - unfold takum_linear_root. destruct (_ || _); [exact Hn|].
    destruct (lin_to_total _ _ _ t (lin_ld_to w) It) as [y ->]. cbn [bind]. apply (lin_from_total _ _ _ _ (lin_ld_from w)).
Qed.

(** conversions between the formats *)
Lemma conv_total : forall lm k n m F h g t, to_float lm k n F h -> (exists k', from_float lm k' m F g) -> is_intn n t -> good_val m (bind (h t) g).
Proof.
  intros lm k n m F h g t Hh [k' Hg] It. destruct (to_total _ _ _ _ _ _ Hh It) as [y ->]. cbn [bind]. eapply from_total. exact Hg.
Qed.
Lemma log_lin_total : forall lm n m f t, log_to_linear lm n m f -> is_intn n t -> good_val m (f t).
Proof.
  intros lm n m f t H It. destruct H;
    (eapply (conv_total lm Logarithmic); [apply to_float_log; constructor|exists Linear; apply from_float_lin; constructor|exact It]).
Qed.
Lemma lin_log_total : forall lm n m f t, linear_to_log lm n m f -> is_intn n t -> good_val m (f t).
Proof.
  intros lm n m f t H It. destruct H;
    (eapply (conv_total lm Linear); [apply to_float_lin; constructor|exists Logarithmic; apply from_float_log; constructor|exact It]).
Qed.

Lemma takum_function_total : forall lm n m f t, takum_function lm n m f -> is_intn n t -> good_val m (f t).
Proof.
  intros lm n m f t H It. destruct H as [k u w|n f H|n f H|n f H|n f H|k n f H|k n m f H|k n m f H|n m f H|n m f H].
  - apply unary_total. assumption.
  - destruct (inversion_lossless n f t H It) as (t' & E & I & _). exists t'. auto.
  - destruct H; apply unary_lin_total; exact It.
  - destruct H; unfold takum8_square_root, takum16_square_root, takum32_square_root, takum64_square_root.
    + destruct (t <? 0); [apply (nar_good 8); left; reflexivity|]. destruct (dec8 t It) as [l ->]; apply enc8.
    + destruct (t <? 0); [apply (nar_good 16); right; left; reflexivity|]. destruct (dec16 t It) as [l ->]; apply enc16.
    + destruct (t <? 0); [apply (nar_good 32); right; right; left; reflexivity|]. destruct (dec32 t It) as [l ->]; apply enc32.
    + destruct (t <? 0); [apply (nar_good 64); right; right; right; reflexivity|]. destruct (dec64 t It) as [l ->]; apply enc64.
  - destruct H; apply unary_lin_total; exact It.
  - assert (std_width n) as Hw by (destruct H; unfold std_width; auto). pose proof (std_range n Hw) as Hr.
    assert (f = sign n) as -> by (destruct H; reflexivity). unfold sign. eexists. split; [reflexivity|].
    assert (2 ^ (n - 1) = 2 * 2 ^ (n - 2)) as E by (replace (n - 1) with (n - 2 + 1) by lia; rewrite Z.pow_add_r by lia; lia).
    assert (0 < 2 ^ (n - 2)) by (apply Z.pow_pos_nonneg; lia). unfold is_intn, ONE, NaR in *.
    destruct (_ =? _); [lia|]. destruct (_ <? _); [lia|]. destruct (_ <? _); lia.
  - destruct (widening_lossless k n m f t H It) as (t' & E & I & _). exists t'. auto.
  - destruct (narrowing_rounds k n m f t H It) as (t' & E & I & _). exists t'. auto.
  - eapply log_lin_total; eassumption.
  - eapply lin_log_total; eassumption.
Qed.
