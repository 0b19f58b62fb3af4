(** NaR propagates through all functions but the power. *)
From Coq Require Import ZArith Reals Bool Lia Lra.
From Flocq Require Import Core.Core IEEE754.BinarySingleNaN.
From Verif Require Import CModel FloatModel Libm LibmSpec WidthConv Spec CodeFacts SpecFacts ValueFacts WidthFacts WidthApi WidthProps Codec FloatFacts DecodeFacts
  Conversion Arith Wrappers Machine LogFacts LogApi MiscProps LinApi LinFacts LinDec LinArith LogProps NearFacts WrapApi WrapTotal LogConv.
Local Open Scope Z_scope.

Lemma nan_comp : forall F (y : flt F), feq B754_nan y = false /\ fge (B754_nan : flt F) y = false /\ fisinf (B754_nan : flt F) = false /\ flt_ (B754_nan : flt F) y = false.
Proof. intros F []; repeat split; reflexivity. Qed.

Section Nan.
Variable lm : libm.
Hypothesis C : c99 lm.

Lemma m1_nan : forall g F, m1 lm g (B754_nan : flt F) = B754_nan.
Proof. intros g F. apply (c_nan1 lm C). Qed.
Lemma pow10_nan : cpow lm (fint f80 10) B754_nan = B754_nan.
Proof.
  apply (c_pow_nan_r lm C). intros _. destruct (isf_fint (f := f80) 10) as [_ E]; [simpl; lia|]. rewrite E. lra.
Qed.
Lemma ffmod_nan : forall F (y : flt F), ffmod B754_nan y = B754_nan.
Proof. intros F []; reflexivity. Qed.

Lemma ld_nan : forall u, unary_ld x86_64 lm u B754_nan = B754_nan.
Proof.
  intros u. pose proof (fun F y => proj1 (nan_l F y)) as N1. pose proof (fun F y => proj1 (proj2 (nan_l F y))) as N2.
  pose proof (fun F y => proj1 (proj2 (proj2 (nan_l F y)))) as N3. pose proof (fun F y => proj2 (proj2 (proj2 (nan_l F y)))) as N4.
  pose proof (fun F y => proj1 (proj2 (proj2 (nan_r F y)))) as M3. pose proof (fun F y => proj2 (proj2 (proj2 (nan_r F y)))) as M4.
  pose proof (fun F y => proj1 (nan_comp F y)) as Q1. pose proof (fun F y => proj1 (proj2 (nan_comp F y))) as Q2.
  destruct u; cbn [unary_ld]; unfold two_raised_minus_1l, ten_raised_minus_1l, ten_raisedl, lb_1_plusl, lg_1_plusl, sinpil, cospil, tanpil, cotl, cot_pi_timesl, secl, sec_pi_timesl, cscl, csc_pi_timesl,
    arcsin_over_pil, arccospil, arctanpil, arccotl, arccot_over_pil, arcsecl, arcsec_over_pil, arccscl, arccsc_over_pil, cothl, sech_, cschl, arcothl, arsechl, arcschl; cbv zeta;
    unfold cotl, secl, cscl; rewrite ?ffmod_nan, ?Q1, ?Q2, ?M3, ?M4, ?pow10_nan; try rewrite !m1_nan; rewrite ?N1, ?N2, ?N3, ?N4, ?M3, ?M4; try rewrite !m1_nan; rewrite ?N1, ?N2, ?N3, ?N4, ?M3, ?M4; try reflexivity.
  - exact (pow10_nan).
  - change (ld x86_64) with f80. rewrite pow10_nan. reflexivity.
Qed.
Lemma double_nan : forall u, unary_double x86_64 lm u B754_nan = B754_nan.
Proof.
  assert (forall u, via_ld x86_64 (unary_ld x86_64 lm u) B754_nan = B754_nan) as V.
  { intros u. unfold via_ld. change (fcast (ld x86_64) (B754_nan : flt f64)) with (B754_nan : flt f80). rewrite ld_nan. reflexivity. }
  intros u. destruct u; cbn [unary_double]; try apply V; try apply m1_nan. unfold sech_. rewrite m1_nan. apply nan_r.
Qed.
Lemma fixer_nan : forall u F (x : flt F), unary_fixer u F x B754_nan = B754_nan.
Proof. intros u F x. destruct u; try reflexivity; cbn [unary_fixer]; unfold fix_exp, fix_log, fix_csch, fix_sech; rewrite ?(proj1 (nan_comp F _)); reflexivity. Qed.

Lemma log_from_ld_nan : forall w, log_from_ld x86_64 lm w B754_nan = Val (nar (bits w)).
Proof. intros w. apply (log_from_nan lm (bits w) f80); [apply log_ld_from|reflexivity]. Qed.
Lemma log_to_ld_nar : forall w, log_to_ld x86_64 lm w (nar (bits w)) = Val B754_nan.
Proof. intros w. apply (log_to_nar lm (bits w) f80); [assumption|apply log_ld_to]. Qed.
Lemma lin_from_nan : forall n F f, linear_from_float n F f -> f B754_nan = Val (nar n).
Proof. intros n F f H. destruct (linear_from_form _ _ _ H) as (_ & _ & _ & _ & _ & _ & Hn). exact Hn. Qed.

Lemma unary_nar : forall k u w, api_unary k lm u w (nar (bits w)) = Val (nar (bits w)).
Proof.
  intros k u w. destruct k; cbn [api_unary].
  - unfold takum_unary, unary_log. rewrite log_to_ld_nar. cbn [bind]. rewrite ld_nan, fixer_nan. apply log_from_ld_nan.
  - unfold takum_linear_unary, unary_lin. pose proof (linear_to_nar _ _ _ (lin_ld_to w)) as E1. pose proof (linear_to_nar _ _ _ (lin_d_to w)) as E2.
    destruct w; first [rewrite E2|rewrite E1]; cbn [bind]; rewrite ?ld_nan, ?double_nan, fixer_nan.
    + apply (lin_from_nan _ _ _ (lin_d_from W8)).
    + apply (lin_from_nan _ _ _ (lin_d_from W16)).
    + apply (lin_from_nan _ _ _ (lin_d_from W32)).
    + apply (lin_from_nan _ _ _ (lin_ld_from W64)).
Qed.
End Nan.

(** ** The codec *)
Lemma dec_nar : codec_takum8_to_l (nar 8) = Val B754_nan /\ codec_takum16_to_l (nar 16) = Val B754_nan /\
  codec_takum32_to_l (nar 32) = Val B754_nan /\ codec_takum64_to_l x86_64 (nar 64) = Val B754_nan.
Proof. split; [|split; [|split]]; [apply (mo_decN mach8 mach8_ok)|apply (mo_decN mach16 mach16_ok)|apply (mo_decN mach32 mach32_ok)|apply (mo_decN mach64 mach64_ok)]. Qed.
Lemma enc_nan : forall s, codec_takum8_from_s_and_l x86_64 s B754_nan = Val (nar 8) /\ codec_takum16_from_s_and_l s B754_nan = Val (nar 16) /\
  codec_takum32_from_s_and_l x86_64 s B754_nan = Val (nar 32) /\ codec_takum64_from_s_and_l x86_64 s B754_nan = Val (nar 64).
Proof. intros s. split; [exact (mo_enc_nan mach8 mach8_ok s)|split; [exact (mo_enc_nan mach16 mach16_ok s)|split; [exact (mo_enc_nan mach32 mach32_ok s)|exact (mo_enc_nan mach64 mach64_ok s)]]]. Qed.

Ltac nan_simp :=
  rewrite ?(fun F y => proj1 (nan_l F y)), ?(fun F y => proj1 (proj2 (nan_l F y))), ?(fun F y => proj1 (proj2 (proj2 (nan_l F y)))), ?(fun F y => proj2 (proj2 (proj2 (nan_l F y)))),
    ?(fun F y => proj1 (nan_r F y)), ?(fun F y => proj1 (proj2 (nan_r F y))), ?(fun F y => proj1 (proj2 (proj2 (nan_r F y)))), ?(fun F y => proj2 (proj2 (proj2 (nan_r F y)))).

Lemma conv_log_nar : forall lm n m F h g, c99 lm -> log_to_float lm n F h -> linear_from_float m F g -> bind (h (nar n)) g = Val (nar m).
Proof. intros lm n m F h g C Hh Hg. rewrite (log_to_nar lm n F h C Hh). cbn [bind]. apply lin_from_nan. assumption. Qed.
Lemma conv_lin_nar : forall lm n m F h g, linear_to_float n F h -> log_from_float lm m F g -> bind (h (nar n)) g = Val (nar m).
Proof. intros lm n m F h g Hh Hg. rewrite (linear_to_nar n F h Hh). cbn [bind]. apply (log_from_nan lm m F); [assumption|reflexivity]. Qed.

Lemma function_nar : forall lm n m f, c99 lm -> takum_function lm n m f -> f (nar n) = Val (nar m).
Proof.
  intros lm n m f C H. destruct dec_nar as (D8 & D16 & D32 & D64).
  destruct H as [k u w|n f H|n f H|n f H|n f H|k n f H|k n m f H|k n m f H|n m f H|n m f H].
  - apply unary_nar. assumption.
  - destruct H; vm_compute; reflexivity.
  - destruct H; vm_compute; reflexivity.
  - destruct H; vm_compute; reflexivity.
  - destruct H; vm_compute; reflexivity.
  - destruct H; vm_compute; reflexivity.
  - destruct H; vm_compute; reflexivity.
  - destruct H; vm_compute; reflexivity.
  - destruct H; (eapply (conv_log_nar lm); [exact C|constructor|constructor]).
  - destruct H; (eapply (conv_lin_nar lm); [constructor|constructor]).
Qed.

(** ** Functions of two takums *)
(** floats that takums become *)
Lemma log_to_not_inf : forall lm w t, c99 lm -> is_intn (bits w) t -> exists y, log_to_ld x86_64 lm w t = Val y /\ fisinf y = false.
Proof.
  intros lm w t C It. destruct (takum_cases _ t It) as [-> | [-> | Hr]].
  - rewrite (log_to_0 lm _ _ _ C (log_ld_to lm w)). eexists. split; reflexivity.
  - rewrite (log_to_nar lm _ _ _ C (log_ld_to lm w)). eexists. split; reflexivity.
  - destruct (log_to_ld_real lm _ _ t C (log_ld_to lm w) Hr) as (y & p & E & [F _] & _). exists y. split; [assumption|]. destruct y; try reflexivity. discriminate.
Qed.
Lemma lin_to_not_inf : forall n F f t, linear_to_float n F f -> F = f80 \/ (F = f64 /\ n <> 64) -> is_intn n t -> exists y, f t = Val y /\ fisinf y = false.
Proof.
  intros n F f t H HF It. destruct (takum_cases _ t It) as [-> | [-> | Hr]].
  - rewrite (linear_to_0 _ _ _ H). eexists. split; reflexivity.
  - rewrite (linear_to_nar _ _ _ H). eexists. split; reflexivity.
  - destruct (LinProps.lin_to_exact n F f t H HF It) as (y & E & K). exists y. split; [assumption|].
    destruct (value Linear n t) as [x|]; [|rewrite K; reflexivity]. destruct K as [K _]. destruct y; try reflexivity. discriminate.
Qed.

Lemma binary_log_nar : forall lm (fl : flt f80 -> flt f80 -> flt f80) (fx : fixer2) w x y, c99 lm -> is_intn (bits w) x -> is_intn (bits w) y -> x = nar (bits w) \/ y = nar (bits w) ->
  (forall z, fisinf z = false -> fx f80 B754_nan z (fl B754_nan z) = B754_nan /\ fx f80 z B754_nan (fl z B754_nan) = B754_nan) ->
  binary_log x86_64 lm fl fx w x y = Val (nar (bits w)).
Proof.
  intros lm fl fx w x y C Ix Iy H K. unfold binary_log.
  destruct (log_to_not_inf lm w x C Ix) as (a & Ea & Na). destruct (log_to_not_inf lm w y C Iy) as (b & Eb & Nb).
  destruct H as [-> | ->].
  - rewrite (log_to_ld_nar lm C), Eb. cbn [bind]. change (ld x86_64) with f80. rewrite (proj1 (K b Nb)). apply log_from_ld_nan.
  - rewrite (log_to_ld_nar lm C), Ea. cbn [bind]. change (ld x86_64) with f80. rewrite (proj2 (K a Na)). apply log_from_ld_nan.
Qed.
Lemma binary_lin_nar : forall (fd : flt f64 -> flt f64 -> flt f64) (fl : flt f80 -> flt f80 -> flt f80) (fx : fixer2) w x y, is_intn (bits w) x -> is_intn (bits w) y -> x = nar (bits w) \/ y = nar (bits w) ->
  (forall z, fisinf z = false -> fx f80 B754_nan z (fl B754_nan z) = B754_nan /\ fx f80 z B754_nan (fl z B754_nan) = B754_nan) ->
  (forall z, fisinf z = false -> fx f64 B754_nan z (fd B754_nan z) = B754_nan /\ fx f64 z B754_nan (fd z B754_nan) = B754_nan) ->
  binary_lin x86_64 fd fl fx w x y = Val (nar (bits w)).
Proof.
  intros fd fl fx w x y Ix Iy H K K'. unfold binary_lin.
  assert (w <> W64 -> (let! fa := lin_to_double x86_64 w x in let! fb := lin_to_double x86_64 w y in lin_from_double x86_64 w (fx f64 fa fb (fd fa fb))) = Val (nar (bits w))) as D.
  { intros Hw. assert (f64 = f80 \/ (f64 = f64 /\ bits w <> 64)) as HF by (right; split; [reflexivity|]; destruct w; simpl; try lia; contradiction).
    destruct (lin_to_not_inf _ _ _ x (lin_d_to w) HF Ix) as (a & Ea & Na). destruct (lin_to_not_inf _ _ _ y (lin_d_to w) HF Iy) as (b & Eb & Nb).
    destruct H as [-> | ->].
    - rewrite (linear_to_nar _ _ _ (lin_d_to w)), Eb. cbn [bind]. unfold fnan. rewrite (proj1 (K' b Nb)). apply (lin_from_nan _ _ _ (lin_d_from w)).
    - rewrite (linear_to_nar _ _ _ (lin_d_to w)), Ea. cbn [bind]. unfold fnan. rewrite (proj2 (K' a Na)). apply (lin_from_nan _ _ _ (lin_d_from w)). }
  destruct w; try (apply D; discriminate).
  assert (f80 = f80 \/ (f80 = f64 /\ bits W64 <> 64)) as HF by (left; reflexivity).
  destruct (lin_to_not_inf _ _ _ x (lin_ld_to W64) HF Ix) as (a & Ea & Na). destruct (lin_to_not_inf _ _ _ y (lin_ld_to W64) HF Iy) as (b & Eb & Nb).
  destruct H as [-> | ->].
  - rewrite (linear_to_nar _ _ _ (lin_ld_to W64)), Eb. cbn [bind]. unfold fnan. change (ld x86_64) with f80. rewrite (proj1 (K b Nb)). apply (lin_from_nan _ _ _ (lin_ld_from W64)).
  - rewrite (linear_to_nar _ _ _ (lin_ld_to W64)), Ea. cbn [bind]. unfold fnan. change (ld x86_64) with f80. rewrite (proj2 (K a Na)). apply (lin_from_nan _ _ _ (lin_ld_from W64)).
Qed.

Lemma binary_nar : forall k lm b w x y, c99 lm -> b <> n_power -> is_intn (bits w) x -> is_intn (bits w) y -> x = nar (bits w) \/ y = nar (bits w) ->
  api_binary k lm b w x y = Val (nar (bits w)).
Proof.
  intros k lm b w x y C Hb Ix Iy H.
  assert (forall F (z : flt F), fisinf z = false -> fix2_over F B754_nan z (lib2 lm Fhypot F B754_nan z) = B754_nan /\ fix2_over F z B754_nan (lib2 lm Fhypot F z B754_nan) = B754_nan) as Hh.
  { intros F z Hz. destruct (c_hypot_nan lm C F z Hz) as [-> ->]. split; reflexivity. }
  assert (forall F (z : flt F), lib2 lm Fatan2 F B754_nan z = B754_nan /\ lib2 lm Fatan2 F z B754_nan = B754_nan) as Ha by (intros F z; apply (c_atan2_nan lm C)).
  assert (forall z, arctan2pil x86_64 lm B754_nan z = B754_nan /\ arctan2pil x86_64 lm z B754_nan = B754_nan) as Hap.
  { intros z. unfold arctan2pil. destruct (Ha f80 z) as [E1 E2]. change (ld x86_64) with f80. rewrite E1, E2. split; apply nan_l. }
  destruct dec_nar as (D8 & D16 & D32 & D64).
  destruct k, b; try contradiction; cbn [api_binary];
    try (apply binary_log_nar; [assumption|assumption|assumption|assumption|]); try (apply binary_lin_nar; [assumption|assumption|assumption| |]);
    try (intros z Hz; first [apply Hh; assumption|apply Ha|apply Hap|split; [apply nan_l|apply nan_r]]).
  - destruct w; cbn [bits] in *; unfold takum8_multiplication, takum16_multiplication, takum32_multiplication, takum64_multiplication.
    + destruct (dec8 x Ix) as [a Ea], (dec8 y Iy) as [c Ec]. destruct H as [-> | ->]; rewrite D8, ?Ea, ?Ec; cbn [bind]; nan_simp; apply enc_nan.
    + destruct (dec16 x Ix) as [a Ea], (dec16 y Iy) as [c Ec]. destruct H as [-> | ->]; rewrite D16, ?Ea, ?Ec; cbn [bind]; nan_simp; apply enc_nan.
    + destruct (dec32 x Ix) as [a Ea], (dec32 y Iy) as [c Ec]. destruct H as [-> | ->]; rewrite D32, ?Ea, ?Ec; cbn [bind]; nan_simp; apply enc_nan.
    + destruct (dec64 x Ix) as [a Ea], (dec64 y Iy) as [c Ec]. destruct H as [-> | ->]; rewrite D64, ?Ea, ?Ec; cbn [bind]; nan_simp; apply enc_nan.
  - destruct w; cbn [bits] in *; unfold takum8_division, takum16_division, takum32_division, takum64_division.
    + destruct (dec8 x Ix) as [a Ea], (dec8 y Iy) as [c Ec]. destruct H as [-> | ->]; rewrite D8, ?Ea, ?Ec; cbn [bind]; nan_simp; apply enc_nan.
    + destruct (dec16 x Ix) as [a Ea], (dec16 y Iy) as [c Ec]. destruct H as [-> | ->]; rewrite D16, ?Ea, ?Ec; cbn [bind]; nan_simp; apply enc_nan.
    + destruct (dec32 x Ix) as [a Ea], (dec32 y Iy) as [c Ec]. destruct H as [-> | ->]; rewrite D32, ?Ea, ?Ec; cbn [bind]; nan_simp; apply enc_nan.
    + destruct (dec64 x Ix) as [a Ea], (dec64 y Iy) as [c Ec]. destruct H as [-> | ->]; rewrite D64, ?Ea, ?Ec; cbn [bind]; nan_simp; apply enc_nan.
  - intros z Hz. pose proof (proj1 (Hap (fcast f80 z))) as E1. pose proof (proj2 (Hap (fcast f80 z))) as E2. split.
    + transitivity (fcast f64 (arctan2pil x86_64 lm B754_nan (fcast f80 z))); [reflexivity|]. rewrite E1. reflexivity.
    + transitivity (fcast f64 (arctan2pil x86_64 lm (fcast f80 z) B754_nan)); [reflexivity|]. rewrite E2. reflexivity.
Qed.

Lemma ipow_nar : forall k lm w m, api_integer_power k lm w (nar (bits w)) m = Val (nar (bits w)).
Proof.
  intros k lm w m. destruct dec_nar as (D8 & D16 & D32 & D64).
  destruct k; cbn [api_integer_power].
  - destruct w; cbn [bits]; unfold takum8_integer_power, takum16_integer_power, takum32_integer_power, takum64_integer_power.
    + change ((nar 8 =? 0)) with false. cbn [andb]. rewrite D8. cbn [bind]. nan_simp. apply enc_nan.
    + change ((nar 16 =? 0)) with false. cbn [andb]. rewrite D16. cbn [bind]. nan_simp. apply enc_nan.
    + change ((nar 32 =? 0)) with false. cbn [andb]. rewrite D32. cbn [bind]. nan_simp. apply enc_nan.
    + change (nar 64 =? NaR 64) with true. reflexivity.
  - unfold takum_linear_integer_power. destruct w; reflexivity.
Qed.
Lemma root_nar_ : forall k lm w m, c99 lm -> - 2 ^ 63 <= m < 2 ^ 63 -> api_root k lm w (nar (bits w)) m = Val (nar (bits w)).
Proof.
  intros k lm w m C Hm. destruct dec_nar as (D8 & D16 & D32 & D64).
  destruct k; cbn [api_root].
  - destruct w; cbn [bits]; unfold takum8_root, takum16_root, takum32_root, takum64_root; (destruct (Arith.root_nar _ m); [reflexivity|]); rewrite ?D8, ?D16, ?D32, ?D64; cbn [bind]; nan_simp; apply enc_nan.
  - unfold takum_linear_root. destruct (_ || _) eqn:E; [destruct w; reflexivity|].
    apply orb_false_iff in E as [E _]. apply Z.eqb_neq in E.
    rewrite (linear_to_nar _ _ _ (lin_ld_to w)). cbn [bind]. unfold cpow, fnan.
    match goal with |- context [lib2 lm Fpow ?a ?b ?c] => assert (lib2 lm Fpow a b c = B754_nan) as -> end; [|apply (lin_from_nan _ _ _ (lin_ld_from w))].
    apply (c_pow_nan_l lm C). intros _. change (ld x86_64) with f80 in *.
      assert (isf (one f80) 1) as H1 by (apply (isf_fint (f := f80) 1); simpl; lia).
      assert (isf (fint f80 m) (IZR m)) as H2 by (apply (isf_fint (f := f80) m); simpl; lia).
      assert (IZR m <> 0)%R as Nm by (apply not_0_IZR; assumption).
      assert (1 <= Rabs (IZR m) <= bpow radix2 63)%R as Bm. { rewrite <- abs_IZR. split; [apply IZR_le; lia|]. change (bpow radix2 63) with (IZR (2 ^ 63)). apply IZR_le. lia. }
      assert (Rabs (1 / IZR m) = / Rabs (IZR m))%R as E1 by (unfold Rdiv; rewrite Rmult_1_l; apply Rabs_inv).
      destruct (isf_fdiv _ _ _ _ H1 H2 Nm) as [_ E2].
      + apply (RF_no_overflow f80); [discriminate|]. rewrite E1. apply Rle_trans with (/ 1)%R; [apply Rinv_le_contravar; lra|]. rewrite Rinv_1. replace 1%R with (bpow radix2 0) by reflexivity. apply bpow_le. lia.
      + rewrite E2. apply RF_nonzero; [discriminate|]. rewrite E1. apply Rle_trans with (/ bpow radix2 63)%R; [rewrite <- bpow_opp; apply bpow_le; lia|]. apply Rinv_le_contravar; lra.
Qed.

Lemma to_float_nar : forall lm k n F f, c99 lm -> to_float lm k n F f -> f (nar n) = Val B754_nan.
Proof. intros lm k n F f C []; [eapply log_to_nar; eassumption|eapply linear_to_nar; eassumption]. Qed.
Lemma from_float_nar : forall lm k n F f (y : flt F), from_float lm k n F f -> is_finite y = false -> f y = Val (nar n).
Proof.
  intros lm k n F f y H. revert y. destruct H as [n' F' f' H|n' F' f' H]; intros y Hy; [eapply log_from_nan; eassumption|].
  destruct (linear_from_form _ _ _ H) as (_ & _ & _ & _ & _ & Hi & Hn).
  destruct y as [s|s| |s m e He]; try discriminate; [apply Hi|exact Hn].
Qed.
