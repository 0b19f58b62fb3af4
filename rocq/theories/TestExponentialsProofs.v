(** Proofs about the test programs for exponentials and hyperbolic functions. *)
From Coq Require Import ZArith Reals Bool Lia Lra List.
From Flocq Require Import Core.Core IEEE754.BinarySingleNaN.
From Verif Require Import CModel FloatModel Libm LibmSpec Arith Codec Spec FloatSpec CodeFacts SpecFacts ValueFacts RoundFacts
  WidthFacts WidthProps FloatFacts EncodeFacts Machine Conversion Wrappers LinApi LinFacts LinProps LogApi LogFacts LogProps LogConv LogAlgebra NearFacts NearCode WrapSpec LinOps LinArith WrapApi WrapTotal WrapNar
  RealBounds RealFacts FloatAcc FixFacts WrapAcc WrapAcc2 WrapAcc3 WrapMain WrapDom WrapTrig WrapPi WrapExact Faithful
  Agree TestHarness HarnessSpec HarnessProofs HarnessResults TestBlocksSpec TestBlocks TestBlocksProofs TestPrograms TestProgramsProofs TestProgramsMisc TestFunctions TestFunctionsProofs TestExponentials.
From Verif Require MonoBin LinDec WrapBin.
Local Open Scope R_scope.

(** ** Saturation *)
Lemma l_order : forall n t t', (8 <= n <= 64)%Z -> is_real_takum n t -> is_real_takum n t' -> (t < t')%Z ->
  ((0 < t)%Z -> l_ n t < l_ n t') /\ ((t' < 0)%Z -> l_ n t' < l_ n t).
Proof.
  intros n t t' Hn Ht Ht' H. pose proof (value_log_real n t Hn Ht) as V. pose proof (value_log_real n t' Hn Ht') as V'.
  pose proof (proj1 (value_lt n ltac:(lia) Logarithmic t t' _ _ (proj1 Ht) (proj1 Ht') V V') H) as K. split; intros P.
  - assert ((t <? 0)%Z = false /\ (t' <? 0)%Z = false) as [E E'] by (split; apply Z.ltb_ge; lia). rewrite E, E' in K. unfold sg in K. rewrite !Rmult_1_l in K. apply exp_lt_inv in K. lra.
  - assert ((t <? 0)%Z = true /\ (t' <? 0)%Z = true) as [E E'] by (split; apply Z.ltb_lt; lia). rewrite E, E' in K. unfold sg in K.
    assert (exp (l_ n t' / 2) < exp (l_ n t / 2)) as K' by lra. apply exp_lt_inv in K'. lra.
Qed.
Definition top (n : Z) (s : bool) : Z := if s then - (2 ^ (n - 1) - 1) else 2 ^ (n - 1) - 1.
Definition bottom (s : bool) : Z := if s then -1 else 1.
Lemma pow_big : forall n, (8 <= n <= 64)%Z -> (128 <= 2 ^ (n - 1))%Z.
Proof. intros n H. change 128%Z with (2 ^ 7)%Z. apply Z.pow_le_mono_r; lia. Qed.
Lemma top_real : forall n s, (8 <= n <= 64)%Z -> is_real_takum n (top n s) /\ has_sign s (top n s).
Proof. intros n s H. pose proof (pow_big n H). unfold is_real_takum, is_intn, nar, top, has_sign. destruct s; lia. Qed.
Lemma bottom_real : forall n s, (8 <= n <= 64)%Z -> is_real_takum n (bottom s) /\ has_sign s (bottom s).
Proof. intros n s H. pose proof (pow_big n H). unfold is_real_takum, is_intn, nar, bottom, has_sign. destruct s; lia. Qed.
Lemma sat_top : forall n s L t, (8 <= n <= 64)%Z -> faithful n s L t -> 255 < L -> t = top n s.
Proof.
  intros n s L t Hn (Ht & Hs & Hf) HL. destruct (top_real n s Hn) as [Rt St]. destruct (Z.eq_dec t (top n s)) as [E|N]; [assumption|exfalso].
  destruct (Hf _ Rt St) as [F1 _]. apply F1. pose proof (l_abs n _ ltac:(lia) Rt) as A. apply Rabs_le_inv in A. split; [|lra].
  destruct Ht as (It & N0 & Nn). unfold is_intn, nar, top, has_sign in *. destruct s.
  - apply (l_order n (- (2 ^ (n - 1) - 1)) t Hn Rt); [repeat split; unfold nar; lia|lia|lia].
  - apply (l_order n t (2 ^ (n - 1) - 1) Hn); [repeat split; unfold nar; lia|assumption|lia|lia].
Qed.
Lemma sat_bottom : forall n s L t, (8 <= n <= 64)%Z -> faithful n s L t -> L < -255 -> t = bottom s.
Proof.
  intros n s L t Hn (Ht & Hs & Hf) HL. destruct (bottom_real n s Hn) as [Rt St]. destruct (Z.eq_dec t (bottom s)) as [E|N]; [assumption|exfalso].
  destruct (Hf _ Rt St) as [_ F1]. apply F1. pose proof (l_abs n _ ltac:(lia) Rt) as A. apply Rabs_le_inv in A. split; [lra|].
  destruct Ht as (It & N0 & Nn). unfold is_intn, nar, bottom, has_sign in *. destruct s.
  - apply (l_order n t (-1) Hn); [repeat split; unfold nar; lia|assumption|lia|lia].
  - apply (l_order n 1 t Hn Rt); [repeat split; unfold nar; lia|lia|lia].
Qed.

Section From.
Variable lm : libm.
Hypothesis C : c99 lm.
Variable k : kind.
Variable w : Wrappers.width.
Definition from_ext : flt f80 -> outcome Z := match k with Logarithmic => log_from_ld x86_64 lm w | Linear => lin_from_ld x86_64 w end.
Let n := bits w.
Lemma n_rng : (8 <= n <= 64)%Z.
Proof. unfold n. destruct w; cbn; lia. Qed.
Lemma from_ext_near : forall y : flt f80, is_finite y = true -> exists t, from_ext y = Val t /\ rounds_nearly k n (code_error k n) (B2R y) t.
Proof.
  intros y Fy. apply (WrapBin.from_near lm k n f80 from_ext y C); [right; reflexivity| | |assumption].
  - cbn [WrapBin.fe]. unfold float_error. destruct k; [lra|]. destruct (n =? 64)%Z; [lra|]. apply bpow_le. lia.
  - unfold from_ext. destruct k; [apply from_float_log; apply log_ld_from|apply from_float_lin; apply lin_ld_from].
Qed.
Lemma from_big : forall (y : flt f80) r, isf y r -> bpow radix2 600 <= Rabs r -> from_ext y = Val (top n (Rlt_bool r 0)).
Proof.
  intros y r [Fy <-] H. destruct (from_ext_near y Fy) as (t & -> & [[[E _]|[N F]] _]); [exfalso; rewrite E, Rabs_R0 in H; pose proof (bpow_gt_0 radix2 600); lra|].
  f_equal. apply (sat_top n _ _ _ n_rng F). pose proof (coord_big k _ N H). lra.
Qed.
Lemma from_small : forall (y : flt f80) r, isf y r -> r <> 0 -> Rabs r <= bpow radix2 (-600) -> from_ext y = Val (bottom (Rlt_bool r 0)).
Proof.
  intros y r [Fy <-] N H. destruct (from_ext_near y Fy) as (t & -> & [[[E _]|[_ F]] _]); [contradiction|].
  f_equal. apply (sat_bottom n _ _ _ n_rng F). pose proof (coord_small k _ N H). lra.
Qed.

Lemma from_max : forall s : bool, from_ext (if s then fneg (dmax f80) else dmax f80) = Val (top n s).
Proof.
  intros s. pose proof (isf_dmax f80 w80) as Im. pose proof dmax_big as D. pose proof (bpow_gt_0 radix2 1000). pose proof (bpow_le radix2 600 1000 ltac:(lia)). destruct s.
  - rewrite (from_big _ _ (isf_fneg _ _ Im)) by (rewrite Rabs_Ropp, Rabs_pos_eq; lra). rewrite Rlt_bool_true by lra. reflexivity.
  - rewrite (from_big _ _ Im) by (rewrite Rabs_pos_eq; lra). rewrite Rlt_bool_false by lra. reflexivity.
Qed.
Lemma from_min : forall s : bool, from_ext (if s then fneg (dmin f80) else dmin f80) = Val (bottom s).
Proof.
  intros s. pose proof (isf_dmin f80 w80) as Im. pose proof (bpow_gt_0 radix2 (-1022)). pose proof (bpow_le radix2 (-1022) (-600) ltac:(lia)). destruct s.
  - rewrite (from_small _ _ (isf_fneg _ _ Im)) by (try rewrite Rabs_Ropp, Rabs_pos_eq; lra). rewrite Rlt_bool_true by lra. reflexivity.
  - rewrite (from_small _ _ Im) by (try rewrite Rabs_pos_eq; lra). rewrite Rlt_bool_false by lra. reflexivity.
Qed.

(** the result of evaluate_raising from the value of the reference *)
Definition settle (r : raising) : outcome Z :=
  if underflow r && feq (raw r) (fzero f80) then Val (if fsignbit (raw r) then (- positive_minimum w)%Z else positive_minimum w)
  else if overflow r then
    (if fgt (raw r) (fzero f80) then Val (positive_maximum w)
     else if feq (raw r) (fzero f80) then Val (if fsignbit (raw r) then (- positive_minimum w)%Z else positive_minimum w)
     else Val (- positive_maximum w)%Z)
  else from_ext (raw r).

Lemma settle_range : forall r, good_val n (settle r).
Proof.
  intros r. pose proof n_rng as Hn. pose proof (pow_big n Hn) as P. assert (forall v, (- (2 ^ (n - 1) - 1) <= v <= 2 ^ (n - 1) - 1)%Z -> good_val n (Val v)) as V by (intros v Hv; exists v; split; [reflexivity|unfold is_intn; lia]).
  assert (good_val n (from_ext (raw r))) as G by (unfold from_ext; destruct k; [apply log_from_total with (lm := lm) (F := f80); apply log_ld_from|apply lin_from_total with (F := f80); apply lin_ld_from]).
  unfold settle, positive_minimum, positive_maximum. fold n. destruct (underflow r && feq (raw r) (fzero f80)); [destruct (fsignbit (raw r)); apply V; lia|]. destruct (overflow r); [|exact G].
  destruct (fgt (raw r) (fzero f80)); [apply V; lia|]. destruct (feq (raw r) (fzero f80)); [destruct (fsignbit (raw r)); apply V; lia|apply V; lia].
Qed.
Lemma settle_positive : forall (y z : flt f80), (is_nan z = false -> Bsign z = false) -> settle (positive z) = from_ext (fix_exp f80 y z).
Proof.
  intros y z H. unfold settle, positive. cbn [raw underflow overflow]. unfold fix_exp. destruct z as [s|s| |s m e He].
  - pose proof (H eq_refl) as Hs. cbn in Hs. subst s. change (feq (B754_zero false) (fzero f80)) with true. cbn [andb]. symmetry. exact (from_min false).
  - pose proof (H eq_refl) as Hs. cbn in Hs. subst s. change (feq (B754_infinity false) (fzero f80)) with false. cbn [andb fisinf]. symmetry. exact (from_max false).
  - reflexivity.
  - replace (feq (B754_finite s m e He) (fzero f80)) with false by (destruct s; reflexivity). reflexivity.
Qed.
Lemma settle_over : forall (y z : flt f80), (fisinf z = true -> Bsign z = false) -> settle (with_zero z) = from_ext (fix_over f80 y z).
Proof.
  intros y z H. unfold settle, with_zero. cbn [raw underflow overflow andb]. unfold fix_over. destruct (fisinf z) eqn:E; [|reflexivity].
  destruct z as [s|s| |s m e He]; try discriminate E. pose proof (H eq_refl) as Hs. cbn in Hs. subst s. symmetry. exact (from_max false).
Qed.
Lemma settle_odd : forall (y z : flt f80), settle (with_zero z) = from_ext (fix_over_odd f80 y z).
Proof.
  intros y z. unfold settle, with_zero. cbn [raw underflow overflow andb]. unfold fix_over_odd. destruct (fisinf z) eqn:E; [|reflexivity].
  destruct z as [s|s| |s m e He]; try discriminate E. destruct s; symmetry; [exact (from_max true)|exact (from_max false)].
Qed.
Lemma inv_nonzero : forall c : flt f80, fisinf c = false -> feq (fdiv (one f80) c) (fzero f80) = false.
Proof.
  intros c E. destruct c as [s|s| |s m e He]; try discriminate E; [destruct s; reflexivity|reflexivity|]. set (c := B754_finite s m e He) in *.
  assert (isf c (B2R c)) as Ic by (split; reflexivity). assert (B2R c <> 0) as Nc by (unfold c; rewrite B2R_F2R; pose proof (bpow_gt_0 radix2 e); apply Rmult_integral_contrapositive; split; [apply IZR_neq; destruct s; discriminate|lra]).
  assert (isf (one f80) 1) as I1 by (split; vm_compute; [reflexivity|lra]).
  assert (bpow radix2 (-16384) <= Rabs (1 / B2R c)) as G.
  { unfold Rdiv. rewrite Rmult_1_l, Rabs_inv. change (-16384)%Z with (Z.opp 16384). rewrite bpow_opp. apply Rinv_le_contravar; [apply Rabs_pos_lt; assumption|]. left. apply (abs_B2R_lt_emax (fprec f80) (femax f80) c). }
  assert (bpow radix2 (-16384) <= Rabs (RF f80 (1 / B2R c))) as G'.
  { apply abs_round_ge_generic; [apply fexpo_valid|apply valid_rnd_N|apply FF_bpow; unfold femin; simpl; lia|assumption]. }
  destruct (Rlt_or_le (Rabs (RF f80 (1 / B2R c))) (bpow radix2 (femax f80))) as [L|L].
  - pose proof (isf_fdiv _ _ _ _ I1 Ic Nc L) as I. rewrite (feq_isf _ _ _ _ I (FloatFacts.isf_zero f80)). apply Req_bool_false. intros Q. rewrite Q, Rabs_R0 in G'. pose proof (bpow_gt_0 radix2 (-16384)). lra.
  - pose proof (Bdiv_correct (fprec f80) (femax f80) (fprec_gt_0 f80) (fprec_lt_femax f80) mode_NE (one f80) c Nc) as B. change (Bdiv mode_NE (one f80) c) with (fdiv (one f80) c) in B.
    match type of B with context [Rlt_bool (Rabs ?q) ?b] => change q with (RF f80 (B2R (one f80) / B2R c)) in B end.
    rewrite Rlt_bool_false in B by (replace (B2R (one f80)) with 1 by (symmetry; exact (proj2 I1)); exact L).
    set (z := fdiv (one f80) c) in *. clearbody z. destruct z as [s'|s'| |s' m' e' He']; [|destruct s'; reflexivity|reflexivity|destruct s'; reflexivity].
    cbn in B. discriminate B.
Qed.
Lemma recip_sech : forall (y c : flt f80), (fisinf c = true -> Bsign c = false) -> settle (reciprocal c) = from_ext (fix_sech f80 y (fdiv (one f80) c)).
Proof.
  intros y c H. unfold settle, reciprocal. cbn [raw underflow overflow andb]. unfold fix_sech. destruct (fisinf c) eqn:E; [|rewrite (inv_nonzero c E); reflexivity].
  destruct c as [s|s| |s m e He]; try discriminate E. pose proof (H eq_refl) as Hs. cbn in Hs. subst s. symmetry. exact (from_min false).
Qed.
Lemma recip_csch : forall (y c : flt f80), (fisinf c = true -> Bsign c = flt_ y (fzero f80)) -> settle (reciprocal c) = from_ext (fix_csch f80 y (fdiv (one f80) c)).
Proof.
  intros y c H. unfold settle, reciprocal. cbn [raw underflow overflow andb]. unfold fix_csch. destruct (fisinf c) eqn:E; [|rewrite (inv_nonzero c E); reflexivity].
  destruct c as [s|s| |s m e He]; try discriminate E. pose proof (H eq_refl) as Hs. cbn [Bsign] in Hs. rewrite <- Hs.
  destruct s; symmetry; [exact (from_min true)|exact (from_min false)].
Qed.

Lemma close_pos : forall j (z : flt f80) r, close j f80 r z -> 0 < r -> Bsign z = false.
Proof. intros j z r (_ & _ & S & _) P. rewrite S by lra. apply Rlt_bool_false. lra. Qed.
Lemma close_inf : forall j (z : flt f80) r, close j f80 r z -> fisinf z = true -> 1 < Rabs r.
Proof.
  intros j z r (_ & _ & _ & Fin & _) E. destruct (Rlt_or_le 1 (Rabs r)) as [L|L]; [assumption|exfalso]. assert (is_finite z = true) as F; [|destruct z; discriminate].
  apply Fin. eapply Rle_trans; [exact L|]. change 1 with (bpow radix2 0). apply bpow_le. vm_compute. discriminate.
Qed.
Lemma sinh_neg : forall a, Rlt_bool (sinh a) 0 = Rlt_bool a 0.
Proof.
  intros a. unfold sinh. destruct (Rlt_bool_spec a 0) as [L|L].
  - apply Rlt_bool_true. pose proof (exp_increasing a (- a) ltac:(lra)). lra.
  - apply Rlt_bool_false. destruct L as [L|<-]; [pose proof (exp_increasing (- a) a ltac:(lra)); lra|]. rewrite Ropp_0. lra.
Qed.
Lemma fint_10 : isf (fint f80 10) 10.
Proof. split; [vm_compute; reflexivity|]. vm_compute. lra. Qed.

Lemma settle_fixer : forall u r (y : flt f80), raising_function lm u = Some r -> is_finite y = true -> settle (r y) = from_ext (unary_fixer u f80 y (unary_ld x86_64 lm u y)).
Proof.
  intros u r y H Fy. destruct u; cbn [raising_function] in H; try (match type of H with None = _ => discriminate H end); apply some_same in H; subst r; cbn [unary_fixer unary_ld];
  match goal with |- context [m1 lm ?g y] => pose proof (c_in lm C g f80 y Fy) as K; cbn [dom1 real1] in K; specialize (K I); unfold m1; set (z := lib1 lm g f80 y) in * | _ => idtac end.
  - apply settle_positive. intros _. apply (close_pos _ _ _ K). apply exp_pos.
  - apply settle_over. intros E. apply (close_pos _ _ _ K). pose proof (close_inf _ _ _ K E) as B. pose proof (exp_pos (B2R y)). unfold Rabs in B. destruct (Rcase_abs _) in B; lra.
  - apply settle_positive. intros _. apply (close_pos _ _ _ K). apply exp_pos.
  - unfold ten_raisedl. change (ld x86_64) with f80. apply settle_positive. intros _. unfold cpow. destruct fint_10 as [F10 V10].
    refine (close_pos _ _ _ (c_pow_pos lm C f80 _ _ F10 Fy _) _); [|apply exp_pos]. replace (B2R (fint f80 10)) with 10 by (symmetry; exact V10). lra.
  - apply settle_odd.
  - apply settle_over. intros _. apply (close_pos _ _ _ K). unfold cosh. pose proof (exp_pos (B2R y)). pose proof (exp_pos (- B2R y)). lra.
  - unfold sech_, m1. apply recip_sech. intros _. apply (close_pos _ _ _ K). unfold cosh. pose proof (exp_pos (B2R y)). pose proof (exp_pos (- B2R y)). lra.
  - unfold cschl, m1. change (ld x86_64) with f80. apply recip_csch. intros E. pose proof (close_inf _ _ _ K E) as B. destruct K as (_ & _ & S & _).
    rewrite (flt_isf _ _ _ _ (conj Fy eq_refl) (FloatFacts.isf_zero f80)). match goal with |- _ = ?q => change (Bsign z = q) end. rewrite S, sinh_neg; [reflexivity|]. intros Q. rewrite Q, Rabs_R0 in B. lra.
Qed.
Lemma settle_nan : forall u r, raising_function lm u = Some r -> settle (r B754_nan) = from_ext B754_nan.
Proof.
  intros u r H. destruct u; cbn [raising_function] in H; try (match type of H with None = _ => discriminate H end); apply some_same in H; subst r; unfold m1; try rewrite (c_nan1 lm C); try reflexivity.
  pose proof (ld_nan lm C n_10_raised) as E. cbn [unary_ld] in E. unfold ten_raisedl in E. change (ld x86_64) with f80 in E. rewrite E. reflexivity.
Qed.
End From.

Lemma evaluate_settle : forall lm r k w a, is_intn (bits w) a -> evaluate_raising lm r k w a = (let! x := int64_takum_to_extended_float lm k w a in settle lm k w (r x)).
Proof.
  intros lm r k w a Ia. unfold evaluate_raising. destruct (int64_takum_to_extended_float lm k w a) as [x|]; [|reflexivity]. cbn [bind]. unfold settle, from_ext, int64_takum_from_extended_float. destruct k; reflexivity.
Qed.

Lemma raising_plain : forall lm u r, raising_function lm u = Some r -> trigonometric u = false /\ argument_error u = 0 /\ forall k n x, defined u x -> regular k n u x.
Proof.
  intros lm u r H. destruct u; cbn [raising_function] in H; try (match type of H with None = _ => discriminate H end); (split; [reflexivity|split; [reflexivity|intros k n x D; split; [exact D|exact I]]]).
Qed.

(** ** The types computed in long double *)
Lemma raising_log : forall lm u r w a, c99 lm -> raising_function lm u = Some r -> is_intn (bits w) a ->
  api_unary Logarithmic lm u w a = (let! x := log_to_ld x86_64 lm w a in settle lm Logarithmic w (r x)).
Proof.
  intros lm u r w t C H It. cbn [api_unary]. unfold takum_unary, unary_log. destruct (value Logarithmic (bits w) t) as [v|] eqn:Hv.
  - destruct (FixFacts.log_arg lm (bits w) _ t v C (log_ld_to lm w) It Hv) as (y & a & Ey & Iy & A & Z0). rewrite Ey. cbn [bind]. symmetry.
    apply (settle_fixer lm C Logarithmic w u r y H (proj1 Iy)).
  - assert (t = nar (bits w)) as -> by (apply (MonoBin.none_nar Logarithmic); [destruct w; cbn; lia|assumption|assumption]).
    rewrite log_to_ld_nar by assumption. cbn [bind]. transitivity (from_ext lm Logarithmic w B754_nan); [|symmetry; exact (settle_nan lm C Logarithmic w u r H)]. unfold from_ext. f_equal. rewrite ld_nan by assumption. destruct u; reflexivity.
Qed.
Lemma raising_lin64 : forall lm u r a, c99 lm -> raising_function lm u = Some r -> is_intn 64 a ->
  api_unary Linear lm u W64 a = (let! x := lin_to_ld x86_64 W64 a in settle lm Linear W64 (r x)).
Proof.
  intros lm u r t C H It. cbn [api_unary]. unfold takum_linear_unary, unary_lin. destruct (value Linear 64 t) as [v|] eqn:Hv.
  - destruct (ld_arg t v It Hv) as (y & Ey & Iy & A & Z0). rewrite Ey. cbn [bind]. symmetry. apply (settle_fixer lm C Linear W64 u r y H (proj1 Iy)).
  - assert (t = nar 64) as -> by (apply (MonoBin.none_nar Linear); [lia|assumption|assumption]).
    change (nar 64) with (nar (bits W64)). rewrite (LinDec.linear_to_nar _ _ _ (lin_ld_to W64)). cbn [bind]. transitivity (from_ext lm Linear W64 B754_nan); [|symmetry; exact (settle_nan lm C Linear W64 u r H)]. unfold from_ext. f_equal. rewrite ld_nan by assumption. destruct u; reflexivity.
Qed.

(** ** The linear types computed in double *)
Lemma raising_narrow : forall lm u r w t, c99 lm -> w <> W64 -> raising_function lm u = Some r -> is_intn (bits w) t ->
  exists y o e, lin_to_ld x86_64 w t = Val y /\ api_unary Linear lm u w t = Val o /\ settle lm Linear w (r y) = Val e /\ (Z.abs (o - e) <= 1)%Z.
Proof.
  intros lm u r w t C Nw H It. destruct (raising_plain lm u r H) as (T & Ae & Rg). destruct (ld_operand w t It) as (y & Ey & Hy). destruct (narrow_bits w Nw) as [Sw Lw]. exists y.
  assert (forall z, is_finite z = false -> from_ext lm Linear w z = Val (nar (bits w))) as Nar by (intros z Fz; apply (from_float_nar lm Linear _ f80); [apply from_float_lin; apply lin_ld_from|exact Fz]).
  destruct (value Linear (bits w) t) as [x|] eqn:Hx.
  - destruct Hy as (Iy & Op & Fy & Z0). pose proof (settle_fixer lm C Linear w u r y H (proj1 Iy)) as St. destruct (dbl_arg w t x Nw It Hx) as (_ & _ & _ & A & _).
    destruct (Classical_Prop.classic (defined u x)) as [D|D].
    + destruct (unary_faithful lm u w t x C Nw Ae It Hx (Rg _ _ _ D)) as (o & Eo & Fo).
      destruct (core_ld lm C u Linear y x x Iy Z0 A (conv_lin x) (Rg _ _ _ D)) as (x' & Dx & _ & N & S). apply no_dist in Dx; [|rewrite Ae; lra]. subst x'.
      pose proof (fixer_good u f80 y _ x _ _ (eu u) 850 w80 N (Rle_refl _) (proj2 (eu_rng u)) ltac:(lia) Iy S) as G.
      destruct (good_from Linear (bits w) (eu u) f80 _ _ (from_ext lm Linear w) (proj1 (eu_rng u)) ltac:(pose proof (std_range _ Sw); lia) (from_ext_near lm C Linear w) G) as (e & z & Ee & Dz & Re).
      exists o, e. split; [exact Ey|]. split; [exact Eo|]. split; [rewrite St; exact Ee|]. apply (faithful_unit Linear (bits w) (real_fun u x)); [exact Sw|exact Fo|]. apply (near_faith Linear (bits w) (eu u) z); try assumption. apply eu_rng.
    + exists (nar (bits w)), (nar (bits w)). split; [exact Ey|]. split; [apply (unary_undefined Linear lm u w t x); assumption|]. split; [|rewrite Z.sub_diag; cbn; lia]. rewrite St. apply Nar.
      destruct (und_ld lm C u y x T Iy Z0 Fy (arg_rng x x A) D) as [E|(s & E & E')]; rewrite E; destruct u; try discriminate H; try discriminate E'; try destruct s; reflexivity.
  - assert (t = nar (bits w)) as -> by (apply (MonoBin.none_nar Linear); [exact (std_range _ Sw)|assumption|assumption]). subst y.
    exists (nar (bits w)), (nar (bits w)). split; [exact Ey|]. split; [apply unary_nar; assumption|]. split; [|rewrite Z.sub_diag; cbn; lia]. etransitivity; [exact (settle_nan lm C Linear w u r H)|]. apply Nar. reflexivity.
Qed.

Theorem raising_check : forall lm u utb k w a b, c99 lm -> raising_utb lm u = Some utb -> test_case utb w a b -> check_unary_binary_case utb a b k w = Val 0%Z.
Proof.
  intros lm u utb k w a b C H. unfold raising_utb in H. destruct (raising_function lm u) as [r|] eqn:Er; [|discriminate H]. apply some_same in H. subst utb. intros [Ia _].
  cbn [check_unary_binary_case]. rewrite evaluate_settle by assumption. unfold int64_takum_to_extended_float. rewrite !to_s_same by assumption.
  pose proof (unary_total k lm u w a Ia) as G. destruct k.
  - apply (same_check (bits w)); [|exact G]. apply raising_log; assumption.
  - assert (w = W64 \/ w <> W64) as [-> |Nw] by (destruct w; (left; reflexivity) || (right; discriminate)).
    + apply (same_check 64); [|exact G]. apply raising_lin64; assumption.
    + destruct (raising_narrow lm u r w a C Nw Er Ia) as (y & o & e & Ey & Eo & Ee & D). rewrite Ey, Eo in *. cbn [bind]. rewrite Ee. cbn [bind].
      destruct G as (o' & Eo' & Io). injection Eo' as <-. apply (deviates_near (bits w)); try assumption; [destruct w; cbn; tauto|].
      pose proof (settle_range lm Linear w (r y)) as (e' & Ee' & Ie). congruence.
Qed.
Theorem raising_program : forall lm u utb, c99 lm -> raising_utb lm u = Some utb -> passes utb /\ forall result, test_main utb result <-> result = 0%Z.
Proof.
  intros lm u utb C H. apply program; [|intros k w a b; apply (raising_check lm u); assumption].
  unfold raising_utb in H. destruct (raising_function lm u) as [r|]; [|discriminate H]. apply some_same in H. subst utb. exact I.
Qed.
Theorem raising_programs : forall lm u, raising_utb lm u <> None <->
  In u (n_exp :: n_exp_minus_1 :: n_2_raised :: n_10_raised :: n_sinh :: n_cosh :: n_sech :: n_csch :: nil).
Proof.
  intros lm u. destruct u; unfold raising_utb; cbn [raising_function In]; (split; [intros K|intros K Q]);
  try (exfalso; apply K; reflexivity); try tauto; try (match type of Q with Some _ = None => idtac end; discriminate Q); repeat (destruct K as [K|K]; [discriminate K|]); destruct K.
Qed.
