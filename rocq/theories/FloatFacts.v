(** Values of the floating-point operations. *)
From Coq Require Import ZArith Reals Bool Lia Lra.
From Flocq Require Import Core.Core IEEE754.BinarySingleNaN.
From Verif Require Import CModel FloatModel.
Local Open Scope R_scope.

Definition fexpo (f : fmt) : Z -> Z := SpecFloat.fexp (fprec f) (femax f).
Definition femin (f : fmt) : Z := (3 - femax f - fprec f)%Z.
(** r is a number of the format (ignoring overflow) *)
Definition FF (f : fmt) (r : R) : Prop := generic_format radix2 (fexpo f) r.
(** rounding to the format (ignoring overflow) *)
Definition RF (f : fmt) (r : R) : R := round radix2 (fexpo f) ZnearestE r.
(** x is finite and has the value r *)
Definition isf {f} (x : flt f) (r : R) : Prop := is_finite x = true /\ B2R x = r.

Global Instance fexpo_valid (f : fmt) : Valid_exp (fexpo f).
Proof. apply (fexp_correct (fprec f) (femax f)). apply fprec_gt_0. Qed.
Global Instance fexpo_mono (f : fmt) : Monotone_exp (fexpo f).
Proof. apply (fexp_monotone (fprec f) (femax f)). Qed.

Lemma fexpo_FLT : forall f e, fexpo f e = FLT_exp (femin f) (fprec f) e.
Proof. reflexivity. Qed.

Lemma fmt_pos : forall f, (24 <= fprec f <= 113 /\ 128 <= femax f <= 16384 /\ femin f < -148)%Z.
Proof. intros []; unfold femin; simpl; lia. Qed.

Lemma FF_dyadic : forall f m e, (Z.abs m <= 2 ^ fprec f)%Z -> (femin f <= e)%Z -> FF f (IZR m * bpow radix2 e).
Proof.
  assert (forall f m e, (Z.abs m < 2 ^ fprec f)%Z -> (femin f <= e)%Z -> FF f (IZR m * bpow radix2 e)) as HH.
  { intros f m e Hm He. apply (generic_format_FLT radix2 (femin f) (fprec f)).
    exists (Float radix2 m e); [reflexivity|exact Hm|exact He]. }
  intros f m e Hm He. destruct (Z.eq_dec (Z.abs m) (2 ^ fprec f)) as [Hx|Hx]; [|apply HH; lia].
  pose proof (fmt_pos f) as [Hp _].
  assert (2 ^ fprec f = 2 * 2 ^ (fprec f - 1))%Z as E2 by (rewrite <- Z.pow_succ_r by lia; f_equal; lia).
  assert (0 < 2 ^ (fprec f - 1))%Z as Hpp by (apply Z.pow_pos_nonneg; lia).
  set (h := (if m <? 0 then - 2 ^ (fprec f - 1) else 2 ^ (fprec f - 1))%Z).
  assert (m = h * 2)%Z as Em by (unfold h; destruct (Z.ltb_spec m 0); lia).
  replace (IZR m * bpow radix2 e) with (IZR h * bpow radix2 (e + 1)).
  - apply HH; [unfold h; destruct (m <? 0)%Z; lia|lia].
  - rewrite Em, mult_IZR, bpow_plus. change (bpow radix2 1) with 2. ring.
Qed.

Lemma FF_bpow : forall f e, (femin f <= e)%Z -> FF f (bpow radix2 e).
Proof.
  intros f e He. rewrite <- (Rmult_1_l (bpow radix2 e)). apply (FF_dyadic f 1 e); [|assumption].
  pose proof (fmt_pos f). change (Z.abs 1) with (2 ^ 0)%Z. apply Z.pow_le_mono_r; lia.
Qed.

Lemma FF_IZR : forall f z, (Z.abs z <= 2 ^ fprec f)%Z -> FF f (IZR z).
Proof.
  intros f z Hz. rewrite <- (Rmult_1_r (IZR z)). change 1 with (bpow radix2 0). apply FF_dyadic; [assumption|].
  pose proof (fmt_pos f). lia.
Qed.

Lemma FF_0 : forall f, FF f 0.
Proof. intros. apply generic_format_0. Qed.
Lemma FF_opp : forall f x, FF f x -> FF f (- x).
Proof. intros. apply generic_format_opp. assumption. Qed.

Lemma FF_inv : forall f x, FF f x ->
  exists m e, (Z.abs m < 2 ^ fprec f)%Z /\ (femin f <= e)%Z /\ x = IZR m * bpow radix2 e.
Proof.
  intros f x H. apply (FLT_format_generic radix2 (femin f) (fprec f)) in H.
  destruct H as [[m e] H1 H2 H3]. exists m, e. simpl in *. auto.
Qed.

Lemma RF_id : forall f x, FF f x -> RF f x = x.
Proof. intros f x H. apply round_generic; [apply valid_rnd_N|assumption]. Qed.
Lemma RF_mono : forall f x y, x <= y -> RF f x <= RF f y.
Proof. intros f x y H. apply round_le; [apply fexpo_valid|apply valid_rnd_N|assumption]. Qed.
Lemma RF_FF : forall f x, FF f (RF f x).
Proof. intros f x. apply generic_format_round; [apply fexpo_valid|apply valid_rnd_N]. Qed.
Lemma RF_opp : forall f x, RF f (- x) = - RF f x.
Proof. intros f x. apply round_NE_opp. Qed.
Lemma RF_0 : forall f, RF f 0 = 0.
Proof. intros f. apply RF_id, FF_0. Qed.

Lemma RF_abs_le : forall f x b, FF f b -> Rabs x <= b -> Rabs (RF f x) <= b.
Proof. intros f x b Hb H. apply abs_round_le_generic; [apply fexpo_valid|apply valid_rnd_N|assumption|assumption]. Qed.

Lemma RF_lt_emax : forall f x k, (femin f <= k < femax f)%Z -> Rabs x <= bpow radix2 k ->
  Rabs (RF f x) < bpow radix2 (femax f).
Proof.
  intros f x k Hk Hx. apply Rle_lt_trans with (bpow radix2 k).
  - apply RF_abs_le; [apply FF_bpow; lia|assumption].
  - apply bpow_lt. lia.
Qed.

Lemma isf_FF : forall f (x : flt f) r, isf x r -> FF f r.
Proof. intros f x r [_ <-]. apply generic_format_B2R. Qed.
Lemma isf_lt : forall f (x : flt f) r, isf x r -> Rabs r < bpow radix2 (femax f).
Proof. intros f x r [_ <-]. apply abs_B2R_lt_emax. Qed.
Lemma isf_fun : forall f (x : flt f) a b, isf x a -> isf x b -> a = b.
Proof. intros f x a b [_ <-] [_ <-]. reflexivity. Qed.
Lemma isf_eq : forall f (x : flt f) a b, isf x a -> a = b -> isf x b.
Proof. intros. subst. assumption. Qed.

Lemma isf_zero : forall f, isf (fzero f) 0.
Proof. intros f. split; reflexivity. Qed.

Lemma isf_finite : forall f (x : flt f), fisfinite x = true -> isf x (B2R x).
Proof. intros f x H. split; [exact H|reflexivity]. Qed.

Section Op.
Context {f : fmt}.
Implicit Types x y : flt f.

Lemma isf_fconst : forall m e, FF f (IZR m * bpow radix2 e) -> Rabs (IZR m * bpow radix2 e) < bpow radix2 (femax f) ->
  isf (fconst f m e) (IZR m * bpow radix2 e).
Proof.
  intros m e HF Hb. pose proof (binary_normalize_correct (fprec f) (femax f) _ _ mode_NE m e false) as H.
  cbv zeta in H. change (F2R (Float radix2 m e)) with (IZR m * bpow radix2 e) in H.
  change (round radix2 (SpecFloat.fexp (fprec f) (femax f)) (round_mode mode_NE) (IZR m * bpow radix2 e))
    with (RF f (IZR m * bpow radix2 e)) in H.
  rewrite RF_id in H by assumption. rewrite Rlt_bool_true in H by assumption.
  destruct H as (H1 & H2 & _). split; assumption.
Qed.

Lemma isf_fint_gen : forall z, FF f (IZR z) -> Rabs (IZR z) < bpow radix2 (femax f) -> isf (fint f z) (IZR z).
Proof.
  intros z H1 H2. replace (IZR z) with (IZR z * bpow radix2 0) in * by (simpl; ring).
  apply isf_fconst; assumption.
Qed.

Lemma isf_fint : forall z, (Z.abs z <= 2 ^ fprec f)%Z -> isf (fint f z) (IZR z).
Proof.
  intros z Hz. apply isf_fint_gen; [apply FF_IZR; assumption|].
  pose proof (fmt_pos f) as [Hp _]. rewrite <- abs_IZR. apply Rle_lt_trans with (IZR (2 ^ fprec f)).
  - apply IZR_le. assumption.
  - rewrite (IZR_Zpower radix2) by lia. apply bpow_lt. destruct f; simpl; lia.
Qed.

Lemma isf_fadd : forall x y a b, isf x a -> isf y b -> Rabs (RF f (a + b)) < bpow radix2 (femax f) ->
  isf (fadd x y) (RF f (a + b)).
Proof.
  intros x y a b [Fx <-] [Fy <-] Hb. pose proof (Bplus_correct _ _ _ _ mode_NE x y Fx Fy) as H.
  rewrite Rlt_bool_true in H by exact Hb. destruct H as (H1 & H2 & _). split; assumption.
Qed.
Lemma isf_fadd_exact : forall x y a b, isf x a -> isf y b -> FF f (a + b) -> Rabs (a + b) < bpow radix2 (femax f) ->
  isf (fadd x y) (a + b).
Proof.
  intros x y a b Hx Hy HF Hb. rewrite <- (RF_id f (a + b) HF). apply isf_fadd; auto.
  rewrite RF_id; assumption.
Qed.

Lemma isf_fsub : forall x y a b, isf x a -> isf y b -> Rabs (RF f (a - b)) < bpow radix2 (femax f) ->
  isf (fsub x y) (RF f (a - b)).
Proof.
  intros x y a b [Fx <-] [Fy <-] Hb. pose proof (Bminus_correct _ _ _ _ mode_NE x y Fx Fy) as H.
  rewrite Rlt_bool_true in H by exact Hb. destruct H as (H1 & H2 & _). split; assumption.
Qed.
Lemma isf_fsub_exact : forall x y a b, isf x a -> isf y b -> FF f (a - b) -> Rabs (a - b) < bpow radix2 (femax f) ->
  isf (fsub x y) (a - b).
Proof.
  intros x y a b Hx Hy HF Hb. rewrite <- (RF_id f (a - b) HF). apply isf_fsub; auto.
  rewrite RF_id; assumption.
Qed.

Lemma isf_fmul : forall x y a b, isf x a -> isf y b -> Rabs (RF f (a * b)) < bpow radix2 (femax f) ->
  isf (fmul x y) (RF f (a * b)).
Proof.
  intros x y a b [Fx <-] [Fy <-] Hb. pose proof (Bmult_correct _ _ _ _ mode_NE x y) as H.
  rewrite Rlt_bool_true in H by exact Hb. destruct H as (H1 & H2 & _). rewrite Fx, Fy in H2. split; assumption.
Qed.
Lemma isf_fmul_exact : forall x y a b, isf x a -> isf y b -> FF f (a * b) -> Rabs (a * b) < bpow radix2 (femax f) ->
  isf (fmul x y) (a * b).
Proof.
  intros x y a b Hx Hy HF Hb. rewrite <- (RF_id f (a * b) HF). apply isf_fmul; auto.
  rewrite RF_id; assumption.
Qed.

Lemma isf_fdiv : forall x y a b, isf x a -> isf y b -> b <> 0 -> Rabs (RF f (a / b)) < bpow radix2 (femax f) ->
  isf (fdiv x y) (RF f (a / b)).
Proof.
  intros x y a b [Fx <-] [Fy <-] Hy Hb. pose proof (Bdiv_correct _ _ _ _ mode_NE x y Hy) as H.
  rewrite Rlt_bool_true in H by exact Hb. destruct H as (H1 & H2 & _). rewrite Fx in H2. split; assumption.
Qed.

Lemma isf_fldexp : forall x a e, isf x a -> Rabs (RF f (a * bpow radix2 e)) < bpow radix2 (femax f) ->
  isf (fldexp x e) (RF f (a * bpow radix2 e)).
Proof.
  intros x a e [Fx <-] Hb. pose proof (Bldexp_correct _ _ _ _ mode_NE x e) as H.
  rewrite Rlt_bool_true in H by exact Hb. destruct H as (H1 & H2 & _). rewrite Fx in H2. split; assumption.
Qed.
Lemma isf_fldexp_exact : forall x a e, isf x a -> FF f (a * bpow radix2 e) ->
  Rabs (a * bpow radix2 e) < bpow radix2 (femax f) -> isf (fldexp x e) (a * bpow radix2 e).
Proof.
  intros x a e Hx HF Hb. rewrite <- (RF_id f (a * bpow radix2 e) HF). apply isf_fldexp; auto.
  rewrite RF_id; assumption.
Qed.

Lemma isf_fneg : forall x a, isf x a -> isf (fneg x) (- a).
Proof. intros x a [Fx <-]. split; [unfold fneg; rewrite is_finite_Bopp; assumption|apply B2R_Bopp]. Qed.

Lemma isf_ffabs : forall x a, isf x a -> isf (ffabs x) (Rabs a).
Proof. intros x a [Fx <-]. split; [unfold ffabs; rewrite is_finite_Babs; assumption|apply B2R_Babs]. Qed.

Lemma isf_ffloor : forall x a, isf x a -> isf (ffloor x) (IZR (Zfloor a)).
Proof.
  intros x a [Fx <-]. pose proof (Bnearbyint_correct (fprec f) (femax f) _ mode_DN x) as (H1 & H2 & _).
  split; [unfold ffloor; rewrite H2; assumption|]. unfold ffloor. rewrite H1.
  unfold round, F2R, scaled_mantissa, cexp, FIX_exp. simpl. rewrite !Rmult_1_r. reflexivity.
Qed.

Lemma f2int_isf : forall n x z, isf x (IZR z) -> fits_s n z = true -> f2int n x = Val z.
Proof.
  intros n x z [Fx Hx] Hf. unfold f2int. rewrite Fx.
  assert (Btrunc x = z) as ->.
  { apply eq_IZR. rewrite (Btrunc_correct (fprec f) (femax f) _ x), Hx.
    unfold round, F2R, scaled_mantissa, cexp, FIX_exp. simpl. rewrite !Rmult_1_r, Ztrunc_IZR. reflexivity. }
  unfold guard. rewrite Hf. reflexivity.
Qed.

Lemma flt_isf : forall x y a b, isf x a -> isf y b -> flt_ x y = Rlt_bool a b.
Proof. intros x y a b [Fx <-] [Fy <-]. apply Bltb_correct; assumption. Qed.
Lemma fgt_isf : forall x y a b, isf x a -> isf y b -> fgt x y = Rlt_bool b a.
Proof. intros x y a b [Fx <-] [Fy <-]. apply Bltb_correct; assumption. Qed.
Lemma feq_isf : forall x y a b, isf x a -> isf y b -> feq x y = Req_bool a b.
Proof. intros x y a b [Fx <-] [Fy <-]. apply Beqb_correct; assumption. Qed.
Lemma fle_isf : forall x y a b, isf x a -> isf y b -> fle x y = Rle_bool a b.
Proof. intros x y a b [Fx <-] [Fy <-]. apply Bleb_correct; assumption. Qed.
Lemma fge_isf : forall x y a b, isf x a -> isf y b -> fge x y = Rle_bool b a.
Proof. intros x y a b [Fx <-] [Fy <-]. apply Bleb_correct; assumption. Qed.

Lemma fisnan_isf : forall x a, isf x a -> fisnan x = false.
Proof. intros [| | |] a [H _]; try discriminate; reflexivity. Qed.
Lemma fisinf_isf : forall x a, isf x a -> fisinf x = false.
Proof. intros [| | |] a [H _]; try discriminate; reflexivity. Qed.
Lemma fisfinite_isf : forall x a, isf x a -> fisfinite x = true.
Proof. intros x a [H _]. exact H. Qed.

End Op.

Lemma B2R_F2R : forall f s m e H, B2R (B754_finite s m e H : flt f) = IZR (cond_Zopp s (Zpos m)) * bpow radix2 e.
Proof. reflexivity. Qed.

Lemma isf_fcast : forall f g (x : flt f) a, isf x a -> Rabs (RF g a) < bpow radix2 (femax g) ->
  isf (fcast g x) (RF g a).
Proof.
  intros f g x a [Fx <-] Hb. destruct x as [s|s| |s m e He]; try discriminate.
  - simpl. rewrite RF_0. split; reflexivity.
  - unfold fcast. pose proof (binary_normalize_correct (fprec g) (femax g) _ _ mode_NE (cond_Zopp s (Zpos m)) e s) as H.
    cbv zeta in H. rewrite Rlt_bool_true in H by exact Hb. destruct H as (H1 & H2 & _). split; assumption.
Qed.
Lemma isf_fcast_exact : forall f g (x : flt f) a, isf x a -> FF g a -> Rabs a < bpow radix2 (femax g) ->
  isf (fcast g x) a.
Proof.
  intros f g x a Hx HF Hb. rewrite <- (RF_id g a HF). apply isf_fcast; auto. rewrite RF_id; assumption.
Qed.

(** wider formats contain narrower ones *)
Definition fsub_fmt (f g : fmt) : Prop := (fprec f <= fprec g)%Z /\ (femax f <= femax g)%Z.
Lemma FF_sub : forall f g x, fsub_fmt f g -> FF f x -> FF g x.
Proof.
  intros f g x [H1 H2] H. apply FF_inv in H as (m & e & Hm & He & ->).
  apply FF_dyadic.
  - pose proof (fmt_pos f). assert (2 ^ fprec f <= 2 ^ fprec g)%Z by (apply Z.pow_le_mono_r; lia). lia.
  - unfold femin in *. lia.
Qed.
Lemma isf_fcast_up : forall f g (x : flt f) a, fsub_fmt f g -> isf x a -> isf (fcast g x) a.
Proof.
  intros f g x a H Hx. apply isf_fcast_exact; [assumption|eapply FF_sub; eauto using isf_FF|].
  apply isf_lt in Hx. eapply Rlt_le_trans; [exact Hx|]. apply bpow_le. apply H.
Qed.

(** frexp *)
Lemma ffrexp_isf : forall f (x : flt f) a, isf x a -> a <> 0 ->
  isf (fst (ffrexp x)) (a * bpow radix2 (- mag radix2 a)) /\ snd (ffrexp x) = mag radix2 a.
Proof.
  intros f x a [Fx <-] Ha. destruct x as [s|s| |s m e He]; try discriminate; [simpl in Ha; congruence|].
  pose proof (Bfrexp_correct (fprec f) (femax f) _ (B754_finite s m e He) eq_refl) as H.
  unfold ffrexp. destruct (Bfrexp (B754_finite s m e He)) as [z q] eqn:Ez.
  destruct H as (H1 & H2). pose proof (fmt_pos f) as (_ & Hm & _).
  destruct (H2 ltac:(lia)) as (H3 & H4). unfold fst, snd. split; [|assumption].
  assert (is_finite z = true) as Fz.
  { destruct z as [| | |]; try reflexivity; simpl in H3; rewrite Rabs_R0 in H3; lra. }
  split; [assumption|]. rewrite <- H4, H1, Rmult_assoc, <- bpow_plus.
  rewrite Z.add_opp_diag_r. simpl. ring.
Qed.
