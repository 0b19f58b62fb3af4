(** Monotone functions: the functions and the API. *)
From Coq Require Import ZArith Reals Bool Lia Lra.
From Flocq Require Import Core.Core IEEE754.BinarySingleNaN.
From Verif Require Import CModel FloatModel Libm LibmSpec WidthConv Wrappers Conversion Codec Spec FloatSpec CodeFacts SpecFacts ValueFacts RoundFacts WidthFacts WidthApi WidthProps FloatFacts Machine LibmIdeal WrapApi WrapSpec LogApi LinApi LinProps FloatSym LogConv WrapTotal FloatAcc RealFacts FixFacts WrapAcc WrapMain WrapRefute LogAlgebra FunSym FunSym2 MonoFloat MonoSpec MonoConv MonoFun.
Local Open Scope R_scope.

Lemma acc_isf : forall e F r (y : flt F), acc e F r y -> 0 < r -> e < 1 -> exists v, isf y v /\ 0 < v.
Proof. intros e F r y (v & Iv & Hv) P E. exists v. split; [assumption|]. rewrite (Rabs_pos_eq r) in Hv by lra. apply Rabs_le_inv in Hv. nra. Qed.
Lemma lb_pos : exists v, isf (LB_E x86_64) v /\ 0 < v.
Proof. apply (acc_isf _ _ _ _ lb_acc); [apply Rinv_0_lt_compat; rewrite <- ln_1; apply ln_increasing; lra|apply (bpow_lt radix2 _ 0); lia]. Qed.
Lemma lg_pos : exists v, isf (LG_E x86_64) v /\ 0 < v.
Proof. apply (acc_isf _ _ _ _ lg_acc); [apply Rinv_0_lt_compat; rewrite <- ln_1; apply ln_increasing; lra|apply (bpow_lt radix2 _ 0); lia]. Qed.
Lemma pi_pos : exists v, isf (PI_ x86_64) v /\ 0 < v.
Proof. destruct pi_gap as (p & Ip & _ & Hp & _). exists p. split; [exact Ip|]. pose proof PI_RGT_0. pose proof (bpow_gt_0 radix2 (-66)). lra. Qed.

(** reciprocals *)
Definition same_sign (a b : R) : Prop := 0 < a <= b \/ a <= b < 0.
Lemma win_recip : forall a, win 260 a -> Rabs (1 / a) <= bpow radix2 260.
Proof.
  intros a W. assert (win 0 1) as W1 by (unfold win; rewrite Rabs_R1; simpl; lra). pose proof (win_div 0 260 1 a W1 W) as [_ H]. exact H.
Qed.
Lemma recip : forall (x : flt f80) a, isf x a -> win 260 a ->
  isf (fdiv (one f80) x) (RF f80 (1 / a)) /\ isf (fcast f64 (fdiv (one f80) x)) (RF f64 (RF f80 (1 / a))).
Proof.
  intros x a Ix W. pose proof (win_recip a W) as B. assert (a <> 0) as N by (intros ->; destruct W as [W _]; rewrite Rabs_R0 in W; pose proof (bpow_gt_0 radix2 (Z.opp 260)); lra).
  assert (isf (fdiv (one f80) x) (RF f80 (1 / a))) as I1 by (apply isf_fdiv; [apply one_isf|assumption|assumption|apply (RF_lt_emax f80 _ 260); [split; vm_compute; congruence|assumption]]).
  split; [assumption|]. apply isf_fcast; [assumption|]. apply (RF_lt_emax f64 _ 260); [split; vm_compute; congruence|]. apply RF_abs_le; [|assumption]. apply FF_bpow. vm_compute. congruence.
Qed.

Lemma recip_anti : forall a b, same_sign a b -> RF f80 (1 / b) <= RF f80 (1 / a) /\ RF f64 (RF f80 (1 / b)) <= RF f64 (RF f80 (1 / a)).
Proof.
  intros a b H. assert (1 / b <= 1 / a) as K.
  { unfold Rdiv. rewrite !Rmult_1_l. destruct H as [[P Q]|[P Q]]; [apply Rinv_le_contravar; assumption|].
    rewrite <- (Ropp_involutive (/ b)), <- (Ropp_involutive (/ a)). apply Ropp_le_contravar. rewrite <- !Rinv_opp. apply Rinv_le_contravar; lra. }
  pose proof (RF_mono f80 _ _ K) as K1. split; [assumption|]. apply RF_mono. assumption.
Qed.

Lemma width_64 : forall w, w = W64 \/ w <> W64.
Proof. intros []; ((left; reflexivity) || (right; discriminate)). Qed.

Section Mono.
Variable lm : libm.
Hypothesis C : c99 lm.
Hypothesis M : monotone lm.

Lemma inc_g : forall g F (x y : flt F) a b, inc1 g = true -> isf x a -> isf y b -> a <= b -> is_nan (m1 lm g x) = false -> is_nan (m1 lm g y) = false -> fle (m1 lm g x) (m1 lm g y) = true.
Proof. intros g F x y a b Hg [Fx <-] [Fy <-] H Nx Ny. apply (mono_inc lm M); assumption. Qed.
Lemma acos_g : forall F (x y : flt F) a b, isf x a -> isf y b -> a <= b -> is_nan (m1 lm Facos x) = false -> is_nan (m1 lm Facos y) = false -> fle (m1 lm Facos y) (m1 lm Facos x) = true.
Proof. intros F x y a b [Fx <-] [Fy <-] H Nx Ny. apply (mono_acos lm M); assumption. Qed.
Lemma cosh_g : forall F (x y : flt F) a b, isf x a -> isf y b -> 0 < a <= b -> fle (m1 lm Fcosh x) (m1 lm Fcosh y) = true.
Proof. intros F x y a b [Fx <-] [Fy <-] H. apply (mono_cosh lm M); try assumption. lra. Qed.
Lemma pow_g : forall F (x y : flt F) a b, (1 < fprec F)%Z -> isf x a -> isf y b -> a <= b -> fle (cpow lm (fint F 10) x) (cpow lm (fint F 10) y) = true.
Proof.
  intros F x y a b _ [Fx <-] [Fy <-] H. assert (isf (fint F 10) 10) as [F10 V10] by (apply isf_fint; destruct F; simpl; lia). apply (mono_pow_exponent lm M); try assumption. rewrite V10. lra.
Qed.

Lemma sinh_pos : forall a, 0 < a -> 0 < sinh a.
Proof. intros a H. rewrite <- sinh_0. apply sinh_lt. assumption. Qed.
Lemma sinh_neg : forall a, a < 0 -> sinh a < 0.
Proof. intros a H. rewrite <- sinh_0. apply sinh_lt. assumption. Qed.
Lemma cosh_sgn : forall F (x : flt F) a, isf x a -> nonneg (m1 lm Fcosh x).
Proof. intros F x a [Fx <-]. apply (close_pos _ _ _ _ (c_in lm C Fcosh F x Fx Logic.I)). simpl. pose proof (cosh_ge_1 (B2R x)). lra. Qed.
Lemma sinh_sgn : forall F (x : flt F) a, isf x a -> (0 < a -> nonneg (m1 lm Fsinh x)) /\ (a < 0 -> nonpos (m1 lm Fsinh x)).
Proof.
  intros F x a [Fx <-]. pose proof (c_in lm C Fsinh F x Fx Logic.I) as K. split; intros P; [apply (close_pos _ _ _ _ K), sinh_pos, P|apply (close_neg _ _ _ _ K), sinh_neg, P].
Qed.
Lemma tanh_sgn : forall F (x : flt F) a, isf x a -> (0 < a -> nonneg (m1 lm Ftanh x)) /\ (a < 0 -> nonpos (m1 lm Ftanh x)).
Proof.
  intros F x a [Fx <-]. pose proof (c_in lm C Ftanh F x Fx Logic.I) as K. pose proof (cosh_ge_1 (B2R x)). split; intros P; [apply (close_pos _ _ _ _ K)|apply (close_neg _ _ _ _ K)]; simpl; unfold tanh.
  - apply Rdiv_lt_0_compat; [apply sinh_pos, P|lra].
  - pose proof (sinh_neg _ P). apply Ropp_lt_cancel. rewrite Ropp_0. unfold Rdiv. rewrite Ropp_mult_distr_l. apply Rdiv_lt_0_compat; lra.
Qed.

Lemma on_sign : forall a b (P Q : bool), (a <= b) -> (False \/ (0 < a /\ P = true) \/ (b < 0 /\ Q = true)) -> same_sign a b.
Proof. intros a b P Q H [[]|[[K _]|[K _]]]; [left|right]; lra. Qed.

Lemma ld_inc : forall u (x y : flt f80) a b, isf x a -> isf y b -> a = 0 \/ win 260 a -> b = 0 \/ win 260 b -> a <= b ->
  is_nan (unary_ld x86_64 lm u x) = false -> is_nan (unary_ld x86_64 lm u y) = false -> inc_on u a b ->
  fle (unary_ld x86_64 lm u x) (unary_ld x86_64 lm u y) = true.
Proof.
  intros u x y a b Ix Iy Wa Wb H Nx Ny Hu. destruct (one_isf f80) as [F1 _]. destruct pi_pos as (p & Ip & Pp). destruct lb_pos as (l & Il & Pl). destruct lg_pos as (k & Ik & Pk).
  assert (same_sign a b -> win 260 a /\ win 260 b) as SW by (intros [?|?]; split; [destruct Wa|destruct Wb|destruct Wa|destruct Wb]; (assumption || lra)).
  destruct u; try (destruct Hu as [Hu|[[? Hu]|[? Hu]]]; discriminate Hu); cbn [unary_ld] in *; try (match goal with |- fle (m1 lm ?g x) _ = true => apply (inc_g g f80 x y a b eq_refl Ix Iy H Nx Ny) end).
  - unfold two_raised_minus_1l in *. apply nan_sub_l in Nx. apply nan_sub_l in Ny. apply sub_mono; [exact F1|]. apply (inc_g _ _ _ _ a b); (reflexivity || assumption).
  - unfold ten_raisedl. apply (pow_g f80 x y a b); (assumption || reflexivity).
  - unfold ten_raised_minus_1l. apply sub_mono; [exact F1|]. apply (pow_g f80 x y a b); (assumption || reflexivity).
  - unfold lb_1_plusl in *. apply nan_mul_r in Nx. apply nan_mul_r in Ny. apply (mul_mono f80 _ _ _ l Il Pl). apply (inc_g _ f80 _ _ a b); (reflexivity || assumption).
  - unfold lg_1_plusl in *. apply nan_mul_r in Nx. apply nan_mul_r in Ny. apply (mul_mono f80 _ _ _ k Ik Pk). apply (inc_g _ f80 _ _ a b); (reflexivity || assumption).
  - unfold arcsin_over_pil in *. apply nan_div_l in Nx. apply nan_div_l in Ny. apply (div_mono f80 _ _ _ p Ip Pp). apply (inc_g _ f80 _ _ a b); (reflexivity || assumption).
  - unfold arctanpil in *. apply nan_div_l in Nx. apply nan_div_l in Ny. apply (div_mono f80 _ _ _ p Ip Pp). apply (inc_g _ f80 _ _ a b); (reflexivity || assumption).
  - assert (same_sign a b) as S by (destruct Hu as [Hu|[[? Hu]|[? Hu]]]; [discriminate Hu|left; lra|right; lra]). destruct (SW S) as [W1 W2]. destruct (recip_anti a b S) as [R1 _]. destruct (recip x a Ix W1) as [I1 _]. destruct (recip y b Iy W2) as [I2 _].
    unfold arcsecl in *. apply (acos_g f80 _ _ _ _ I2 I1 R1); assumption.
  - assert (same_sign a b) as S by (destruct Hu as [Hu|[[? Hu]|[? Hu]]]; [discriminate Hu|left; lra|right; lra]). destruct (SW S) as [W1 W2]. destruct (recip_anti a b S) as [R1 _]. destruct (recip x a Ix W1) as [I1 _]. destruct (recip y b Iy W2) as [I2 _].
    unfold arcsec_over_pil in *. apply nan_div_l in Nx. apply nan_div_l in Ny. apply (div_mono f80 _ _ _ p Ip Pp). apply (acos_g f80 _ _ _ _ I2 I1 R1); assumption.
  - destruct Hu as [Hu|[[P Hu]|[P Hu]]]; try discriminate Hu. apply (cosh_g f80 x y a b); (assumption || lra).
Qed.

Lemma ld_dec : forall u (x y : flt f80) a b, isf x a -> isf y b -> a = 0 \/ win 260 a -> b = 0 \/ win 260 b -> a <= b ->
  is_nan (unary_ld x86_64 lm u x) = false -> is_nan (unary_ld x86_64 lm u y) = false -> dec_on u a b ->
  fle (unary_ld x86_64 lm u y) (unary_ld x86_64 lm u x) = true.
Proof.
  intros u x y a b Ix Iy Wa Wb H Nx Ny Hu. pose proof (one_isf f80) as I1. destruct pi_pos as (p & Ip & Pp).
  assert (same_sign a b -> win 260 a /\ win 260 b) as SW by (intros [?|?]; split; [destruct Wa|destruct Wb|destruct Wa|destruct Wb]; (assumption || lra)).
  assert (dec_name u = false -> same_sign a b /\ (isf (fdiv (one f80) x) (RF f80 (1 / a)) /\ isf (fdiv (one f80) y) (RF f80 (1 / b)) /\ RF f80 (1 / b) <= RF f80 (1 / a)) /\
    (isf (fcast f64 (fdiv (one f80) x)) (RF f64 (RF f80 (1 / a))) /\ isf (fcast f64 (fdiv (one f80) y)) (RF f64 (RF f80 (1 / b))) /\ RF f64 (RF f80 (1 / b)) <= RF f64 (RF f80 (1 / a)))) as RC.
  { intros D. assert (same_sign a b) as S by (destruct Hu as [Hu|[[? Hu]|[? Hu]]]; [congruence|left; lra|right; lra]). destruct (SW S) as [W1 W2]. destruct (recip_anti a b S) as [R1 R2].
    destruct (recip x a Ix W1) as [J1 J2]. destruct (recip y b Iy W2) as [K1 K2]. repeat split; try assumption; (apply J1 || apply J2 || apply K1 || apply K2). }
  destruct u; try (destruct Hu as [Hu|[[? Hu]|[? Hu]]]; discriminate Hu); try (destruct (RC eq_refl) as (S & (J1 & J2 & J3) & (K1 & K2 & K3))); clear RC; cbn [unary_ld] in *.
  - apply (acos_g f80 x y a b); assumption.
  - unfold arccospil in *. apply nan_div_l in Nx. apply nan_div_l in Ny. apply (div_mono f80 _ _ _ p Ip Pp). apply (acos_g f80 _ _ a b); assumption.
  - unfold arccotl in *. change (ld x86_64) with f80 in *. rewrite (fge_isf _ _ _ _ Ix (FloatFacts.isf_zero f80)) in *. rewrite (fge_isf _ _ _ _ Iy (FloatFacts.isf_zero f80)) in *.
    destruct S as [S|S]; [rewrite !Rle_bool_true in * by lra|rewrite !Rle_bool_false in * by lra].
    + eapply inc_g; [reflexivity|exact J2|exact J1|exact J3|assumption|assumption].
    + apply nan_add_l in Nx. apply nan_add_l in Ny. apply add_mono; [apply Ip|]. eapply inc_g; [reflexivity|exact J2|exact J1|exact J3|assumption|assumption].
  - unfold arccot_over_pil in *. change (ld x86_64) with f80 in *. rewrite (fge_isf _ _ _ _ Ix (FloatFacts.isf_zero f80)) in *. rewrite (fge_isf _ _ _ _ Iy (FloatFacts.isf_zero f80)) in *.
    destruct S as [S|S]; [rewrite !Rle_bool_true in * by lra|rewrite !Rle_bool_false in * by lra].
    + apply nan_div_l in Nx. apply nan_div_l in Ny. apply (div_mono f80 _ _ _ p Ip Pp). eapply inc_g; [reflexivity|exact J2|exact J1|exact J3|assumption|assumption].
    + apply nan_add_l in Nx. apply nan_add_l in Ny. apply nan_div_l in Nx. apply nan_div_l in Ny. apply add_mono; [apply I1|]. apply (div_mono f80 _ _ _ p Ip Pp). eapply inc_g; [reflexivity|exact J2|exact J1|exact J3|assumption|assumption].
  - unfold arccscl in *. eapply inc_g; [reflexivity|exact J2|exact J1|exact J3|assumption|assumption].
  - unfold arccsc_over_pil in *. apply nan_div_l in Nx. apply nan_div_l in Ny. apply (div_mono f80 _ _ _ p Ip Pp). eapply inc_g; [reflexivity|exact J2|exact J1|exact J3|assumption|assumption].
  - unfold cothl in *. apply nan_div_r in Nx. apply nan_div_r in Ny. pose proof (inc_g Ftanh f80 x y a b eq_refl Ix Iy H Nx Ny) as L. destruct (tanh_sgn f80 x a Ix) as [A1 A2]. destruct (tanh_sgn f80 y b Iy) as [B1 B2].
    destruct S as [S|S]; [apply (inv_anti f80 _ _ _ 1 I1); (apply A1 || apply B1 || idtac)|apply (inv_anti_neg f80 _ _ _ 1 I1); (apply A2 || apply B2 || idtac)]; (assumption || lra).
  - destruct Hu as [Hu|[[P Hu]|[P Hu]]]; try discriminate Hu. unfold sech_ in *. apply (inv_anti f80 _ _ _ 1 I1); [lra|apply (cosh_sgn f80 x a Ix)|apply (cosh_sgn f80 y b Iy)|]. apply (cosh_g f80 x y a b); (assumption || lra).
  - unfold cschl in *. apply nan_div_r in Nx. apply nan_div_r in Ny. pose proof (inc_g Fsinh f80 x y a b eq_refl Ix Iy H Nx Ny) as L. destruct (sinh_sgn f80 x a Ix) as [A1 A2]. destruct (sinh_sgn f80 y b Iy) as [B1 B2].
    destruct S as [S|S]; [apply (inv_anti f80 _ _ _ 1 I1); (apply A1 || apply B1 || idtac)|apply (inv_anti_neg f80 _ _ _ 1 I1); (apply A2 || apply B2 || idtac)]; (assumption || lra).
  - unfold arcothl in *. apply nan_cast in Nx. apply nan_cast in Ny. apply cast_mono. eapply inc_g; [reflexivity|exact K2|exact K1|exact K3|assumption|assumption].
  - unfold arsechl in *. eapply inc_g; [reflexivity|exact J2|exact J1|exact J3|assumption|assumption].
  - unfold arcschl in *. apply nan_cast in Nx. apply nan_cast in Ny. apply cast_mono. eapply inc_g; [reflexivity|exact K2|exact K1|exact K3|assumption|assumption].
Qed.

(** the fixers' assumptions *)
Lemma exp_sgn : forall g F (x : flt F) a, isf x a -> g = Fexp \/ g = Fexp2 -> nonneg (m1 lm g x).
Proof. intros g F x a [Fx <-] [-> | ->]; [apply (close_pos _ _ _ _ (c_in lm C Fexp F x Fx Logic.I))|apply (close_pos _ _ _ _ (c_in lm C Fexp2 F x Fx Logic.I))]; apply exp_pos. Qed.
Lemma pow10_sgn : forall F (x : flt F) a, isf x a -> nonneg (cpow lm (fint F 10) x).
Proof.
  intros F x a [Fx <-]. assert (isf (fint F 10) 10) as [F10 V10] by (apply isf_fint; destruct F; simpl; lia).
  apply (close_pos _ _ _ _ (c_pow_pos lm C F _ x F10 Fx ltac:(rewrite V10; lra))). apply exp_pos.
Qed.
Lemma minus_1 : forall F G (z : flt F), nonneg z -> fsub z (one F) <> B754_infinity true /\ fcast G (fsub z (one F)) <> B754_infinity true.
Proof.
  intros F G z Hz. assert (fle (fzero F) z = true) as L by (apply le_xv; [reflexivity|apply Hz|apply (xv_nonneg F z Hz)]).
  assert (isf (fsub (fzero F) (one F)) (-1)) as I1.
  { assert (FF F (-1)) as F1 by (replace (-1) with (- bpow radix2 0) by (simpl; lra); apply FF_opp, FF_bpow; destruct F; vm_compute; congruence).
    replace (-1) with (RF F (0 - 1)) by (replace (0 - 1) with (-1) by ring; apply RF_id; assumption). apply isf_fsub; [apply FloatFacts.isf_zero|apply one_isf|].
    apply (RF_lt_emax F _ 0); [destruct F; split; vm_compute; congruence|]. rewrite Rminus_0_l, Rabs_Ropp, Rabs_R1. simpl. lra. }
  pose proof (sub_mono F (one F) _ _ (proj1 (one_isf F)) L) as L1. split; [apply (ninf_le _ _ _ L1); intros E; rewrite E in I1; destruct I1; discriminate|].
  apply (cast_mono F G) in L1. apply (ninf_le _ _ _ L1). intros E.
  assert (isf (fcast G (fsub (fzero F) (one F))) (RF G (-1))) as I2. { apply isf_fcast; [assumption|]. apply (RF_lt_emax G _ 0); [destruct G; split; vm_compute; congruence|]. replace (-1) with (Ropp 1) by lra. rewrite Rabs_Ropp, Rabs_R1. simpl. lra. }
  rewrite E in I2. destruct I2. discriminate.
Qed.
Lemma expm1_low : forall F (x : flt F) a, isf x a -> m1 lm Fexpm1 x <> B754_infinity true.
Proof. intros F x a [Fx <-]. apply (close_ninf _ _ _ _ (c_in lm C Fexpm1 F x Fx Logic.I)). simpl. pose proof (exp_pos (B2R x)). lra. Qed.
Lemma acosh_low : forall F (x : flt F) a, isf x a -> is_nan (m1 lm Facosh x) = false -> m1 lm Facosh x <> B754_infinity true.
Proof.
  intros F x a [Fx <-] N. destruct (Rle_lt_dec 1 (B2R x)) as [D|D].
  - apply (close_ninf _ _ _ _ (c_in lm C Facosh F x Fx D)). simpl. pose proof (sqrt_pos (B2R x * B2R x - 1)).
    apply Rle_trans with 0; [lra|]. rewrite <- ln_1. destruct (Req_dec (B2R x + sqrt (B2R x * B2R x - 1)) 1) as [E|E]; [rewrite E; lra|]. left. apply ln_increasing; lra.
  - unfold m1 in N. rewrite (c_out lm C Facosh F x Fx) in N; [discriminate N|simpl; lra|simpl; tauto].
Qed.
Lemma cosh_low : forall F (x : flt F) a, isf x a -> m1 lm Fcosh x <> B754_infinity true.
Proof. intros. eapply nonneg_ninf, cosh_sgn. eassumption. Qed.
Lemma csch_cond : forall (x : flt f80) a, isf x a -> a <> 0 -> (0 < a /\ nonneg (cschl x86_64 lm x)) \/ (a < 0 /\ nonpos (cschl x86_64 lm x)).
Proof.
  intros x a Ix N. destruct (sinh_sgn f80 x a Ix) as [A1 A2]. destruct (Rtotal_order a 0) as [P|[P|P]]; [right|contradiction|left]; (split; [assumption|]); unfold cschl.
  - apply (inv_nonpos f80 _ _ 1 (one_isf f80)); [lra|auto].
  - apply (inv_nonneg f80 _ _ 1 (one_isf f80)); [lra|auto].
Qed.
Lemma ld_cond : forall u (x : flt f80) a, isf x a -> is_nan (unary_ld x86_64 lm u x) = false -> (u = n_csch -> a <> 0) -> fixcond u a (unary_ld x86_64 lm u x).
Proof.
  intros u x a Ix Nx Na. unfold fixcond. destruct u; cbn [fixclass_of unary_ld] in *; try exact Logic.I.
  - apply (exp_sgn _ f80 x a Ix). auto.
  - apply (expm1_low f80 x a Ix).
  - apply (exp_sgn _ f80 x a Ix). auto.
  - apply (minus_1 f80 f64). apply (exp_sgn _ f80 x a Ix). auto.
  - apply (pow10_sgn f80 x a Ix).
  - apply (minus_1 f80 f64). apply (pow10_sgn f80 x a Ix).
  - apply (cosh_low f80 x a Ix).
  - apply (inv_nonneg f80 _ _ 1 (one_isf f80)); [lra|]. apply (cosh_sgn f80 x a Ix).
  - apply csch_cond; auto.
  - apply (acosh_low f80 x a Ix Nx).
Qed.
Lemma dbl_up : forall (x : flt f64) a, isf x a -> isf (fcast (ld x86_64) x) a.
Proof. intros x a H. apply isf_fcast_up; [split; simpl; lia|assumption]. Qed.
Lemma dbl_cond : forall u (x : flt f64) a, isf x a -> is_nan (unary_double x86_64 lm u x) = false -> (u = n_csch -> a <> 0) -> fixcond u a (unary_double x86_64 lm u x).
Proof.
  intros u x a Ix Nx Na. pose proof (dbl_up x a Ix) as Iu. unfold fixcond. destruct u; cbn [fixclass_of unary_double] in *; try exact Logic.I; unfold via_ld; cbn [unary_ld].
  - apply (exp_sgn _ f64 x a Ix). auto.
  - apply (expm1_low f64 x a Ix).
  - apply (exp_sgn _ f64 x a Ix). auto.
  - apply (minus_1 f80 f64). apply (exp_sgn _ f80 _ a Iu). auto.
  - apply cast_nonneg. apply (pow10_sgn f80 _ a Iu).
  - apply (minus_1 f80 f64). apply (pow10_sgn f80 _ a Iu).
  - apply (cosh_low f64 x a Ix).
  - apply (inv_nonneg f64 _ _ 1 (one_isf f64)); [lra|]. apply (cosh_sgn f64 x a Ix).
  - destruct (csch_cond _ a Iu (Na eq_refl)) as [[P K]|[P K]]; [left|right]; (split; [assumption|]); [apply cast_nonneg|apply cast_nonpos]; exact K.
  - apply (acosh_low f64 x a Ix Nx).
Qed.

Lemma dbl_inc : forall u (x y : flt f64) a b, isf x a -> isf y b -> a = 0 \/ win 260 a -> b = 0 \/ win 260 b -> a <= b ->
  is_nan (unary_double x86_64 lm u x) = false -> is_nan (unary_double x86_64 lm u y) = false -> inc_on u a b ->
  fle (unary_double x86_64 lm u x) (unary_double x86_64 lm u y) = true.
Proof.
  intros u x y a b Ix Iy Wa Wb H Nx Ny Hu. pose proof (dbl_up x a Ix) as Jx. pose proof (dbl_up y b Iy) as Jy.
  assert (is_nan (via_ld x86_64 (unary_ld x86_64 lm u) x) = false -> is_nan (via_ld x86_64 (unary_ld x86_64 lm u) y) = false -> fle (via_ld x86_64 (unary_ld x86_64 lm u) x) (via_ld x86_64 (unary_ld x86_64 lm u) y) = true) as V.
  { unfold via_ld. intros Vx Vy. apply nan_cast in Vx. apply nan_cast in Vy. apply cast_mono. apply (ld_inc u _ _ a b); assumption. }
  destruct u; try (destruct Hu as [Hu|[[? Hu]|[? Hu]]]; discriminate Hu); cbn [unary_double] in *;
    try (match goal with |- fle (via_ld _ _ _) _ = true => exact (V Nx Ny) end); try (match goal with |- fle (m1 lm ?g x) _ = true => apply (inc_g g f64 x y a b eq_refl Ix Iy H Nx Ny) end).
  destruct Hu as [Hu|[[P Hu]|[P Hu]]]; try discriminate Hu. apply (cosh_g f64 x y a b); (assumption || lra).
Qed.
Lemma dbl_dec : forall u (x y : flt f64) a b, isf x a -> isf y b -> a = 0 \/ win 260 a -> b = 0 \/ win 260 b -> a <= b ->
  is_nan (unary_double x86_64 lm u x) = false -> is_nan (unary_double x86_64 lm u y) = false -> dec_on u a b ->
  fle (unary_double x86_64 lm u y) (unary_double x86_64 lm u x) = true.
Proof.
  intros u x y a b Ix Iy Wa Wb H Nx Ny Hu. pose proof (dbl_up x a Ix) as Jx. pose proof (dbl_up y b Iy) as Jy.
  assert (is_nan (via_ld x86_64 (unary_ld x86_64 lm u) x) = false -> is_nan (via_ld x86_64 (unary_ld x86_64 lm u) y) = false -> fle (via_ld x86_64 (unary_ld x86_64 lm u) y) (via_ld x86_64 (unary_ld x86_64 lm u) x) = true) as V.
  { unfold via_ld. intros Vx Vy. apply nan_cast in Vx. apply nan_cast in Vy. apply cast_mono. apply (ld_dec u _ _ a b); assumption. }
  destruct u; try (destruct Hu as [Hu|[[? Hu]|[? Hu]]]; discriminate Hu); cbn [unary_double] in *;
    try (match goal with |- fle (via_ld _ _ _) _ = true => exact (V Nx Ny) end).
  - apply (acos_g f64 x y a b); assumption.
  - destruct Hu as [Hu|[[P Hu]|[P Hu]]]; try discriminate Hu. unfold sech_ in *. apply (inv_anti f64 _ _ _ 1 (one_isf f64)); [lra|apply (cosh_sgn f64 x a Ix)|apply (cosh_sgn f64 y b Iy)|]. apply (cosh_g f64 x y a b); (assumption || lra).
Qed.

(** a NaN result stays one *)
Lemma fix_nan : forall u F (x y : flt F), is_nan y = true -> is_finite (unary_fixer u F x y) = false.
Proof. intros u F x y H. destruct y as [s|s| |s m e K]; try discriminate. rewrite fixer_class. destruct (fixclass_of u); reflexivity. Qed.
Lemma not_nan : forall u n F T (x y : flt F) t, conv_ok n F T -> T (unary_fixer u F x y) = Val t -> t <> nar n -> is_nan y = false.
Proof.
  intros u n F T x y t K E N. destruct (is_nan y) eqn:Hy; [|reflexivity]. exfalso. apply N. pose proof (fix_nan u F x y Hy) as Hf.
  destruct (k_val n F T K (unary_fixer u F x y)) as (t' & E' & [_ Q] & _). rewrite E in E'. assert (t' = t) as -> by congruence. apply Q. assumption.
Qed.

(** the wrapper, from floats to takums *)
Lemma wrap_inc : forall u n F T fl (x y : flt F) a b r q, conv_ok n F T ->
  (forall z c, isf z c -> is_nan (fl z) = false -> (u = n_csch -> c <> 0) -> fixcond u c (fl z)) ->
  isf x a -> isf y b -> a <= b -> (is_nan (fl x) = false -> is_nan (fl y) = false -> fle (fl x) (fl y) = true) -> inc_on u a b ->
  T (unary_fixer u F x (fl x)) = Val r -> T (unary_fixer u F y (fl y)) = Val q -> r <> nar n -> q <> nar n -> (r <= q)%Z.
Proof.
  intros u n F T fl x y a b r q K HC Ix Iy H L Hu Er Eq Nr Nq.
  assert (u <> n_csch) as Nu by (intros ->; destruct Hu as [Hu|[[? Hu]|[? Hu]]]; discriminate Hu).
  pose proof (not_nan _ _ _ _ _ _ _ K Er Nr) as N1. pose proof (not_nan _ _ _ _ _ _ _ K Eq Nq) as N2.
  apply (fix_mono u n F T x y (fl x) (fl y) a b); auto; apply HC; auto; contradiction.
Qed.
Lemma wrap_dec : forall u n F T fl (x y : flt F) a b r q, conv_ok n F T ->
  (forall z c, isf z c -> is_nan (fl z) = false -> (u = n_csch -> c <> 0) -> fixcond u c (fl z)) ->
  isf x a -> isf y b -> a <= b -> (is_nan (fl x) = false -> is_nan (fl y) = false -> fle (fl y) (fl x) = true) -> dec_on u a b ->
  T (unary_fixer u F x (fl x)) = Val r -> T (unary_fixer u F y (fl y)) = Val q -> r <> nar n -> q <> nar n -> (q <= r)%Z.
Proof.
  intros u n F T fl x y a b r q K HC Ix Iy H L Hu Er Eq Nr Nq.
  assert (u = n_csch -> 0 < b * a /\ a <> 0 /\ b <> 0) as Nu by (intros ->; destruct Hu as [Hu|[[? Hu]|[? Hu]]]; [discriminate Hu|repeat split; try lra; nra|repeat split; try lra; nra]).
  pose proof (not_nan _ _ _ _ _ _ _ K Er Nr) as N1. pose proof (not_nan _ _ _ _ _ _ _ K Eq Nq) as N2.
  apply (fix_mono u n F T y x (fl y) (fl x) b a); auto.
  - apply HC; auto. intros E. apply Nu. assumption.
  - apply HC; auto. intros E. apply Nu. assumption.
  - destruct (fixclass_of u) eqn:Ec; try (right; intros ->; discriminate Ec). left. apply Nu, csch_class. assumption.
Qed.

(** monotone on the interval between two takums *)
Theorem unary_mono : forall k u w s t x y r q, is_intn (bits w) s -> is_intn (bits w) t -> value k (bits w) s = Some x -> value k (bits w) t = Some y -> x <= y ->
  api_unary k lm u w s = Val r -> api_unary k lm u w t = Val q -> r <> nar (bits w) -> q <> nar (bits w) ->
  (inc_on u x y -> (r <= q)%Z) /\ (dec_on u x y -> (q <= r)%Z).
Proof.
  intros k u w s t x y r q Is It Vx Vy H Er Eq Nr Nq. destruct k; cbn [api_unary] in *; swap 1 2.
  - unfold takum_linear_unary in *. destruct (width_64 w) as [->|Nw]; [|destruct (lin_double_cases w) as [E|(Ht & Hf & HE & Eu)]; [contradiction|]].
    + unfold unary_lin in Er, Eq. cbn [bits] in *. destruct (ld_arg s x Is Vx) as (f & Ef & If & Af & _). destruct (ld_arg t y It Vy) as (g & Eg & Ig & Ag & _).
      rewrite Ef in Er. rewrite Eg in Eq. cbn [bind] in Er, Eq. pose proof (arg_rng _ _ Af) as W1. pose proof (arg_rng _ _ Ag) as W2.
      assert (conv_ok 64 f80 (lin_from_ld x86_64 W64)) as K by (apply lin_conv_ok; [constructor|right; reflexivity]).
      split; intros Hu.
      * apply (wrap_inc u 64 f80 _ (unary_ld x86_64 lm u) f g x y r q K); auto; [intros; apply ld_cond; assumption|]. intros; apply (ld_inc u f g x y); assumption.
      * apply (wrap_dec u 64 f80 _ (unary_ld x86_64 lm u) f g x y r q K); auto; [intros; apply ld_cond; assumption|]. intros; apply (ld_dec u f g x y); assumption.
    + rewrite Eu in Er, Eq. destruct (dbl_arg w s x Nw Is Vx) as (f & Ef & If & Af & _). destruct (dbl_arg w t y Nw It Vy) as (g & Eg & Ig & Ag & _).
      rewrite Ef in Er. rewrite Eg in Eq. cbn [bind] in Er, Eq. pose proof (arg_rng _ _ Af) as W1. pose proof (arg_rng _ _ Ag) as W2.
      assert (conv_ok (bits w) f64 (lin_from_double x86_64 w)) as K by (apply lin_conv_ok; [assumption|left; reflexivity]).
      split; intros Hu.
      * apply (wrap_inc u _ f64 _ (unary_double x86_64 lm u) f g x y r q K); auto; [intros; apply dbl_cond; assumption|]. intros; apply (dbl_inc u f g x y); assumption.
      * apply (wrap_dec u _ f64 _ (unary_double x86_64 lm u) f g x y r q K); auto; [intros; apply dbl_cond; assumption|]. intros; apply (dbl_dec u f g x y); assumption.
  - unfold takum_unary, unary_log in *.
    assert (log_to_float lm (bits w) f80 (log_to_ld x86_64 lm w)) as Hh by (destruct w; constructor).
    assert (log_from_float lm (bits w) f80 (log_from_ld x86_64 lm w)) as Hg by (destruct w; constructor).
    destruct (FixFacts.log_arg lm _ _ s x C Hh Is Vx) as (f & a & Ef & If & Af & _). destruct (FixFacts.log_arg lm _ _ t y C Hh It Vy) as (g & b & Eg & Ig & Ag & _).
    assert (8 <= bits w <= 64)%Z as Hn by (destruct w; simpl; lia).
    assert (a <= b) as Hab.
    { assert (s <> nar (bits w)) as Ns by (intros ->; rewrite value_nar in Vx by lia; discriminate).
      assert (5 <= bits w <= 64)%Z as Hn5 by lia. pose proof (value_lt (bits w) Hn5 Logarithmic t s y x It Is Vy Vx) as VL. destruct (Z.lt_trichotomy s t) as [O|[O|O]].
      - destruct (log_to_lt lm _ _ s t C Hh Is It Ns O) as (f' & g' & Ef' & Eg' & _ & _ & L). rewrite Ef in Ef'. rewrite Eg in Eg'. assert (f' = f) by congruence. assert (g' = g) by congruence. subst f' g'. destruct If as [_ <-], Ig as [_ <-]. lra.
      - subst t. rewrite Ef in Eg. assert (f = g) by congruence. subst g. destruct If as [_ <-], Ig as [_ <-]. lra.
      - apply VL in O. lra. }
    rewrite Ef in Er. rewrite Eg in Eq. cbn [bind] in Er, Eq.
    assert (a = 0 \/ win 260 a) as W1 by (destruct (arg_rng _ _ Af) as [E|E]; [left; apply (arg_order x a Af); assumption|right; assumption]).
    assert (b = 0 \/ win 260 b) as W2 by (destruct (arg_rng _ _ Ag) as [E|E]; [left; apply (arg_order y b Ag); assumption|right; assumption]).
    assert (conv_ok (bits w) f80 (log_from_ld x86_64 lm w)) as K by (apply (log_conv_ok lm); [assumption|assumption|assumption|right; reflexivity]).
    destruct (arg_order x a Af) as (_ & Pa & _). destruct (arg_order y b Ag) as (_ & _ & Pb & _).
    split; intros Hu.
    + assert (inc_on u a b) as Hu' by (destruct Hu as [Hu|[[P Hu]|[P Hu]]]; [left; assumption|right; left; split; [apply Pa; assumption|assumption]|right; right; split; [apply Pb; assumption|assumption]]).
      apply (wrap_inc u _ f80 _ (unary_ld x86_64 lm u) f g a b r q K); auto; [intros; apply ld_cond; assumption|]. intros; apply (ld_inc u f g a b); assumption.
    + assert (dec_on u a b) as Hu' by (destruct Hu as [Hu|[[P Hu]|[P Hu]]]; [left; assumption|right; left; split; [apply Pa; assumption|assumption]|right; right; split; [apply Pb; assumption|assumption]]).
      apply (wrap_dec u _ f80 _ (unary_ld x86_64 lm u) f g a b r q K); auto; [intros; apply ld_cond; assumption|]. intros; apply (ld_dec u f g a b); assumption.
Qed.
End Mono.

Theorem api_inc : forall k lm u w s t x y r q, c99 lm -> monotone lm ->
  is_intn (bits w) s -> is_intn (bits w) t -> value k (bits w) s = Some x -> value k (bits w) t = Some y -> x <= y -> inc_on u x y ->
  api_unary k lm u w s = Val r -> api_unary k lm u w t = Val q -> r <> nar (bits w) -> q <> nar (bits w) -> (r <= q)%Z.
Proof. intros k lm u w s t x y r q C M Is It Vx Vy H Hu Er Eq Nr Nq. exact (proj1 (unary_mono lm C M k u w s t x y r q Is It Vx Vy H Er Eq Nr Nq) Hu). Qed.
Theorem api_dec : forall k lm u w s t x y r q, c99 lm -> monotone lm ->
  is_intn (bits w) s -> is_intn (bits w) t -> value k (bits w) s = Some x -> value k (bits w) t = Some y -> x <= y -> dec_on u x y ->
  api_unary k lm u w s = Val r -> api_unary k lm u w t = Val q -> r <> nar (bits w) -> q <> nar (bits w) -> (q <= r)%Z.
Proof. intros k lm u w s t x y r q C M Is It Vx Vy H Hu Er Eq Nr Nq. exact (proj2 (unary_mono lm C M k u w s t x y r q Is It Vx Vy H Er Eq Nr Nq) Hu). Qed.
