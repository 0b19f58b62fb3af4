(** Floats that pass through a logarithmic takum of 64 bits. *)
From Coq Require Import ZArith Reals Bool Lia Lra.
From Flocq Require Import Core.Core IEEE754.BinarySingleNaN.
From Verif Require Import CModel FloatModel Libm LibmSpec Codec Conversion Spec CodeFacts SpecFacts ValueFacts RoundFacts WidthFacts WidthApi WidthProps FloatFacts FloatSym Machine RealBounds ConstFacts WrapApi LogConv LogOddRefute LogFacts PhiFacts PowFacts NearFacts NearCode WrapSpec KindConv LogAlgebra LibmIdeal.
Local Open Scope R_scope.

Lemma trip32a_ok : ok_between 13835062453328674816 (-62) 373838498089247693471056838082864905452 128 10132912794677011186 10132912794677011191 (-62) = true.
Proof. vm_compute. reflexivity. Qed.
Lemma trip32b_ok : ok_between 13835063552840302592 (-62) 373838525132450826936866816506224028972 128 10132913527684500891 10132913527684500899 (-62) = true.
Proof. vm_compute. reflexivity. Qed.
Lemma trip64a_ok : ok_between 13835058055282163712 (-62) 373838389916413667603494184660470824118 128 10132909862646469816 10132909862646469823 (-62) = true.
Proof. vm_compute. reflexivity. Qed.
Lemma trip64b_ok : ok_between 13835058055282165760 (-62) 373838389916413717975403335270016041938 128 10132909862646471181 10132909862646471188 (-62) = true.
Proof. vm_compute. reflexivity. Qed.

(** conversion from a narrower float goes through long double *)
Lemma from32_ld : forall lm (f : flt f32), is_finite f = true -> takum64_from_float32 x86_64 lm f = takum64_from_extended_float x86_64 lm (fcast f80 f).
Proof.
  intros lm f Hf. assert (isf f (B2R f)) as I by (split; [assumption|reflexivity]).
  assert (isf (fcast f80 f) (B2R f)) as J by (apply isf_fcast_up; [split; simpl; lia|assumption]).
  unfold takum64_from_float32, takum64_from_extended_float. change (ld x86_64) with f80.
  rewrite (feq_isf f (fzero f32) _ _ I (FloatFacts.isf_zero f32)), (feq_isf (fcast f80 f) (fzero f80) _ _ J (FloatFacts.isf_zero f80)).
  rewrite (fisfinite_isf f _ I), (fisfinite_isf _ _ J). rewrite (flt_isf f (fzero f32) _ _ I (FloatFacts.isf_zero f32)), (flt_isf (fcast f80 f) (fzero f80) _ _ J (FloatFacts.isf_zero f80)). reflexivity.
Qed.
Lemma from64_ld : forall lm (f : flt f64), is_finite f = true -> takum64_from_float64 x86_64 lm f = takum64_from_extended_float x86_64 lm (fcast f80 f).
Proof.
  intros lm f Hf. assert (isf f (B2R f)) as I by (split; [assumption|reflexivity]).
  assert (isf (fcast f80 f) (B2R f)) as J by (apply isf_fcast_up; [split; simpl; lia|assumption]).
  unfold takum64_from_float64, takum64_from_extended_float. change (ld x86_64) with f80.
  rewrite (feq_isf f (fzero f64) _ _ I (FloatFacts.isf_zero f64)), (feq_isf (fcast f80 f) (fzero f80) _ _ J (FloatFacts.isf_zero f80)).
  rewrite (fisfinite_isf f _ I), (fisfinite_isf _ _ J). rewrite (flt_isf f (fzero f64) _ _ I (FloatFacts.isf_zero f64)), (flt_isf (fcast f80 f) (fzero f80) _ _ J (FloatFacts.isf_zero f80)). reflexivity.
Qed.


Lemma isf_const : forall F m e, (Z.abs m <= 2 ^ 24)%Z \/ (F <> f32 /\ (Z.abs m <= 2 ^ 53)%Z) -> (-100 <= e <= 0)%Z -> isf (fconst F m e) (IZR m * bpow radix2 e).
Proof.
  intros F m e Hm He. assert (Z.abs m <= 2 ^ 53)%Z as Hm' by (destruct Hm as [Hm|[_ Hm]]; lia).
  apply isf_fconst; [apply FF_dyadic|].
  - destruct Hm as [Hm|[HF Hm]]; (eapply Z.le_trans; [exact Hm|]); destruct F; try contradiction; simpl; lia.
  - destruct F; unfold femin; simpl; lia.
  - rewrite Rabs_mult, (Rabs_pos_eq (bpow _ _)) by apply bpow_ge_0. rewrite <- abs_IZR.
    apply Rle_lt_trans with (bpow radix2 53 * bpow radix2 0); [|rewrite <- bpow_plus; apply bpow_lt; destruct F; simpl; lia].
    apply Rmult_le_compat; [apply (IZR_le 0); lia|apply bpow_ge_0| |apply bpow_le; lia]. rewrite <- IZR_pow2 by lia. apply IZR_le. exact Hm'.
Qed.
Lemma cast_const : forall F k e K E, fsub_fmt F f80 -> isf (fconst F k e) (IZR k * bpow radix2 e) -> isf (fconst f80 K E) (IZR K * bpow radix2 E) -> (e >= E)%Z -> (K = k * 2 ^ (e - E))%Z -> (0 < k)%Z ->
  ffabs (fcast f80 (fconst F k e)) = fconst f80 K E.
Proof.
  intros F k e K E HF H1 H2 HE Q P. assert (0 < IZR k * bpow radix2 e) by (apply Rmult_lt_0_compat; [apply (IZR_lt 0); assumption|apply bpow_gt_0]).
  assert (IZR k * bpow radix2 e = IZR K * bpow radix2 E) as Q'. { rewrite Q, mult_IZR, IZR_pow2 by lia. rewrite Rmult_assoc, <- bpow_plus. do 2 f_equal. lia. }
  apply (isf_inj f80 _ _ (IZR K * bpow radix2 E)); [|assumption|lra]. rewrite <- Q'. rewrite <- (Rabs_pos_eq (IZR k * bpow radix2 e)) by lra.
  apply isf_ffabs. apply isf_fcast_up; assumption.
Qed.
Lemma from_ld_at : forall lm K E e t, c99 lm -> isf (fconst f80 K E) (IZR K * bpow radix2 E) -> (0 < K)%Z -> ok_between K E (fst (fst e)) (snd (fst e)) (fst (snd e)) (fst (snd e) + snd (snd e)) (-62) = true -> 
  codec_takum64_from_s_and_l x86_64 false (fconst f80 (fst (snd e)) (-62)) = Val t -> codec_takum64_from_s_and_l x86_64 false (fconst f80 (fst (snd e) + snd (snd e)) (-62)) = Val t ->
  forall y : flt f80, isf y (IZR K * bpow radix2 E) -> takum64_from_extended_float x86_64 lm y = Val t.
Proof.
  intros lm K E e t C I P Ok H1 H2 y Hy. assert (0 < IZR K * bpow radix2 E) as PP by (apply Rmult_lt_0_compat; [apply (IZR_lt 0); assumption|apply bpow_gt_0]).
  rewrite (isf_inj f80 y (fconst f80 K E) _ Hy I) by lra. unfold takum64_from_extended_float. change (ld x86_64) with f80.
  rewrite (feq_isf _ (fzero f80) _ _ I (FloatFacts.isf_zero f80)), Req_bool_false, (fisfinite_isf _ _ I), (flt_isf _ (fzero f80) _ _ I (FloatFacts.isf_zero f80)), Rlt_bool_false by lra. cbn [negb].
  replace (ffabs (fconst f80 K E)) with (fconst f80 K E). 2: { apply (isf_inj f80 _ _ (IZR K * bpow radix2 E)); [assumption| |lra]. rewrite <- (Rabs_pos_eq (IZR K * _)) by lra. apply isf_ffabs. assumption. }
  apply (log64_at lm _ _ _ _ _ _ _ _ _ C Ok); assumption.
Qed.
Lemma trip32a : forall lm, c99 lm -> takum64_from_float32 x86_64 lm (fconst f32 12582916 (-22)) = Val 5533223444246412847%Z.
Proof.
  intros lm C. assert (isf (fconst f32 12582916 (-22)) (IZR 12582916 * bpow radix2 (-22))) as I by (apply isf_const; [left|]; simpl; lia).
  rewrite from32_ld by (apply I). apply (from_ld_at lm 13835062453328674816 (-62) ((373838498089247693471056838082864905452, 128), (10132912794677011186, 5))%Z _ C); [apply isf_f80; lia|lia|exact trip32a_ok|vm_compute; reflexivity|vm_compute; reflexivity|].
  apply isf_fcast_up; [split; simpl; lia|]. eapply isf_eq; [exact I|]. replace (13835062453328674816)%Z with (12582916 * 2 ^ (40))%Z by reflexivity.
  rewrite mult_IZR, IZR_pow2 by lia. rewrite Rmult_assoc, <- bpow_plus. reflexivity.
Qed.
Lemma trip32b : forall lm, c99 lm -> takum64_from_float32 x86_64 lm (fconst f32 12582917 (-22)) = Val 5533223490059380954%Z.
Proof.
  intros lm C. assert (isf (fconst f32 12582917 (-22)) (IZR 12582917 * bpow radix2 (-22))) as I by (apply isf_const; [left|]; simpl; lia).
  rewrite from32_ld by (apply I). apply (from_ld_at lm 13835063552840302592 (-62) ((373838525132450826936866816506224028972, 128), (10132913527684500891, 8))%Z _ C); [apply isf_f80; lia|lia|exact trip32b_ok|vm_compute; reflexivity|vm_compute; reflexivity|].
  apply isf_fcast_up; [split; simpl; lia|]. eapply isf_eq; [exact I|]. replace (13835063552840302592)%Z with (12582917 * 2 ^ (40))%Z by reflexivity.
  rewrite mult_IZR, IZR_pow2 by lia. rewrite Rmult_assoc, <- bpow_plus. reflexivity.
Qed.
Lemma trip64a : forall lm, c99 lm -> takum64_from_float64 x86_64 lm (fconst f64 6755399441055744 (-51)) = Val 5533223260994504012%Z.
Proof.
  intros lm C. assert (isf (fconst f64 6755399441055744 (-51)) (IZR 6755399441055744 * bpow radix2 (-51))) as I by (apply isf_const; [right; split; [discriminate|]|]; simpl; lia).
  rewrite from64_ld by (apply I). apply (from_ld_at lm 13835058055282163712 (-62) ((373838389916413667603494184660470824118, 128), (10132909862646469816, 7))%Z _ C); [apply isf_f80; lia|lia|exact trip64a_ok|vm_compute; reflexivity|vm_compute; reflexivity|].
  apply isf_fcast_up; [split; simpl; lia|]. eapply isf_eq; [exact I|]. replace (13835058055282163712)%Z with (6755399441055744 * 2 ^ (11))%Z by reflexivity.
  rewrite mult_IZR, IZR_pow2 by lia. rewrite Rmult_assoc, <- bpow_plus. reflexivity.
Qed.
Lemma trip64b : forall lm, c99 lm -> takum64_from_float64 x86_64 lm (fconst f64 6755399441055745 (-51)) = Val 5533223260994504097%Z.
Proof.
  intros lm C. assert (isf (fconst f64 6755399441055745 (-51)) (IZR 6755399441055745 * bpow radix2 (-51))) as I by (apply isf_const; [right; split; [discriminate|]|]; simpl; lia).
  rewrite from64_ld by (apply I). apply (from_ld_at lm 13835058055282165760 (-62) ((373838389916413717975403335270016041938, 128), (10132909862646471181, 7))%Z _ C); [apply isf_f80; lia|lia|exact trip64b_ok|vm_compute; reflexivity|vm_compute; reflexivity|].
  apply isf_fcast_up; [split; simpl; lia|]. eapply isf_eq; [exact I|]. replace (13835058055282165760)%Z with (6755399441055745 * 2 ^ (11))%Z by reflexivity.
  rewrite mult_IZR, IZR_pow2 by lia. rewrite Rmult_assoc, <- bpow_plus. reflexivity.
Qed.
(** the logarithm, rounded to the format of the result, is the same *)
Definition getl {F} (o : outcome (flt F)) : flt F := match o with Val l => l | UB => B754_nan end.
Lemma same32 : forall lm, takum64_to_float32 x86_64 lm 5533223444246412847 = takum64_to_float32 x86_64 lm 5533223490059380954.
Proof.
  intros lm. unfold takum64_to_float32. change (ld x86_64) with f80.
  assert (is_real_takum 64 5533223444246412847) as R1 by (split; [split; vm_compute; discriminate || reflexivity|split; vm_compute; discriminate]).
  assert (is_real_takum 64 5533223490059380954) as R2 by (split; [split; vm_compute; discriminate || reflexivity|split; vm_compute; discriminate]).
  destruct (mo_dec mach64 mach64_ok _ R1) as (l & El & _). destruct (mo_dec mach64 mach64_ok _ R2) as (l' & El' & _). cbn [m_dec mach64] in El, El'.
  assert (B2SF (fcast f32 (getl (codec_takum64_to_l x86_64 5533223444246412847))) = B2SF (fcast f32 (getl (codec_takum64_to_l x86_64 5533223490059380954)))) as E by (vm_compute; reflexivity).
  apply B2SF_inj in E. rewrite El, El' in E |- *. cbn [getl] in E. cbn [bind]. change (ld x86_64) with f80 in *. rewrite E. reflexivity.
Qed.
Lemma same64 : forall lm, takum64_to_float64 x86_64 lm 5533223260994504012 = takum64_to_float64 x86_64 lm 5533223260994504097.
Proof.
  intros lm. unfold takum64_to_float64. change (ld x86_64) with f80.
  assert (is_real_takum 64 5533223260994504012) as R1 by (split; [split; vm_compute; discriminate || reflexivity|split; vm_compute; discriminate]).
  assert (is_real_takum 64 5533223260994504097) as R2 by (split; [split; vm_compute; discriminate || reflexivity|split; vm_compute; discriminate]).
  destruct (mo_dec mach64 mach64_ok _ R1) as (l & El & _). destruct (mo_dec mach64 mach64_ok _ R2) as (l' & El' & _). cbn [m_dec mach64] in El, El'.
  assert (B2SF (fcast f64 (getl (codec_takum64_to_l x86_64 5533223260994504012))) = B2SF (fcast f64 (getl (codec_takum64_to_l x86_64 5533223260994504097)))) as E by (vm_compute; reflexivity).
  apply B2SF_inj in E. rewrite El, El' in E |- *. cbn [getl] in E. cbn [bind]. change (ld x86_64) with f80 in *. rewrite E. reflexivity.
Qed.

Lemma consts_differ : fconst f32 12582916 (-22) <> fconst f32 12582917 (-22) /\ fconst f64 6755399441055744 (-51) <> fconst f64 6755399441055745 (-51).
Proof. split; intros E; apply (f_equal B2SF) in E; vm_compute in E; discriminate. Qed.
Lemma three_const : fconst f64 3 0 = fconst f64 6755399441055744 (-51).
Proof. apply B2SF_inj. vm_compute. reflexivity. Qed.

(** the two floats come back as the same float *)
Lemma trip_merges : forall lm, c99 lm ->
    (fconst f32 (3 * 2 ^ 22 + 4) (-22) <> fconst f32 (3 * 2 ^ 22 + 5) (-22) /\
     takum64_from_float32 x86_64 lm (fconst f32 (3 * 2 ^ 22 + 4) (-22)) <>
     takum64_from_float32 x86_64 lm (fconst f32 (3 * 2 ^ 22 + 5) (-22)) /\
     (let! t := takum64_from_float32 x86_64 lm (fconst f32 (3 * 2 ^ 22 + 4) (-22)) in takum64_to_float32 x86_64 lm t) =
     (let! t := takum64_from_float32 x86_64 lm (fconst f32 (3 * 2 ^ 22 + 5) (-22)) in takum64_to_float32 x86_64 lm t)) /\
    (fconst f64 3 0 <> fconst f64 (3 * 2 ^ 51 + 1) (-51) /\
     takum64_from_float64 x86_64 lm (fconst f64 3 0) <>
     takum64_from_float64 x86_64 lm (fconst f64 (3 * 2 ^ 51 + 1) (-51)) /\
     (let! t := takum64_from_float64 x86_64 lm (fconst f64 3 0) in takum64_to_float64 x86_64 lm t) =
     (let! t := takum64_from_float64 x86_64 lm (fconst f64 (3 * 2 ^ 51 + 1) (-51)) in takum64_to_float64 x86_64 lm t)).
Proof.
  intros lm C. rewrite three_const.
  change (3 * 2 ^ 22 + 4)%Z with 12582916%Z. change (3 * 2 ^ 22 + 5)%Z with 12582917%Z. change (3 * 2 ^ 51 + 1)%Z with 6755399441055745%Z.
  rewrite trip32a, trip32b, trip64a, trip64b by assumption. cbn [bind]. destruct consts_differ as [D1 D2].
  split; (split; [assumption|split; [discriminate|]]); [apply same32|apply same64].
Qed.

(** ** Through long double *)

(** a number near a float rounds to that float *)
Lemma RF_close_pos : forall F x z, FF F x -> 0 < x -> Rabs (z - x) < bpow radix2 (- fprec F - 1) * x -> RF F z = x.
Proof.
  intros F x z Hx Px Hz. apply Rabs_def2 in Hz as [H1 H2].
  pose proof (bpow_gt_0 radix2 (- fprec F - 1)) as Pb.
  assert (bpow radix2 (- fprec F) = 2 * bpow radix2 (- fprec F - 1)) as Eb.
  { replace (- fprec F)%Z with (1 + (- fprec F - 1))%Z at 1 by lia. rewrite bpow_plus. reflexivity. }
  assert (Prec_gt_0 (fprec F)) as Hp by (destruct F; reflexivity).
  assert (bpow radix2 (- fprec F) * x <= ulp radix2 (fexpo F) x) as U.
  { left. rewrite Rmult_comm. rewrite <- (Rabs_pos_eq x) at 1 by lra. exact (@ulp_FLT_gt radix2 (femin F) (fprec F) Hp x). }
  rewrite Eb in U. apply Rle_antisym; unfold RF.
  - apply round_N_le_midp; [apply fexpo_valid|assumption|]. rewrite succ_eq_pos by lra. lra.
  - apply round_N_ge_midp; [apply fexpo_valid|assumption|]. rewrite pred_eq_pos by lra. unfold pred_pos. case Req_bool_spec; intros E; [|lra].
    assert (bpow radix2 (- fprec F) * x <= bpow radix2 (fexpo F (mag radix2 x - 1))) as V; [|rewrite Eb in V; lra].
    rewrite E at 1. rewrite <- bpow_plus. apply bpow_le. unfold fexpo, SpecFloat.fexp. lia.
Qed.
Lemma RF_close : forall F x z, FF F x -> x <> 0 -> Rabs (z - x) < bpow radix2 (- fprec F - 1) * Rabs x -> RF F z = x.
Proof.
  intros F x z Hx Nx Hz. destruct (Rtotal_order x 0) as [H|[H|H]]; [|contradiction|].
  - rewrite <- (Ropp_involutive (RF F z)), <- RF_opp. rewrite (RF_close_pos F (- x) (- z)); [ring|apply FF_opp; assumption|lra|].
    replace (- z - - x) with (- (z - x)) by ring. rewrite Rabs_Ropp. rewrite (Rabs_left x) in Hz by assumption. exact Hz.
  - apply RF_close_pos; [assumption|assumption|]. rewrite (Rabs_pos_eq x) in Hz by lra. exact Hz.
Qed.

(** the error of the trip of a long double *)
Lemma ld_trip : forall lm (y : flt f80) x, c99 lm -> isf y x -> x <> 0 -> Rabs (log_coord x) <= 250 ->
  exists t z w, takum64_from_extended_float x86_64 lm y = Val t /\ takum64_to_extended_float x86_64 lm t = Val z /\ isf z w /\
    Rabs (w - x) <= (bpow radix2 (-63) * (11 / 2 * (Rabs (log_coord x) + 1) + 21 / 10)) * Rabs x.
Proof.
  intros lm y x C Hy Nx Hc. destruct (log_from_near lm 64 _ y C (log64_from_extended_float lm) (proj1 Hy)) as (t & Et & Ft & Nt).
  destruct Hy as [Fy Vy]. rewrite Vy in *. destruct (Nt Nx) as (L & NL & DL). clear Nt. set (s := Rlt_bool x 0) in *. cbn [coord] in DL. set (c := log_coord x) in *.
  destruct Ft as [[? _]|[_ Ft]]; [contradiction|]. pose proof NL as (Rt & St & _).
  assert (code_error Logarithmic 64 = 2 * bpow radix2 (-63)) as Ec. { unfold code_error. rewrite Z.eqb_refl. change (-62)%Z with (1 + -63)%Z. rewrite bpow_plus. reflexivity. } rewrite Ec in DL.
  set (q := bpow radix2 (-63)) in *. assert (0 < q) as Pq by apply bpow_gt_0. assert (q <= / 1000000000000) as Qs by (unfold q; simpl; lra).
  pose proof (Rabs_pos c) as Pc.
  assert (q * (Rabs c + 1) <= q * 251) as Q251 by (apply Rmult_le_compat_l; lra).
  assert (Rabs L <= Rabs c + Rabs (L - c)) as TL by (replace L with (c + (L - c)) at 1 by ring; apply Rabs_triang).
  assert (Rabs (l_ 64 t - L) <= 8 * q * (Rabs L + 1)) as D1.
  { replace (8 * q) with (bpow radix2 (4 - 64)) by (unfold q; change (4 - 64)%Z with (3 + -63)%Z; rewrite bpow_plus; simpl; lra).
    assert (Rabs L <= 251) as BL by lra. apply Rabs_le_inv in BL.
    destruct (near_dist 64 s L t ltac:(lia) NL) as [D|D]; [exact D|exfalso].
    assert (forall u, (0 < u < 2 ^ (64 - 1))%Z -> L <= sg s * cpm 64 u \/ sg s * cpm 64 u <= L) as _ by (intros; lra).
    pose proof (cpm_umax_eq 64 ltac:(lia)) as E1. pose proof (cpm1_umax 64 ltac:(lia)) as E2. assert (bpow radix2 (12 - 64) <= 1) as B1 by (change 1 with (bpow radix2 0); apply bpow_le; lia).
    assert (exists W1 W2, is_real_takum 64 W1 /\ has_sign s W1 /\ is_real_takum 64 W2 /\ has_sign s W2 /\ l_ 64 W1 <= -253 /\ 253 <= l_ 64 W2) as (W1 & W2 & R1 & S1 & R2 & S2 & K1 & K2).
    { assert (0 < 1 < 2 ^ (64 - 1))%Z as U1 by (simpl; lia). assert (0 < umax 64 < 2 ^ (64 - 1))%Z as U2 by (unfold umax; simpl; lia).
      pose proof (l_asm 64 ltac:(lia) s 1 U1) as La. pose proof (l_asm 64 ltac:(lia) s (umax 64) U2) as Lb.
      destruct s; [exists (asm 64 true (umax 64)), (asm 64 true 1)|exists (asm 64 false 1), (asm 64 false (umax 64))];
        (split; [apply asm_real; assumption|]; split; [apply has_sign_asm; assumption|]; split; [apply asm_real; assumption|]; split; [apply has_sign_asm; assumption|]; rewrite La, Lb; lra). }
    destruct D as [D|D]; pose proof (D W1 R1 S1); pose proof (D W2 R2 S2); lra. }
  destruct (log_to_ld_real lm 64 _ t C (log64_to_extended_float lm) Rt) as (z & p & Ez & Iz & Pp & Dp & _).
  rewrite (RoundFacts.has_sign_ltb s t St) in Iz. exists t, z, (sg s * p). split; [assumption|]. split; [assumption|]. split; [assumption|].
  assert (x = sg s * Rabs x) as Ex. { unfold s, sg. case Rlt_bool_spec; intros K; [rewrite Rabs_left by assumption|rewrite Rabs_pos_eq by assumption]; ring. }
  assert (0 < Rabs x) as Px by (apply Rabs_pos_lt; assumption).
  rewrite Ex at 1. rewrite <- Rmult_minus_distr_l, Rabs_mult, sg_abs, Rmult_1_l.
  set (e := ln p - ln (Rabs x)). assert (c = 2 * ln (Rabs x)) as Ecc by reflexivity.
  assert (bpow radix2 (-65) = q / 4) as E65 by (unfold q; simpl; lra). assert (bpow radix2 (-62) = 2 * q) as E62 by (unfold q; simpl; lra). assert (bpow radix2 (-61) = 4 * q) as E61 by (unfold q; simpl; lra).
  rewrite E65, E62, E61 in Dp.
  assert (Rabs (l_ 64 t) <= Rabs L + Rabs (l_ 64 t - L)) as Tl by (replace (l_ 64 t) with (L + (l_ 64 t - L)) at 1 by ring; apply Rabs_triang).
  assert (Rabs (l_ 64 t - c) <= Rabs (l_ 64 t - L) + Rabs (L - c)) as Td by (replace (l_ 64 t - c) with ((l_ 64 t - L) + (L - c)) by ring; apply Rabs_triang).
  assert (Rabs e <= Rabs (ln p - l_ 64 t / 2) + Rabs (l_ 64 t - c) / 2) as Te.
  { unfold e. replace (ln p - ln (Rabs x)) with ((ln p - l_ 64 t / 2) + (l_ 64 t - c) / 2) by (rewrite Ecc; field). eapply Rle_trans; [apply Rabs_triang|].
    unfold Rdiv. rewrite (Rabs_mult (l_ 64 t - c) (/ 2)), (Rabs_pos_eq (/ 2)) by lra. lra. }
  set (C1 := Rabs c + 1) in *. assert (1 <= C1 <= 251) as BC by (unfold C1; lra).
  set (Q := q * C1) in *. replace (2 * q * C1) with (2 * Q) in DL by (unfold Q; ring).
  assert (q <= Q) as QQ. { unfold Q. rewrite <- (Rmult_1_r q) at 1. apply Rmult_le_compat_l; lra. }
  assert (Rabs L + 1 <= C1 + 2 * Q) as B1 by (unfold C1 in *; lra).
  assert (q * Q <= / 1000000000000 * Q) as B3 by (apply Rmult_le_compat_r; lra).
  assert (8 * q * (Rabs L + 1) <= 81 / 10 * Q) as B2.
  { apply Rle_trans with (8 * q * (C1 + 2 * Q)); [apply Rmult_le_compat_l; lra|]. replace (8 * q * (C1 + 2 * Q)) with (8 * Q + 16 * (q * Q)) by (unfold Q; ring). lra. }
  assert (Rabs (l_ 64 t) <= C1) as B6 by (unfold C1 in *; lra).
  assert (Rabs (l_ 64 t) * (q / 4) <= Q / 4) as B8. { unfold Q. replace (q * C1 / 4) with (C1 * (q / 4)) by field. apply Rmult_le_compat_r; lra. }
  assert (q * q <= / 1000000000000 * q) as B9 by (apply Rmult_le_compat_r; lra).
  assert (Rabs e <= 54 / 10 * Q + 201 / 100 * q) as B7 by lra.
  assert (p = Rabs x * exp e) as Ep by (unfold e; unfold Rminus; rewrite exp_plus, exp_Ropp, !exp_ln by assumption; field; lra).
  assert (p - Rabs x = Rabs x * (exp e - 1)) as -> by (rewrite Ep; ring).
  rewrite Rabs_mult, Rabs_Rabsolu, Rmult_comm. apply Rmult_le_compat_r; [lra|].
  pose proof (Rabs_pos e) as Pe. assert (Rabs e <= 1 / 1000) as Se by lra. eapply Rle_trans; [apply exp_near; lra|].
  assert (Rabs e * Rabs e <= Rabs e * (1 / 1000)) as B10 by (apply Rmult_le_compat_l; lra).
  replace (q * (11 / 2 * C1 + 21 / 10)) with (11 / 2 * Q + 21 / 10 * q) by (unfold Q; ring). lra.
Qed.

Lemma ln2_7 : ln 2 <= 7 / 10.
Proof.
  destruct ln2_in as [_ H]. eapply Rle_trans; [exact H|]. apply Rle_trans with (sc (7 * 2 ^ PB / 10)); [apply sc_le; vm_compute; discriminate|].
  eapply Rle_trans; [apply sc_div_lo; lia|]. unfold sc. rewrite mult_IZR. change (IZR (2 ^ PB)) with (bpow radix2 PB). rewrite Rmult_assoc, <- bpow_plus. simpl. lra.
Qed.
Lemma coord_bound : forall x a, (0 <= a)%Z -> bpow radix2 (- a) <= Rabs x <= bpow radix2 a -> Rabs (log_coord x) <= IZR a * (14 / 10).
Proof.
  intros x a Ha [H1 H2]. pose proof (bpow_gt_0 radix2 (- a)) as P. assert (forall k, ln (bpow radix2 k) = IZR k * ln 2) as Lb by (intros k; rewrite bpow_exp, ln_exp; reflexivity).
  assert (ln (bpow radix2 (- a)) <= ln (Rabs x)) as K1 by (destruct H1 as [H1|<-]; [left; apply ln_increasing; lra|right; reflexivity]).
  assert (ln (Rabs x) <= ln (bpow radix2 a)) as K2 by (destruct H2 as [H2|<-]; [left; apply ln_increasing; lra|right; reflexivity]).
  rewrite Lb in K1, K2. rewrite opp_IZR in K1. unfold log_coord. rewrite Rabs_mult, (Rabs_pos_eq 2) by lra.
  pose proof ln2_7 as L7. apply (IZR_le 0) in Ha. assert (IZR a * ln 2 <= IZR a * (7 / 10)) by (apply Rmult_le_compat_l; assumption).
  assert (Rabs (ln (Rabs x)) <= IZR a * (7 / 10)) by (apply Rabs_le; lra). lra.
Qed.

Lemma narrow_trip : forall lm F (f : flt F) a, c99 lm -> fsub_fmt F f80 -> is_finite f = true -> (0 <= a <= 178)%Z -> bpow radix2 (- a) <= Rabs (B2R f) <= bpow radix2 a ->
  bpow radix2 (-63) * (11 / 2 * (IZR a * (14 / 10) + 1) + 21 / 10) < bpow radix2 (- fprec F - 1) ->
  (let! t := takum64_from_extended_float x86_64 lm (fcast f80 f) in let! z := takum64_to_extended_float x86_64 lm t in Val (fcast F z)) = Val f.
Proof.
  intros lm F f a C HF Hf Ha Hx He. assert (isf f (B2R f)) as I by (split; [assumption|reflexivity]). set (x := B2R f) in *.
  assert (x <> 0) as Nx. { intros E. rewrite E, Rabs_R0 in Hx. pose proof (bpow_gt_0 radix2 (- a)). lra. }
  pose proof (coord_bound x a ltac:(lia) Hx) as Hc. assert (IZR a <= 178) as Ha' by (apply IZR_le; lia).
  destruct (ld_trip lm (fcast f80 f) x C (isf_fcast_up _ _ _ _ HF I) Nx ltac:(lra)) as (t & z & w & -> & Ez & Iz & Dw). cbn [bind]. rewrite Ez. cbn [bind]. f_equal.
  assert (RF F w = x) as Ew.
  { apply RF_close; [eapply isf_FF; exact I|assumption|]. eapply Rle_lt_trans; [exact Dw|]. apply Rmult_lt_compat_r; [apply Rabs_pos_lt; assumption|].
    eapply Rle_lt_trans; [|exact He]. apply Rmult_le_compat_l; [apply bpow_ge_0|]. lra. }
  apply (isf_inj F _ _ x); [|assumption|assumption]. rewrite <- Ew. apply isf_fcast; [assumption|]. rewrite Ew. eapply isf_lt. exact I.
Qed.

Lemma trip32_ld : forall lm (f : flt f32), c99 lm -> is_finite f = true -> B2R f <> 0 ->
  (let! t := takum64_from_float32 x86_64 lm f in let! z := takum64_to_extended_float x86_64 lm t in Val (fcast f32 z)) = Val f.
Proof.
  intros lm f C Hf Nx. rewrite from32_ld by assumption. apply (narrow_trip lm f32 f 149); [assumption|split; simpl; lia|assumption|lia| |simpl; lra].
  assert (isf f (B2R f)) as K by (split; auto). split.
  - destruct (FF_inv f32 _ (isf_FF _ _ _ K)) as (m & e & Hm & He & E). rewrite E.
    assert (m <> 0%Z) by (intros ->; apply Nx; rewrite E; ring).
    rewrite Rabs_mult, (Rabs_pos_eq (bpow radix2 e)), <- abs_IZR by apply bpow_ge_0.
    apply Rle_trans with (1 * bpow radix2 e).
    + rewrite Rmult_1_l. apply bpow_le. unfold femin in He. simpl in He. lia.
    + apply Rmult_le_compat_r; [apply bpow_ge_0|]. apply IZR_le. lia.
  - left. eapply Rlt_trans; [apply (isf_lt _ _ _ K)|]. apply bpow_lt. reflexivity.
Qed.
Lemma trip64_ld : forall lm (f : flt f64), c99 lm -> is_finite f = true -> bpow radix2 (-64) <= Rabs (B2R f) <= bpow radix2 64 ->
  (let! t := takum64_from_float64 x86_64 lm f in let! z := takum64_to_extended_float x86_64 lm t in Val (fcast f64 z)) = Val f.
Proof.
  intros lm f C Hf Hx. rewrite from64_ld by assumption. apply (narrow_trip lm f64 f 64); [assumption|split; simpl; lia|assumption|lia|exact Hx|simpl; lra].
Qed.

Lemma trip_case : c99 ideal /\
  is_finite (fconst f32 0xabcdef (-149)) = true /\ B2R (fconst f32 0xabcdef (-149)) <> 0%R /\
  is_finite (fconst f64 3 0) = true /\ (bpow radix2 (-64) <= Rabs (B2R (fconst f64 3 0)) <= bpow radix2 64)%R.
Proof.
  split; [exact ideal_c99|]. split; [vm_compute; reflexivity|]. split.
  - intros E. apply (f_equal (fun r => Req_bool r 0)) in E. revert E.
    replace (B2R _) with (IZR 11259375 * bpow radix2 (-149)).
    + rewrite Req_bool_false; [rewrite Req_bool_true by reflexivity; discriminate|]. pose proof (bpow_gt_0 radix2 (-149)). lra.
    + symmetry. apply isf_fconst; [apply FF_dyadic; [simpl; lia|unfold femin; simpl; lia]|].
      rewrite Rabs_mult, (Rabs_pos_eq (bpow _ _)), Rabs_pos_eq by (apply bpow_ge_0 || lra). simpl. lra.
  - split; [vm_compute; reflexivity|]. destruct (isf_const f64 3 0) as [_ ->]; [left; simpl; lia|lia|]. rewrite Rabs_pos_eq by (simpl; lra). simpl. lra.
Qed.
