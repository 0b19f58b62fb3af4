(** Powers, integer powers and linear roots. *)
From Coq Require Import ZArith Reals Bool Lia Lra Psatz.
From Flocq Require Import Core.Core IEEE754.BinarySingleNaN.
From Verif Require Import CModel FloatModel Libm LibmSpec Spec CodeFacts SpecFacts ValueFacts WidthFacts WidthApi Conversion Wrappers LinApi WrapApi WrapSpec WrapSpec2 FloatFacts RoundFacts Machine LogFacts LinDec LinOps LinArith LinProps RealBounds LogConv WrapTotal WrapNar FloatAcc RealFacts FixFacts WrapAcc WrapMain WrapSmall WrapPi MiscProps WrapBin.
Local Open Scope R_scope.

(** ** Signs and special values of arguments *)
Lemma arg_sign : forall v a, arg v a -> (0 < v -> 0 < a) /\ (v < 0 -> a < 0) /\ (v = 0 -> a = 0).
Proof.
  intros v a A. pose proof (arg_rel _ _ A) as K. assert (bpow radix2 (-56) <= / 4) as B by (change (/ 4) with (bpow radix2 (-2)); apply bpow_le; lia). pose proof (bpow_gt_0 radix2 (-56)) as P.
  assert (bpow radix2 (-56) * Rabs v <= / 4 * Rabs v) by (apply Rmult_le_compat_r; [apply Rabs_pos|assumption]).
  assert (Rabs (a - v) <= / 4 * Rabs v) as K' by lra. apply Rabs_le_inv in K'.
  split; [|split]; intros H0.
  - rewrite Rabs_pos_eq in K' by lra. lra.
  - rewrite Rabs_left in K' by lra. lra.
  - rewrite H0, Rabs_R0 in K'. lra.
Qed.
Lemma arg_is_1 : forall v a, arg v a -> (v = 1 <-> a = 1).
Proof.
  intros v a A. pose proof (arg_1 _ _ A) as K. split; intros ->; apply Rcompare_Eq_inv.
  - rewrite K. apply Rcompare_Eq. reflexivity.
  - rewrite <- K. apply Rcompare_Eq. reflexivity.
Qed.
Lemma arg_is_m1 : forall v a, arg v a -> (v = -1 <-> a = -1).
Proof.
  intros v a A. pose proof (arg_m1 _ _ A) as K. split; intros ->; apply Rcompare_Eq_inv.
  - rewrite K. apply Rcompare_Eq. reflexivity.
  - rewrite <- K. apply Rcompare_Eq. reflexivity.
Qed.
Lemma arg_in_1 : forall v a, arg v a -> -1 < v < 1 -> -1 < a < 1.
Proof.
  intros v a A H. pose proof (arg_1 _ _ A) as K1. pose proof (arg_m1 _ _ A) as K2.
  rewrite (Rcompare_Lt v) in K1 by lra. rewrite (Rcompare_Gt v) in K2 by lra. apply Rcompare_Lt_inv in K1. apply Rcompare_Gt_inv in K2. lra.
Qed.
Lemma isf_is_1 : forall F (x : flt F), isf x 1 -> x = fint F 1.
Proof.
  intros F x [Fx Vx]. destruct (isf_one F) as [F1 V1]. apply B2R_Bsign_inj; [assumption|assumption|rewrite Vx, V1; reflexivity|].
  assert (forall y : flt F, is_finite y = true -> B2R y = 1 -> Bsign y = false) as K; [|rewrite (K x Fx Vx), (K _ F1 V1); reflexivity].
  intros y Fy Vy. destruct y as [s|s| |s m e He]; try discriminate; [simpl in Vy; lra|]. destruct s; [exfalso|reflexivity].
  rewrite B2R_F2R in Vy. cbn [cond_Zopp] in Vy. assert (IZR (- Z.pos m) < 0) by (apply IZR_lt; lia). pose proof (bpow_gt_0 radix2 e). nra.
Qed.

(** ** Fixed results *)
Lemma power_near_good : forall F e R_ (y : flt F), wide F -> bpow radix2 (2 - fprec F) <= e -> close 2 F R_ y -> R_ <> 0 ->
  (exists z, isf y z /\ z <> 0 /\ good e F R_ y) \/
  (exists s, y = B754_zero s /\ s = Rlt_bool R_ 0 /\ Rabs R_ < bpow radix2 (-900)) \/
  (exists s, y = B754_infinity s /\ s = Rlt_bool R_ 0 /\ bpow radix2 900 < Rabs R_).
Proof.
  intros F e0 R_ y W Le Cl NR. pose proof Cl as (_ & _ & Sg & _). specialize (Sg NR). pose proof (close_near 2 F R_ y W ltac:(lia) Cl) as (A & B & D).
  assert (bpow radix2 (2 - fprec F) <= bpow radix2 (-48)) as E48 by (apply bpow_le; destruct W as [-> | ->]; simpl; lia).
  assert (bpow radix2 (-48) <= / 4) as B48 by (change (/ 4) with (bpow radix2 (-2)); apply bpow_le; lia).
  assert (forall a b, (a <= b)%Z -> bpow radix2 a <= bpow radix2 b) as BL by (intros; apply bpow_le; assumption).
  destruct (Rlt_or_le (Rabs R_) (bpow radix2 (-900))) as [Sm|Sm]; [|destruct (Rle_or_lt (Rabs R_) (bpow radix2 900)) as [Lg|Lg]].
  - destruct (B NR Sm) as (r & Ir & Hr & Hs). destruct (Req_dec r 0) as [-> | Nr].
    + right. left. destruct Ir as [Fy Vy]. destruct y as [s|s| |s m e He]; try discriminate.
      * exists s. split; [reflexivity|]. split; [exact Sg|assumption].
      * exfalso. rewrite B2R_F2R in Vy. apply Rmult_integral in Vy. pose proof (bpow_gt_0 radix2 e). destruct Vy as [Vy|Vy]; [|lra]. apply eq_IZR in Vy. destruct s; discriminate Vy.
    + left. exists r. split; [assumption|]. split; [assumption|]. exists r. split; [assumption|]. right.
      assert (r * R_ <> 0) by (apply Rmult_integral_contrapositive; split; assumption). split; [lra|]. right. pose proof (BL (-900) (-600) ltac:(lia))%Z. pose proof (BL (- (890)) (-600) ltac:(lia))%Z. split; lra.
  - left. assert (win 900 R_) as Wn by (split; assumption). destruct (A (or_intror Wn)) as (r & Ir & Hr). exists r. split; [assumption|]. split.
    + intros ->. apply Rabs_pos_lt in NR. replace (0 - R_) with (- R_) in Hr by ring. rewrite Rabs_Ropp in Hr. assert (bpow radix2 (2 - fprec F) * Rabs R_ <= / 4 * Rabs R_) by (apply Rmult_le_compat_r; lra). lra.
    + exists r. split; [assumption|]. left. eapply Rle_trans; [exact Hr|]. apply Rmult_le_compat_r; [apply Rabs_pos|assumption].
  - destruct (D Lg) as [E|(r & Ir & Hr & Hs)].
    + right. right. exists (Rlt_bool R_ 0). split; [assumption|]. split; [reflexivity|assumption].
    + left. exists r. split; [assumption|]. split; [intros ->; lra|]. exists r. split; [assumption|]. right. split; [assumption|]. left. pose proof (BL 600 900 ltac:(lia))%Z. pose proof (BL 600 890 ltac:(lia))%Z. split; lra.
Qed.
(** the replacement of a vanished or infinite result *)
Lemma tiny_good : forall F e R_ s, wide F -> R_ <> 0 -> s = Rlt_bool R_ 0 -> Rabs R_ < bpow radix2 (-900) -> good e F R_ (if s then fneg (dmin F) else dmin F).
Proof.
  intros F e R_ s W NR -> H. pose proof (isf_dmin F W) as I. pose proof (bpow_gt_0 radix2 (-1022)) as P.
  assert (bpow radix2 (-1022) <= bpow radix2 (-600)) as B1 by (apply bpow_le; lia). assert (bpow radix2 (-900) <= bpow radix2 (-600)) as B2 by (apply bpow_le; lia).
  destruct (Rlt_bool_spec R_ 0).
  - exists (- bpow radix2 (-1022)). split; [apply isf_fneg; assumption|]. right. split; [nra|]. right. rewrite Rabs_Ropp, Rabs_pos_eq by lra. lra.
  - exists (bpow radix2 (-1022)). split; [assumption|]. right. split; [apply Rmult_lt_0_compat; lra|]. right. rewrite Rabs_pos_eq by lra. lra.
Qed.
Lemma huge_good : forall F e R_ s, wide F -> R_ <> 0 -> s = Rlt_bool R_ 0 -> bpow radix2 900 < Rabs R_ -> good e F R_ (if s then fneg (dmax F) else dmax F).
Proof.
  intros F e R_ s W NR -> H. pose proof (isf_dmax F W) as I. pose proof dmax_big as Dm. set (d := IZR (2 ^ 53 - 1) * bpow radix2 971) in *. pose proof (bpow_gt_0 radix2 600) as P.
  assert (bpow radix2 600 <= bpow radix2 1000) as B1 by (apply bpow_le; lia). assert (bpow radix2 600 <= bpow radix2 900) as B2 by (apply bpow_le; lia).
  destruct (Rlt_bool_spec R_ 0).
  - exists (- d). split; [apply isf_fneg; assumption|]. right. split; [nra|]. left. rewrite Rabs_Ropp, Rabs_pos_eq by lra. lra.
  - exists d. split; [assumption|]. right. split; [apply Rmult_lt_0_compat; lra|]. left. rewrite Rabs_pos_eq by lra. lra.
Qed.
Lemma feq_zero_nz : forall F (x : flt F) a, isf x a -> a <> 0 -> feq x (fzero F) = false.
Proof. intros F x a I N. rewrite (feq_isf _ _ _ _ I (FloatFacts.isf_zero F)). apply Req_bool_false. assumption. Qed.
Lemma power_good : forall F e (fa fb y : flt F) a R_, wide F -> bpow radix2 (2 - fprec F) <= e -> isf fa a -> a <> 0 -> close 2 F R_ y -> R_ <> 0 -> good e F R_ (fix_power F fa fb y).
Proof.
  intros F e fa fb y a R_ W He Ia Na Cl NR. unfold fix_power. rewrite (feq_zero_nz _ _ _ Ia Na).
  destruct (power_near_good F e R_ y W He Cl NR) as [(z & Iz & Nz & G)|[(s & -> & Hs & H)|(s & -> & Hs & H)]].
  - rewrite (feq_zero_nz _ _ _ Iz Nz). destruct Iz as [Fy _]. destruct y; try discriminate; exact G.
  - change (feq (B754_zero s) (fzero F)) with true. cbn [fsignbit Bsign]. apply tiny_good; assumption.
  - change (feq (B754_infinity s) (fzero F)) with (Beqb (B754_infinity s : flt F) (B754_zero false)). replace (Beqb (B754_infinity s : flt F) (B754_zero false)) with false by (destruct s; reflexivity). cbn [fisinf fsignbit Bsign]. apply huge_good; assumption.
Qed.

Lemma k_prec2 : forall F, wide F -> bpow radix2 (2 - fprec F) <= fe F.
Proof. intros F [-> | ->]; apply bpow_le; simpl; lia. Qed.
Lemma impl_pow : forall lm F g, impl (lib2 lm Fpow f64) (lib2 lm Fpow f80) F g -> g = lib2 lm Fpow F.
Proof. intros lm F g H. destruct H; reflexivity. Qed.

Lemma powerRZ_nz : forall x j, x <> 0 -> powerRZ x j <> 0.
Proof. exact powerRZ_NOR. Qed.

Section Pow.
Variable lm : libm.
Hypothesis C : c99 lm.

Lemma int_arg : forall k x y a, k = Linear \/ Rabs x <= 1 -> (exists j, x = IZR j) -> arg x a -> Rabs (a - x) <= slack k * Rabs x -> x = y -> a = x.
Proof.
  intros k x y a Hk (j & Hj) A S _. destruct Hk as [-> | Hk].
  - cbn [slack] in S. rewrite Rmult_0_l in S. destruct (Req_dec a x) as [E|E]; [assumption|]. assert (a - x <> 0) as N by lra. apply Rabs_pos_lt in N. lra.
  - assert (j = -1 \/ j = 0 \/ j = 1)%Z as [-> | [-> | ->]].
    { rewrite Hj, <- abs_IZR in Hk. apply le_IZR in Hk. lia. }
    + rewrite Hj. apply (arg_is_m1 _ _ A). assumption.
    + rewrite Hj. apply (arg_sign _ _ A). assumption.
    + rewrite Hj. apply (arg_is_1 _ _ A). assumption.
Qed.

Theorem power_computes : forall k w s t x y, is_intn (bits w) s -> is_intn (bits w) t -> value k (bits w) s = Some x -> value k (bits w) t = Some y ->
  power_ok k x y -> exists t', api_binary k lm n_power w s t = Val t' /\ computes2 k (bits w) n_power x y t'.
Proof.
  intros k w s t x y Is It Hx Hy OK. rewrite api_sel2 by discriminate. assert (6 <= bits w <= 64)%Z as Hn by (destruct w; simpl; lia).
  apply (bin_shape k lm _ _ _ w s t (fun o => exists t', o = Val t' /\ computes2 k (bits w) n_power x y t')); try assumption.
  intros F g fr fa fb W Le Hg Hf Oa Ob. rewrite Hx in Oa. rewrite Hy in Ob. destruct Oa as (a & Ia & Aa & Sa & Za), Ob as (c & Ic & Ac & Sc & Zc).
  cbn [impl_of fst snd] in *. apply impl_pow in Hg. subst g. destruct (arg_sign _ _ Aa) as (Pa & Na & Oa). destruct (arg_sign _ _ Ac) as (Pc & Nc & Oc). pose proof Ia as [Fa Va]. pose proof Ic as [Fc Vc].
  assert (exists r, is_power a c r /\ good (fe F) F r (fix_power F fa fb (lib2 lm Fpow F fa fb))) as (r & Hr & G).
  { destruct OK as [Px|[[Ox Py]|(Nx & (j & Ej) & Hk)]].
    - specialize (Pa Px). exists (exp (c * ln a)). split; [left; split; [assumption|reflexivity]|]. pose proof (c_pow_pos lm C F fa fb Fa Fc) as K. rewrite Va, Vc in K. specialize (K Pa).
      apply (power_good F _ _ _ _ a); [assumption|apply k_prec2; assumption|assumption|lra|exact K|]. pose proof (exp_pos (c * ln a)). lra.
    - specialize (Oa Ox). specialize (Pc Py). exists 0. split; [right; right; split; [assumption|]; split; [assumption|reflexivity]|]. rewrite (Za Oa).
      destruct (c_pow_zero_pos lm C F false fb Fc ltac:(rewrite Vc; assumption)) as [F0 V0]. exists 0. split; [|left; rewrite Rminus_0_r, Rabs_R0; lra].
      unfold fix_power. rewrite (feq_isf _ _ _ 0 (conj F0 V0) (FloatFacts.isf_zero F)), Req_bool_true by reflexivity. apply FloatFacts.isf_zero.
    - specialize (Na Nx). assert (c = y) as Ec by (apply (int_arg k y y c); try assumption; [exists j; assumption|reflexivity]). exists (powerRZ a j). split; [right; left; split; [assumption|]; exists j; split; [congruence|reflexivity]|].
      pose proof (c_pow_int lm C F fa fb j Fa Fc) as K. rewrite Va, Vc in K. specialize (K Na ltac:(congruence)).
      apply (power_good F _ _ _ _ a); [assumption|apply k_prec2; assumption|assumption|lra|exact K|]. apply powerRZ_nz. lra. }
  destruct (good_from k (bits w) (fe F) F r _ fr (fe_pos F) Hn (fun z Fz => from_near lm k (bits w) F fr z C W Le Hf Fz) G) as (t' & z & E & Bz & Rz).
  exists t'. split; [assumption|]. exists a, c, r, z. repeat (split; [assumption|]). split; [|assumption]. eapply Rle_trans; [exact Bz|]. apply Rmult_le_compat_r; [apply Rabs_pos|exact Le].
Qed.

Lemma power_nan_result : forall F (a b : flt F), fix_power F a b B754_nan = B754_nan.
Proof. intros F a b. reflexivity. Qed.
Lemma from_nan : forall k n F fr, from_float lm k n F fr -> fr B754_nan = Val (nar n).
Proof. intros k n F fr H. eapply from_float_nar; [exact H|reflexivity]. Qed.

(** ** NaR *)
Lemma nonint_01 : forall c j, 0 < Rabs c < 1 -> c <> IZR j.
Proof. intros c j H E. rewrite E, <- abs_IZR in H. destruct H as [H1 H2]. apply lt_IZR in H1. apply lt_IZR in H2. lia. Qed.
Theorem power_nar : forall k w s t, is_intn (bits w) s -> is_intn (bits w) t -> power_undefined k (value k (bits w) s) (value k (bits w) t) ->
  api_binary k lm n_power w s t = Val (nar (bits w)).
Proof.
  intros k w s t Is It U. rewrite api_sel2 by discriminate.
  apply (bin_shape k lm _ _ _ w s t (fun o => o = Val (nar (bits w)))); try assumption.
  intros F g fr fa fb W Le Hg Hf Oa Ob. cbn [impl_of fst snd] in *. apply impl_pow in Hg. subst g.
  assert (fix_power F fa fb (lib2 lm Fpow F fa fb) = B754_nan) as ->; [|eapply from_nan; exact Hf].
  destruct (value k (bits w) s) as [x|], (value k (bits w) t) as [y|]; cbn [power_undefined opnd] in *.
  - destruct Oa as (a & Ia & Aa & Sa & Za), Ob as (c & Ic & Ac & Sc & Zc). destruct (arg_sign _ _ Aa) as (Pa & Na & Oa). destruct (arg_sign _ _ Ac) as (Pc & Nc & Oc). pose proof Ia as [Fa Va]. pose proof Ic as [Fc Vc].
    destruct U as [[Ox Ny]|[Nx Hj]].
    + rewrite (Za (Oa Ox)). pose proof (c_pow_zero_neg lm C F false fb Fc ltac:(rewrite Vc; apply Nc; assumption)) as K.
      destruct (lib2 lm Fpow F (B754_zero false) fb) as [?|sg| |? ? ? ?]; try discriminate. unfold fix_power. replace (feq (B754_infinity sg) (fzero F)) with false by (destruct sg; reflexivity). cbn [fisinf]. change (feq (B754_zero false) (fzero F)) with true. reflexivity.
    + rewrite (c_pow_nonint lm C F fa fb Fa Fc); [apply power_nan_result|rewrite Va; apply Na; assumption|]. intros j. rewrite Vc. destruct k.
      * apply nonint_01. split; [apply Rabs_pos_lt|].
        -- intros E. rewrite E in *. assert (y <> 0) as Ny by (intros E'; rewrite E', Rabs_R0 in Hj; lra). destruct (Rlt_or_le y 0) as [Q|Q]; [specialize (Nc Q); lra|specialize (Pc ltac:(lra)); lra].
        -- destruct Hj as [_ Hj]. apply Rabs_def2 in Hj. pose proof (arg_in_1 _ _ Ac ltac:(lra)). apply Rabs_def1; lra.
      * cbn [slack] in Sc. rewrite Rmult_0_l in Sc. assert (c = y) as -> by (destruct (Req_dec c y) as [E|E]; [assumption|]; assert (c - y <> 0) as N by lra; apply Rabs_pos_lt in N; lra). apply Hj.
  - destruct Oa as (a & Ia & Aa & Sa & Za). subst fb. rewrite (c_pow_nan_r lm C F fa); [apply power_nan_result|]. intros _. rewrite (proj2 Ia). intros E. apply U. apply (arg_is_1 _ _ Aa). assumption.
  - destruct Ob as (c & Ic & Ac & Sc & Zc). subst fa. rewrite (c_pow_nan_l lm C F fb); [apply power_nan_result|]. intros _. rewrite (proj2 Ic). intros E. rewrite E in *. destruct (arg_sign _ _ Ac) as (Pc & Nc & Oc).
    destruct (Rtotal_order y 0) as [Q|[Q|Q]]; [specialize (Nc Q)|contradiction|specialize (Pc Q)]; lra.
  - subst fa fb. rewrite (c_pow_nan_l lm C F B754_nan) by discriminate. apply power_nan_result.
Qed.

(** ** 1 *)
Theorem power_one : forall k w s t, is_intn (bits w) s -> is_intn (bits w) t -> value k (bits w) s = Some 1 \/ value k (bits w) t = Some 0 ->
  exists t', api_binary k lm n_power w s t = Val t' /\ value k (bits w) t' = Some 1.
Proof.
  intros k w s t Is It H. rewrite api_sel2 by discriminate.
  apply (bin_shape k lm _ _ _ w s t (fun o => exists t', o = Val t' /\ value k (bits w) t' = Some 1)); try assumption.
  intros F g fr fa fb W Le Hg Hf Oa Ob. cbn [impl_of fst snd] in *. apply impl_pow in Hg. subst g.
  assert (lib2 lm Fpow F fa fb = fint F 1) as E.
  { destruct H as [H|H].
    - rewrite H in Oa. destruct Oa as (a & Ia & Aa & _). rewrite (proj1 (arg_is_1 _ _ Aa) eq_refl) in Ia. apply isf_is_1 in Ia. rewrite Ia. apply (c_pow_1 lm C).
    - rewrite H in Ob. destruct Ob as (c & Ic & Ac & _ & Zc). rewrite (Zc (proj2 (proj2 (arg_sign _ _ Ac)) eq_refl)). apply (c_pow_0 lm C). }
  rewrite E. assert (fix_power F fa fb (fint F 1) = fint F 1) as ->.
  { unfold fix_power. rewrite (feq_zero_nz _ _ _ (isf_one F) ltac:(lra)). destruct (isf_one F) as [F1 _]. destruct (fint F 1); try discriminate; reflexivity. }
  destruct (isf_one F) as [F1 V1]. destruct (from_faithful lm k (bits w) F fr (fint F 1) C Hf F1) as (t' & Et & Rt). rewrite V1 in Rt. exists t'. split; [assumption|].
  assert (std_width (bits w)) as Sw by (destruct w; unfold std_width; simpl; tauto). destruct (value_one_k k (bits w) Sw) as [V I1]. rewrite (exact_k k (bits w) 1 t' _ Sw I1 Rt V). assumption.
Qed.
End Pow.

(** NaR exactly where the power is undefined *)
Lemma int_dec : forall y, (exists j, y = IZR j) \/ (forall j, y <> IZR j).
Proof.
  intros y. destruct (Req_dec y (IZR (Zfloor y))) as [E|E]; [left; exists (Zfloor y); assumption|right]. intros j ->. apply E. rewrite Zfloor_IZR. reflexivity.
Qed.
Theorem power_nar_iff : forall lm w s t, c99 lm -> is_intn (bits w) s -> is_intn (bits w) t ->
  (api_binary Linear lm n_power w s t = Val (nar (bits w)) <-> power_undefined Linear (value Linear (bits w) s) (value Linear (bits w) t)).
Proof.
  intros lm w s t C Is It. assert (6 <= bits w <= 64)%Z as Hn by (destruct w; simpl; lia). split; [|apply power_nar; assumption].
  intros E. assert (std_width (bits w)) as Sw by (destruct w; unfold std_width; simpl; tauto).
  assert (value Linear (bits w) s = Some 1 \/ value Linear (bits w) t = Some 0 -> False) as Not1.
  { intros H. destruct (power_one lm C Linear w s t Is It H) as (t' & E' & V). rewrite E in E'. injection E' as <-. rewrite value_nar in V by lia. discriminate. }
  assert (forall x y, value Linear (bits w) s = Some x -> value Linear (bits w) t = Some y -> power_ok Linear x y -> False) as NotOk.
  { intros x y Hx Hy OK. destruct (power_computes lm C Linear w s t x y Is It Hx Hy OK) as (t' & E' & (? & ? & ? & z & _ & _ & _ & _ & [Rz _])). rewrite E in E'. injection E' as <-. eapply faithful_not_nar; eassumption. }
  destruct (value Linear (bits w) s) as [x|], (value Linear (bits w) t) as [y|]; cbn [power_undefined].
  - destruct (Rtotal_order x 0) as [Q|[-> |Q]].
    + right. split; [assumption|]. destruct (int_dec y) as [K|K]; [|assumption]. exfalso. apply (NotOk x y eq_refl eq_refl). right. right. split; [assumption|]. split; [assumption|left; reflexivity].
    + left. split; [reflexivity|]. destruct (Rtotal_order y 0) as [Q|[-> |Q]]; [assumption|exfalso; apply Not1; right; reflexivity|exfalso]. apply (NotOk 0 y eq_refl eq_refl). right. left. split; [reflexivity|assumption].
    + exfalso. apply (NotOk x y eq_refl eq_refl). left. assumption.
  - intros ->. apply Not1. left. reflexivity.
  - intros ->. apply Not1. right. reflexivity.
  - exact I.
Qed.
