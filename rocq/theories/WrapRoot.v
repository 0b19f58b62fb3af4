(** Integer powers computed with floats, and roots of linear takums. *)
From Coq Require Import ZArith Reals Bool Lia Lra Psatz.
From Flocq Require Import Core.Core IEEE754.BinarySingleNaN.
From Verif Require Import CModel FloatModel WidthConv Libm LibmSpec Spec CodeFacts SpecFacts ValueFacts WidthFacts WidthApi Conversion Wrappers LinApi WrapApi WrapSpec WrapSpec2 FloatFacts RoundFacts Machine LogFacts LinDec LinOps LinArith LinProps RealBounds LogConv WrapTotal WrapNar FloatAcc RealFacts FixFacts WrapAcc WrapMain WrapSmall WrapPi MiscProps WrapBin WrapPow.
Local Open Scope R_scope.

(** ** Arguments *)
Lemma opnd_ll : forall w t, is_intn (bits w) t -> exists y, lin_to_ld x86_64 w t = Val y /\ opnd Linear (value Linear (bits w) t) f80 y.
Proof.
  intros w t It. assert (std_width (bits w)) as Sw by (destruct w; unfold std_width; simpl; tauto).
  destruct (lin_to_exact (bits w) f80 _ t (lin_ld_to w) (or_introl eq_refl) It) as (y & Ey & K). exists y. split; [assumption|].
  destruct (value Linear (bits w) t) as [x|] eqn:E; [|assumption]. destruct K as (K1 & K2 & K3). apply opnd_exact. split; [split; assumption|]. split; [|assumption].
  apply arg_self. pose proof (operand_value (bits w) t x) as Op. destruct (Req_dec x 0) as [Q|Q]; [left; assumption|right].
  destruct Op as (_ & _ & B); try assumption. specialize (B Q). apply (win_weaken 256); [|lia]. split; [|apply B]. eapply Rle_trans; [|apply B]. apply bpow_le. lia.
Qed.
Lemma isf_int64 : forall j, (- 2 ^ 63 <= j < 2 ^ 63)%Z -> isf (fint f80 j) (IZR j).
Proof. intros j H. apply isf_fint. simpl. lia. Qed.
Lemma value_zero_iff : forall k n t, is_intn n t -> (8 <= n <= 64)%Z -> value k n t = Some 0 -> t = 0%Z.
Proof.
  intros k n t It Hn V. destruct (takum_cases n t It) as [-> | [-> | Hr]]; [reflexivity|rewrite value_nar in V by lia; discriminate|exfalso].
  destruct k; [rewrite value_log_real in V by assumption|rewrite lin_value in V by (assumption || lia)]; injection V as V; apply Rmult_integral in V; destruct V as [V|V].
  - destruct (t <? 0)%Z; simpl in V; lra.
  - pose proof (exp_pos (l_ n t / 2)). lra.
  - destruct (t <? 0)%Z; simpl in V; lra.
  - pose proof (Lin_pos (l_ n t)). lra.
Qed.
Lemma value_sign : forall k n t x, is_intn n t -> (8 <= n <= 64)%Z -> value k n t = Some x -> (x < 0 <-> (t < 0)%Z).
Proof.
  intros k n t x It Hn V. destruct (takum_cases n t It) as [-> | [-> | Hr]].
  - rewrite value_0 in V. injection V as <-. split; [lra|lia].
  - rewrite value_nar in V by lia. discriminate.
  - assert (exists p, 0 < p /\ x = sg (t <? 0)%Z * p) as (p & Pp & ->).
    { destruct k; [rewrite value_log_real in V by assumption; exists (exp (l_ n t / 2)); split; [apply exp_pos|]|rewrite lin_value in V by (assumption || lia); exists (Lin (l_ n t)); split; [apply Lin_pos|]]; injection V as <-; reflexivity. }
    destruct (Z.ltb_spec t 0); simpl; split; intros; try lia; lra.
Qed.
Lemma odd_sign : forall x j, x < 0 -> Z.rem j 2 <> 0%Z -> powerRZ x j < 0.
Proof.
  intros x j Nx Hj. assert (Z.odd j = true) as Ho. { rewrite <- Z.negb_even. apply negb_true_iff. destruct (Z.even j) eqn:E; [|reflexivity]. apply Zeven_bool_iff in E. apply Zeven_ex_iff in E. destruct E as [q E]. exfalso. apply Hj. rewrite E, Z.mul_comm. apply Z.rem_mul. lia. }
  assert (forall m, Z.odd (Z.of_nat m) = true -> x ^ m < 0) as P.
  { intros m Hm. apply Zodd_bool_iff in Hm. apply Zodd_ex_iff in Hm. destruct Hm as [q Hq]. assert (m = (2 * Z.to_nat q + 1)%nat) as -> by lia. rewrite pow_add, pow_mult, pow_1. assert (0 < (x ^ 2) ^ Z.to_nat q) by (apply pow_lt; nra). nra. }
  destruct j as [|p|p]; [discriminate| |]; cbn [powerRZ].
  - apply P. rewrite positive_nat_Z. assumption.
  - apply Rinv_lt_0_compat. apply P. rewrite positive_nat_Z. rewrite <- Z.odd_opp. assumption.
Qed.
Lemma even_sign : forall x j, x < 0 -> Z.rem j 2 = 0%Z -> 0 < powerRZ x j.
Proof.
  intros x j Nx Hj. assert (forall m, Z.rem (Z.of_nat m) 2 = 0%Z -> 0 < x ^ m) as P.
  { intros m Hm. apply Z.rem_divide in Hm; [|lia]. destruct Hm as [q Hq]. assert (m = (2 * Z.to_nat q)%nat) as -> by lia. rewrite pow_mult. apply pow_lt. nra. }
  destruct j as [|p|p]; cbn [powerRZ]; [lra| |].
  - apply P. rewrite positive_nat_Z. assumption.
  - apply Rinv_0_lt_compat. apply P. rewrite positive_nat_Z. change (Z.pos p) with (- Z.neg p)%Z. rewrite Z.rem_opp_l by lia. lia.
Qed.

Section Ipow.
Variable lm : libm.
Hypothesis C : c99 lm.

Lemma ipow_good : forall (fa : flt f80) a x t j, isf fa a -> (x < 0 <-> (t < 0)%Z) -> (a < 0 <-> x < 0) -> a <> 0 -> (t <> 0)%Z -> (- 2 ^ 63 <= j < 2 ^ 63)%Z ->
  good (bpow radix2 (-62)) f80 (powerRZ a j) (fix_integer_power x86_64 t j (cpow lm fa (fint f80 j))).
Proof.
  intros fa a x t j Ia Sx Sa Na Nt Hj. pose proof (isf_int64 j Hj) as [Fj Vj]. pose proof Ia as [Fa Va].
  assert (powerRZ a j <> 0) as NR by (apply powerRZ_nz; assumption).
  assert (close 2 f80 (powerRZ a j) (lib2 lm Fpow f80 fa (fint f80 j))) as Cl.
  { destruct (Rlt_or_le a 0) as [Q|Q].
    - pose proof (c_pow_int lm C f80 fa (fint f80 j) j Fa Fj) as K. rewrite Va, Vj in K. apply K; [assumption|reflexivity].
    - pose proof (c_pow_pos lm C f80 fa (fint f80 j) Fa Fj) as K. rewrite Va, Vj in K. rewrite powerRZ_Rpower by lra. apply K. lra. }
  unfold fix_integer_power, cpow. change (ld x86_64) with f80.
  destruct (power_near_good f80 (bpow radix2 (-62)) _ _ w80 (Rle_refl _) Cl NR) as [(z & Iz & Nz & G)|[(s & E & Hs & H)|(s & E & Hs & H)]].
  - rewrite (feq_zero_nz _ _ _ Iz Nz). destruct Iz as [Fy _]. destruct (lib2 lm Fpow f80 fa (fint f80 j)); try discriminate; exact G.
  - rewrite E. cbn [fisinf]. change (feq (B754_zero s) (fzero f80)) with true. replace (t =? 0)%Z with false by (symmetry; apply Z.eqb_neq; assumption). cbn [andb negb].
    replace ((t <? 0)%Z && negb (Z.rem j 2 =? 0)%Z) with (Rlt_bool (powerRZ a j) 0); [apply tiny_good; [apply w80|assumption|reflexivity|assumption]|].
    destruct (Z.ltb_spec t 0) as [Q|Q]; cbn [andb].
    + assert (a < 0) as Ax by tauto. destruct (Z.eqb_spec (Z.rem j 2) 0) as [P|P]; cbn [negb]; [apply Rlt_bool_false; left; apply even_sign|apply Rlt_bool_true; apply odd_sign]; assumption.
    + apply Rlt_bool_false. left. apply powerRZ_lt. assert (~ a < 0) by (intros K; assert (t < 0)%Z by tauto; lia). lra.
  - rewrite E. cbn [fisinf]. replace (fgt (B754_infinity s) (fzero f80)) with (negb s) by (destruct s; reflexivity).
    replace (if negb s then dmax f80 else fneg (dmax f80)) with (if s then fneg (dmax f80) else dmax f80) by (destruct s; reflexivity). apply huge_good; [apply w80|assumption|assumption|assumption].
Qed.

(** the functions of this section *)
Definition float_ipow (k : kind) (w : Wrappers.width) : Prop := k = Linear \/ w = W64.

Lemma ipow_shape : forall k w t j (P : outcome Z -> Prop), float_ipow k w -> is_intn (bits w) t -> t <> nar (bits w) -> (t <> 0 \/ 0 < j)%Z ->
  (forall fr (a : flt f80), from_float lm k (bits w) f80 fr -> opnd k (value k (bits w) t) f80 a -> P (fr (fix_integer_power x86_64 t j (cpow lm a (fint f80 j))))) ->
  P (api_integer_power k lm w t j).
Proof.
  intros k w t j P Hk It Nt H0 H. assert (forall n, n = bits w -> ((t =? nar n) || ((t =? 0) && (j <=? 0)))%Z = false) as Ec.
  { intros n ->. rewrite (proj2 (Z.eqb_neq _ _) Nt). cbn [orb]. destruct H0 as [H0|H0]; [rewrite (proj2 (Z.eqb_neq _ _) H0); reflexivity|]. rewrite andb_comm. replace (j <=? 0)%Z with false by (symmetry; apply Z.leb_gt; assumption). reflexivity. }
  destruct k; cbn [api_integer_power].
  - destruct Hk as [Hk|Hk]; [discriminate|subst w]. unfold takum64_integer_power. change (NaR 64) with (nar 64). rewrite (Ec 64%Z eq_refl).
    destruct (opnd_log lm W64 t C It) as (a & Ea & Oa). rewrite Ea. cbn [bind]. change (ld x86_64) with f80. apply H; [apply from_float_log; apply (log_ld_from lm W64)|assumption].
  - unfold takum_linear_integer_power. replace (NaR (bits w)) with (nar (bits w)) by (destruct w; reflexivity). rewrite (Ec _ eq_refl).
    destruct (opnd_ll w t It) as (a & Ea & Oa). rewrite Ea. cbn [bind]. change (ld x86_64) with f80. apply H; [apply from_float_lin; apply lin_ld_from|assumption].
Qed.

Theorem integer_power_computes : forall k w t j x, float_ipow k w -> is_intn (bits w) t -> (- 2 ^ 63 <= j < 2 ^ 63)%Z -> value k (bits w) t = Some x -> x <> 0 \/ (0 < j)%Z ->
  exists t', api_integer_power k lm w t j = Val t' /\ computes_integer_power k (bits w) x j t'.
Proof.
  intros k w t j x Hk It Hj Hx H0. assert (8 <= bits w <= 64)%Z as Hn by (destruct w; simpl; lia).
  assert (x <> 0 -> t <> 0%Z) as Nt by (intros Nx ->; rewrite value_0 in Hx; congruence).
  apply (ipow_shape k w t j (fun o => exists t', o = Val t' /\ computes_integer_power k (bits w) x j t')); try assumption.
  - intros ->. rewrite value_nar in Hx by lia. discriminate.
  - tauto.
  - intros fr fa Hf Oa. rewrite Hx in Oa. destruct Oa as (a & Ia & Aa & Sa & Za). destruct (arg_sign _ _ Aa) as (Pa & Na & Oa).
    assert (good (bpow radix2 (-62)) f80 (powerRZ a j) (fix_integer_power x86_64 t j (cpow lm fa (fint f80 j)))) as G.
    { destruct (Req_dec x 0) as [E0|N0].
      - assert (0 < j)%Z as Pj by tauto. rewrite E0 in Hx. apply value_zero_iff in Hx; try assumption. rewrite (Za (Oa E0)), (Oa E0). pose proof (isf_int64 j Hj) as [Fj Vj].
        destruct (c_pow_zero_pos lm C f80 false (fint f80 j) Fj ltac:(rewrite Vj; apply IZR_lt; assumption)) as [F0 V0].
        assert (powerRZ 0 j = 0) as ->. { destruct j as [|p|p]; try lia. cbn [powerRZ]. apply pow_i. lia. }
        exists 0. split; [|left; rewrite Rminus_0_r, Rabs_R0; lra]. unfold fix_integer_power, cpow. change (ld x86_64) with f80. rewrite Hx. change (0 =? 0)%Z with true. cbn [negb]. rewrite andb_false_r.
        destruct (lib2 lm Fpow f80 (B754_zero false) (fint f80 j)); try discriminate; split; assumption.
      - apply (ipow_good fa a x); try assumption.
        + apply (value_sign k (bits w)); assumption.
        + split; intros Q; [|apply Na; assumption]. destruct (Rlt_or_le x 0) as [?|Q']; [assumption|]. specialize (Pa ltac:(lra)). lra.
        + intros E. rewrite E in *. destruct (Rlt_or_le x 0) as [Q|Q]; [specialize (Na Q)|specialize (Pa ltac:(lra))]; lra.
        + apply Nt. assumption. }
    destruct (good_from k (bits w) (bpow radix2 (-62)) f80 _ _ fr (bpow_ge_0 radix2 (-62)) ltac:(lia) (fun z Fz => from_near lm k (bits w) f80 fr z C w80 (fe80 _ _) Hf Fz) G) as (t' & z & E & Bz & Rz).
    exists t'. split; [assumption|]. exists a, z. split; [assumption|]. split; assumption.
Qed.

Theorem integer_power_nar_iff : forall k w t j, float_ipow k w -> is_intn (bits w) t -> (- 2 ^ 63 <= j < 2 ^ 63)%Z ->
  (api_integer_power k lm w t j = Val (nar (bits w)) <-> t = nar (bits w) \/ (t = 0 /\ j <= 0)%Z).
Proof.
  intros k w t j Hk It Hj. assert (8 <= bits w <= 64)%Z as Hn by (destruct w; simpl; lia). split.
  - intros E. destruct (Z.eq_dec t (nar (bits w))) as [Q|Q]; [left; assumption|right]. destruct (val_cases k (bits w) t It Hn) as [[K _]|(x & Hx)]; [contradiction|].
    destruct (Z.eq_dec t 0) as [Z0|Z0]; [destruct (Z_le_gt_dec j 0) as [J|J]; [split; assumption|exfalso]|exfalso].
    + destruct (integer_power_computes k w t j x Hk It Hj Hx ltac:(right; lia)) as (t' & E' & (? & z & _ & _ & [Rz _])). rewrite E in E'. injection E' as <-. eapply faithful_not_nar; [|exact Rz]. lia.
    + destruct (integer_power_computes k w t j x Hk It Hj Hx) as (t' & E' & (? & z & _ & _ & [Rz _])); [left; intros ->; apply Z0; eapply value_zero_iff; eassumption|]. rewrite E in E'. injection E' as <-. eapply faithful_not_nar; [|exact Rz]. lia.
  - intros H. assert (((t =? nar (bits w)) || ((t =? 0) && (j <=? 0)))%Z = true) as Ec.
    { destruct H as [-> | [-> H]]; [rewrite Z.eqb_refl; reflexivity|]. rewrite (proj2 (Z.leb_le _ _) H). apply orb_true_r. }
    destruct k; cbn [api_integer_power].
    + destruct Hk as [Hk|Hk]; [discriminate|subst w]. unfold takum64_integer_power. change (NaR 64) with (nar 64). change (nar (bits W64)) with (nar 64) in Ec. rewrite Ec. reflexivity.
    + unfold takum_linear_integer_power. replace (NaR (bits w)) with (nar (bits w)) by (destruct w; reflexivity). rewrite Ec. reflexivity.
Qed.

(** ** Roots *)
Lemma recip_int : forall j, (- 2 ^ 63 <= j < 2 ^ 63)%Z -> j <> 0%Z -> exists c, isf (fdiv (one f80) (fint f80 j)) c /\
  Rabs (c - / IZR j) <= bpow radix2 (-64) * Rabs (/ IZR j) /\ (j = 1%Z -> c = 1) /\ (j = (-1)%Z -> c = -1) /\ ((0 < j)%Z -> 0 < c) /\ ((j < 0)%Z -> c < 0) /\ (j <> 1%Z -> j <> (-1)%Z -> 0 < Rabs c <= / 2) /\ Rabs c <= 1.
Proof.
  intros j Hj Nj. pose proof (isf_int64 j Hj) as Ij. assert (IZR j <> 0) as Nr by (apply not_0_IZR; assumption).
  assert (1 <= Rabs (IZR j) <= bpow radix2 63) as Bj. { rewrite <- abs_IZR. split; [apply IZR_le; lia|]. change (bpow radix2 63) with (IZR (2 ^ 63)). apply IZR_le. lia. }
  assert (Rabs (/ IZR j) = / Rabs (IZR j)) as E1 by (apply Rabs_inv).
  assert (bpow radix2 (-63) <= Rabs (/ IZR j) <= 1) as Bi. { rewrite E1. split; [change (-63)%Z with (- (63))%Z; rewrite bpow_opp; apply Rinv_le_contravar; lra|rewrite <- Rinv_1; apply Rinv_le_contravar; lra]. }
  assert (1 / IZR j = / IZR j) as Ed by (unfold Rdiv; ring).
  pose proof (isf_fdiv _ _ _ _ (isf_one f80) Ij Nr) as K. rewrite Ed in K. specialize (K ltac:(apply RF_small; [apply w80|eapply Rle_trans; [apply Bi|]; apply (bpow_le radix2 0); lia])).
  pose proof (RF_rel9 f80 (/ IZR j) w80) as Rel. specialize (Rel ltac:(eapply Rle_trans; [|apply Bi]; apply bpow_le; lia)). change (- fprec f80)%Z with (-64)%Z in Rel.
  exists (RF f80 (/ IZR j)). split; [exact K|]. split; [assumption|].
  assert (bpow radix2 (-64) <= / 4) as B4 by (change (/ 4) with (bpow radix2 (-2)); apply bpow_le; lia). pose proof (bpow_gt_0 radix2 (-64)) as P64. pose proof (bpow_gt_0 radix2 (-63)) as P63.
  assert (Rabs (RF f80 (/ IZR j) - / IZR j) <= / 4 * Rabs (/ IZR j)) as R4 by (eapply Rle_trans; [exact Rel|]; apply Rmult_le_compat_r; [apply Rabs_pos|assumption]). pose proof (Rabs_le_inv _ _ R4) as R4'.
  assert (forall m, FF f80 (IZR m) -> / IZR j = IZR m -> RF f80 (/ IZR j) = IZR m) as Ex by (intros m Fm ->; apply RF_id; assumption).
  assert (FF f80 1 /\ FF f80 (-1)) as [F1 Fm1]. { split; [eapply isf_FF; apply isf_one|]. replace (-1) with (- (1)) by ring. apply generic_format_opp. eapply isf_FF; apply isf_one. }
  split; [intros ->; apply (Ex 1%Z); [assumption|rewrite Rinv_1; reflexivity]|]. split; [intros ->; apply (Ex (-1)%Z); [assumption|field]|].
  split; [intros P|]. { assert (0 < / IZR j) by (apply Rinv_0_lt_compat; apply IZR_lt; assumption). rewrite (Rabs_pos_eq (/ IZR j)) in R4' by lra. lra. }
  split; [intros P|]. { assert (/ IZR j < 0) by (apply Rinv_lt_0_compat; apply IZR_lt; assumption). rewrite (Rabs_left (/ IZR j)) in R4' by lra. lra. }
  split.
  - intros N1 N2. assert (Rabs (/ IZR j) <= / 2) as H2. { rewrite E1. apply Rinv_le_contravar; [lra|]. rewrite <- abs_IZR. apply IZR_le. lia. } split.
    + apply Rabs_pos_lt. intros E. rewrite E in R4. replace (0 - / IZR j) with (- / IZR j) in R4 by ring. rewrite Rabs_Ropp in R4. lra.
    + change (/ 2) with (bpow radix2 (-1)) in *. apply RF_le; [apply w80|lia|assumption].
  - change 1 with (bpow radix2 0). apply RF_le; [apply w80|lia|apply Bi].
Qed.

Lemma root_even : forall t j, ((t <? 0)%Z && (Z.rem j 2 =? 0)%Z = true <-> (t < 0 /\ Z.rem j 2 = 0)%Z).
Proof. intros t j. rewrite andb_true_iff, Z.ltb_lt, Z.eqb_eq. tauto. Qed.

(** the float a root is computed from *)
Definition root_float (t j : Z) (a : flt f80) : flt f80 :=
  let res := cpow lm a (fdiv (one f80) (fint f80 j)) in
  if feq res (fzero f80) && negb (t =? 0)%Z then (if (t <? 0)%Z && negb (Z.rem j 2 =? 0)%Z then fneg (dmin f80) else dmin f80) else res.
Lemma root_shape : forall w t j, is_intn (bits w) t -> j <> 0%Z -> ~ (t < 0 /\ Z.rem j 2 = 0)%Z ->
  exists a, opnd Linear (value Linear (bits w) t) f80 a /\ api_root Linear lm w t j = lin_from_ld x86_64 w (root_float t j a).
Proof.
  intros w t j It Nj Hs. cbn [api_root]. unfold takum_linear_root. rewrite (proj2 (Z.eqb_neq _ _) Nj). cbn [orb].
  destruct ((t <? 0)%Z && (Z.rem j 2 =? 0)%Z) eqn:E; [apply root_even in E; contradiction|].
  destruct (opnd_ll w t It) as (a & Ea & Oa). exists a. split; [assumption|]. rewrite Ea. reflexivity.
Qed.
Lemma ln_win : forall x h, 0 < x -> win h x -> Rabs (ln x) <= IZR h.
Proof.
  intros x h P [H1 H2]. rewrite Rabs_pos_eq in H1, H2 by lra. assert (0 <= h)%Z as Hh. { destruct (Z_le_gt_dec 0 h); [assumption|]. assert (bpow radix2 h < bpow radix2 (- h)) by (apply bpow_lt; lia). lra. }
  assert (forall e, ln (bpow radix2 e) = IZR e * ln 2) as Lb.
  { intros e. rewrite bpow_powerRZ. change (IZR radix2) with 2. rewrite powerRZ_Rpower by lra. unfold Rpower. rewrite ln_exp. reflexivity. }
  pose proof ln2_bounds as L2. assert (0 <= IZR h) by (apply IZR_le; assumption).
  assert (ln (bpow radix2 (- h)) <= ln x <= ln (bpow radix2 h)) as K.
  { split; [destruct H1 as [H1|H1]|destruct H2 as [H2|H2]]; try (left; apply ln_increasing; [apply bpow_gt_0 || lra|assumption]); right; congruence. }
  rewrite !Lb, opp_IZR in K. apply Rabs_le. nra.
Qed.
Lemma exp_rel : forall d e, Rabs d <= e -> 0 <= e <= / 4 -> Rabs (exp d - 1) <= 2 * e.
Proof.
  intros d e H He. apply Rabs_le_inv in H. pose proof (exp_ineq1_le d) as L. pose proof (exp_ineq1_le (- d)) as L'. rewrite exp_Ropp in L'. pose proof (exp_pos d) as P.
  assert (exp d * (1 + - d) <= 1). { apply Rle_trans with (exp d * / exp d); [apply Rmult_le_compat_l; lra|rewrite Rinv_r by lra; lra]. }
  apply Rabs_le. split; [lra|]. nra.
Qed.

Theorem root_computes : forall w t j x, is_intn (bits w) t -> (- 2 ^ 63 <= j < 2 ^ 63)%Z -> value Linear (bits w) t = Some x ->
  (0 < x /\ j <> 0%Z) \/ (x = 0 /\ (0 < j)%Z) \/ (x < 0 /\ (j = 1 \/ j = -1)%Z) ->
  exists t', api_root Linear lm w t j = Val t' /\ computes_root (bits w) x j t'.
Proof.
  intros w t j x It Hj Hx OK. assert (8 <= bits w <= 64)%Z as Hn by (destruct w; simpl; lia).
  assert (j <> 0%Z) as Nj by (destruct OK as [H|[H|H]]; lia). pose proof (value_sign Linear (bits w) t x It Hn Hx) as Sx.
  destruct (root_shape w t j It Nj) as (a & Oa & ->).
  { intros [Nt Ev]. apply Sx in Nt. destruct OK as [H|[H|[_ [-> | ->]]]]; [lra|lra|discriminate Ev|discriminate Ev]. }
  rewrite Hx in Oa. destruct Oa as (v & Iv & Av & Sv & Zv). cbn [slack] in Sv. rewrite Rmult_0_l in Sv. assert (v = x) as -> by (destruct (Req_dec v x) as [E|E]; [assumption|]; assert (v - x <> 0) as N by lra; apply Rabs_pos_lt in N; lra). clear Sv.
  destruct (recip_int j Hj Nj) as (c & Ic & Rc & C1 & Cm1 & Pc & Nc & Ch & Cb). pose proof Iv as [Fv Vv]. pose proof Ic as [Fc Vc].
  assert (IZR j <> 0) as Nr by (apply not_0_IZR; assumption).
  assert (exists r, is_root j x r /\ good (bpow radix2 (-54)) f80 r (root_float t j a)) as (r & Hr & G).
  { assert (forall r, r <> 0 -> close 2 f80 r (lib2 lm Fpow f80 a (fdiv (one f80) (fint f80 j))) -> win 300 r -> exists z, isf (root_float t j a) z /\ Rabs (z - r) <= bpow radix2 (-62) * Rabs r) as Id.
    { intros r Nr_ Cl Wr. pose proof (close_near 2 f80 r _ w80 ltac:(lia) Cl) as N. destruct (near_acc _ _ _ _ _ N) as (z & Iz & Hz); [right; eapply win_weaken; [exact Wr|lia]|]. change (2 - fprec f80)%Z with (-62)%Z in Hz.
      exists z. split; [|assumption]. unfold root_float, cpow. rewrite (feq_zero_nz f80 _ z Iz); [exact Iz|]. intros ->. replace (0 - r) with (- r) in Hz by ring. rewrite Rabs_Ropp in Hz. apply Rabs_pos_lt in Nr_.
      assert (bpow radix2 (-62) * Rabs r <= / 4 * Rabs r) by (apply Rmult_le_compat_r; [lra|]; change (/ 4) with (bpow radix2 (-2)); apply bpow_le; lia). lra. }
    destruct OK as [[Px _]|[[E0 Pj]|[Nx Hj1]]].
    - exists (exp (/ IZR j * ln x)). split.
      + pose proof (exp_pos (/ IZR j * ln x)) as Pe0. split; [assumption|]. split; [lra|]. split; [|lra]. rewrite powerRZ_Rpower by apply exp_pos. unfold Rpower. rewrite ln_exp. replace (IZR j * (/ IZR j * ln x)) with (ln x) by (field; assumption). apply exp_ln. assumption.
      + assert (win 260 x) as Wx by (destruct (arg_rng _ _ Av); [lra|assumption]). pose proof (ln_win x 260 Px Wx) as Lx.
        pose proof (c_pow_pos lm C f80 a _ Fv Fc ltac:(rewrite Vv; assumption)) as Cl. rewrite Vv, Vc in Cl. change (Rpower x c) with (exp (c * ln x)) in Cl.
        assert (win 300 (exp (c * ln x))) as Wr.
        { destruct Wx as [W1 W2]. rewrite Rabs_pos_eq in W1, W2 by lra. assert (forall p, 0 < p -> exp (ln p) = p) as EL by (intros; apply exp_ln; assumption).
          assert (Rabs (c * ln x) <= 260 * ln 2) as Bd.
          { rewrite Rabs_mult. assert (Rabs (ln x) <= 260 * ln 2) as Lx'.
            { assert (forall e, ln (bpow radix2 e) = IZR e * ln 2) as Lb. { intros e. rewrite bpow_powerRZ. change (IZR radix2) with 2. rewrite powerRZ_Rpower by lra. unfold Rpower. rewrite ln_exp. reflexivity. }
              assert (ln (bpow radix2 (- (260))) <= ln x <= ln (bpow radix2 260)) as K. { split; [destruct W1 as [W1|W1]|destruct W2 as [W2|W2]]; try (left; apply ln_increasing; [apply bpow_gt_0 || lra|assumption]); right; congruence. }
              rewrite !Lb in K. change (IZR (- (260))) with (-260) in K. apply Rabs_le. lra. }
            pose proof (Rabs_pos (ln x)). pose proof (Rabs_pos c). pose proof ln2_bounds. nra. }
          apply Rabs_le_inv in Bd. assert (forall e, bpow radix2 e = exp (IZR e * ln 2)) as Eb. { intros e. rewrite bpow_powerRZ. change (IZR radix2) with 2. rewrite powerRZ_Rpower by lra. reflexivity. }
          assert (forall u v, u <= v -> exp u <= exp v) as Em by (intros u v0 [Q|Q]; [left; apply exp_increasing; assumption|right; congruence]).
          apply (win_weaken 260); [|lia]. unfold win. rewrite Rabs_pos_eq by (left; apply exp_pos). rewrite !Eb. change (IZR (- (260))) with (-260). split; apply Em; lra. }
        pose proof (exp_pos (c * ln x)) as Pe. destruct (Id _ (Rgt_not_eq _ _ Pe) Cl Wr) as (z & Iz & Hz). exists z. split; [assumption|]. left.
        set (r := exp (/ IZR j * ln x)). assert (exp (c * ln x) = r * exp ((c - / IZR j) * ln x)) as Ee by (unfold r; rewrite <- exp_plus; f_equal; ring).
        assert (Rabs ((c - / IZR j) * ln x) <= bpow radix2 (-56)) as Hd.
        { rewrite Rabs_mult. assert (bpow radix2 (-64) = 2 * bpow radix2 (-65)) as E65 by (change (-64)%Z with (1 + -65)%Z; rewrite bpow_plus; reflexivity).
          assert (Rabs (c - / IZR j) <= bpow radix2 (-65)).
          { destruct (Z.eq_dec j 1) as [J1|J1]; [rewrite (C1 J1), J1; replace (1 - / IZR 1) with 0 by field; rewrite Rabs_R0; apply bpow_ge_0|].
            destruct (Z.eq_dec j (-1)) as [J2|J2]; [rewrite (Cm1 J2), J2; replace (-1 - / IZR (-1)) with 0 by field; rewrite Rabs_R0; apply bpow_ge_0|].
            assert (Rabs (/ IZR j) <= / 2). { rewrite Rabs_inv. apply Rinv_le_contravar; [lra|]. rewrite <- abs_IZR. apply IZR_le. lia. }
            eapply Rle_trans; [exact Rc|]; pose proof (bpow_gt_0 radix2 (-65)); nra. }
          apply Rle_trans with (bpow radix2 (-65) * 260); [apply Rmult_le_compat; assumption || apply Rabs_pos|]. replace (bpow radix2 (-56)) with (bpow radix2 (-65) * 512) by (change (-56)%Z with (-65 + 9)%Z; rewrite bpow_plus; reflexivity). pose proof (bpow_gt_0 radix2 (-65)). lra. }
        assert (bpow radix2 (-56) <= / 4) as B4 by (change (/ 4) with (bpow radix2 (-2)); apply bpow_le; lia). pose proof (bpow_gt_0 radix2 (-56)) as P54.
        pose proof (exp_rel _ _ Hd ltac:(lra)) as Hx'. assert (0 < r) as Pr by apply exp_pos. set (q := exp ((c - / IZR j) * ln x)) in *.
        rewrite Ee in Hz. assert (Rabs q <= 2) as Bq. { apply Rabs_le_inv in Hx'. apply Rabs_le. lra. }
        rewrite Rabs_mult in Hz. replace (z - r) with ((z - r * q) + r * (q - 1)) by ring. eapply Rle_trans; [apply Rabs_triang|]. rewrite (Rabs_mult r (q - 1)).
        rewrite (Rabs_pos_eq r) in * by lra. assert (bpow radix2 (-62) * (r * Rabs q) <= bpow radix2 (-56) * (r * 2)).
        { apply Rmult_le_compat; [apply bpow_ge_0|apply Rmult_le_pos; [lra|apply Rabs_pos]|apply bpow_le; lia|apply Rmult_le_compat_l; lra]. }
        replace (bpow radix2 (-54)) with (4 * bpow radix2 (-56)) by (change (-54)%Z with (2 + -56)%Z; rewrite bpow_plus; reflexivity). assert (r * Rabs (q - 1) <= r * (2 * bpow radix2 (-56))) by (apply Rmult_le_compat_l; lra). nra.
    - exists 0. split.
      + split; [assumption|]. split; [lia|]. split; [|lra]. rewrite E0. destruct j as [|p|p]; try lia. cbn [powerRZ]. apply pow_i. lia.
      + rewrite E0 in Hx. apply value_zero_iff in Hx; try assumption. rewrite (Zv E0). unfold root_float, cpow. rewrite Hx. change (0 =? 0)%Z with true. cbn [negb]. rewrite andb_false_r.
        destruct (c_pow_zero_pos lm C f80 false _ Fc ltac:(rewrite Vc; apply Pc; assumption)) as [F0 V0]. exists 0. split; [split; assumption|]. left. rewrite Rminus_0_r, Rabs_R0. lra.
    - assert (win 260 x) as Wx by (destruct (arg_rng _ _ Av); [lra|assumption]).
      assert (c = IZR j /\ powerRZ (powerRZ x j) j = x) as [Ec Ep].
      { destruct Hj1 as [-> | ->]; [split; [apply C1; reflexivity|]|split; [apply Cm1; reflexivity|]]; cbn [powerRZ]; change (Pos.to_nat 1) with 1%nat; rewrite !pow_1; [reflexivity|]. apply Rinv_inv. }
      pose proof (c_pow_int lm C f80 a _ j Fv Fc ltac:(rewrite Vv; assumption) ltac:(rewrite Vc; exact Ec)) as Cl. rewrite Vv in Cl.
      assert (powerRZ x j < 0) as Np by (apply odd_sign; [assumption|destruct Hj1 as [-> | ->]; discriminate]).
      assert (win 300 (powerRZ x j)) as Wr. { apply (win_weaken 260); [|lia]. destruct Hj1 as [-> | ->]; cbn [powerRZ]; change (Pos.to_nat 1) with 1%nat; rewrite pow_1; [assumption|apply win_inv; assumption]. }
      destruct (Id _ (Rlt_not_eq _ _ Np) Cl Wr) as (z & Iz & Hz). exists (powerRZ x j). split; [split; [assumption|]; split; [lra|]; split; [assumption|lra]|].
      exists z. split; [assumption|]. left. eapply Rle_trans; [exact Hz|]. apply Rmult_le_compat_r; [apply Rabs_pos|apply bpow_le; lia]. }
  destruct (good_from Linear (bits w) (bpow radix2 (-54)) f80 r _ (lin_from_ld x86_64 w) (bpow_ge_0 radix2 (-54)) ltac:(lia) (fun z Fz => from_near lm Linear (bits w) f80 _ z C w80 (fe80 _ _) (from_float_lin lm _ _ _ (lin_ld_from w)) Fz) G) as (t' & z & E & Bz & Rz).
  exists t'. split; [assumption|]. exists r, z. split; [assumption|]. split; assumption.
Qed.

(** exactly where linear roots are NaR *)
Theorem root_nar_iff : forall w t j, is_intn (bits w) t -> (- 2 ^ 63 <= j < 2 ^ 63)%Z ->
  (api_root Linear lm w t j = Val (nar (bits w)) <-> t = nar (bits w) \/ j = 0%Z \/ (t < 0 /\ j <> 1 /\ j <> -1)%Z \/ (t = 0 /\ j < 0)%Z).
Proof.
  intros w t j It Hj. assert (8 <= bits w <= 64)%Z as Hn by (destruct w; simpl; lia). split.
  - intros E. destruct (Z.eq_dec t (nar (bits w))) as [Q|Q]; [left; assumption|right]. destruct (val_cases Linear (bits w) t It Hn) as [[K _]|(x & Hx)]; [contradiction|].
    destruct (Z.eq_dec j 0) as [J|J]; [left; assumption|right]. pose proof (value_sign Linear (bits w) t x It Hn Hx) as Sx.
    assert ((0 < x /\ j <> 0%Z) \/ (x = 0 /\ (0 < j)%Z) \/ (x < 0 /\ (j = 1 \/ j = -1)%Z) -> False) as NO.
    { intros OK. destruct (root_computes w t j x It Hj Hx OK) as (t' & E' & (? & z & _ & _ & [Rz _])). rewrite E in E'. injection E' as <-. eapply faithful_not_nar; [|exact Rz]. lia. }
    destruct (Rtotal_order x 0) as [N|[E0|P]].
    + left. split; [tauto|]. split; intros J'; apply NO; right; right; tauto.
    + right. split; [rewrite E0 in Hx; eapply value_zero_iff; eassumption|]. destruct (Z_lt_ge_dec j 0); [assumption|]. exfalso. apply NO. right. left. split; [assumption|lia].
    + exfalso. apply NO. left. split; assumption.
  - intros H. destruct (Z.eq_dec j 0) as [-> | Nj].
    { cbn [api_root]. unfold takum_linear_root. cbn [Z.eqb orb]. destruct w; reflexivity. }
    destruct (Z.eq_dec t (nar (bits w))) as [-> | Nt]; [apply root_nar_; assumption|].
    destruct H as [H|[H|H]]; [contradiction|contradiction|].
    destruct (Z_lt_dec t 0) as [Neg|Pos].
    + assert (j <> 1 /\ j <> -1)%Z as [J1 J2] by (destruct H as [H|H]; lia).
      destruct (Z.eq_dec (Z.rem j 2) 0) as [Ev|Od].
      * cbn [api_root]. unfold takum_linear_root. replace ((t <? 0)%Z && (Z.rem j 2 =? 0)%Z) with true by (symmetry; apply root_even; split; assumption). rewrite orb_true_r. destruct w; reflexivity.
      * destruct (root_shape w t j It Nj ltac:(tauto)) as (a & Oa & ->).
        destruct (val_cases Linear (bits w) t It Hn) as [[K _]|(x & Hx)]; [contradiction|]. rewrite Hx in Oa. destruct Oa as (v & Iv & Av & _ & _).
        assert (v < 0) as Nv by (apply (arg_sign _ _ Av); apply (value_sign Linear (bits w) t x It Hn Hx); assumption).
        destruct (recip_int j Hj Nj) as (c & Ic & _ & _ & _ & _ & _ & Ch & _). specialize (Ch J1 J2). destruct Iv as [Fv Vv], Ic as [Fc Vc].
        unfold root_float, cpow. rewrite (c_pow_nonint lm C f80 a _ Fv Fc); [|rewrite Vv; assumption|intros m; rewrite Vc; apply nonint_01; lra].
        change (feq B754_nan (fzero f80)) with false. apply (lin_from_nan _ _ _ (lin_ld_from w)).
    + assert (t = 0 /\ j < 0)%Z as [-> Nj'] by (destruct H as [H|H]; lia).
      destruct (root_shape w 0 j It Nj ltac:(lia)) as (a & Oa & ->). rewrite value_0 in Oa. destruct Oa as (v & Iv & Av & _ & Zv). rewrite (Zv (proj2 (proj2 (arg_sign _ _ Av)) eq_refl)).
      destruct (recip_int j Hj Nj) as (c & Ic & _ & _ & _ & _ & Nc & _ & _). destruct Ic as [Fc Vc]. pose proof (c_pow_zero_neg lm C f80 false _ Fc ltac:(rewrite Vc; apply Nc; assumption)) as K.
      unfold root_float, cpow. rewrite andb_false_r. apply (from_float_nar lm Linear (bits w) f80); [apply from_float_lin; apply lin_ld_from|].
      destruct (lib2 lm Fpow f80 (B754_zero false) (fdiv (one f80) (fint f80 j))); try discriminate; reflexivity.
Qed.
End Ipow.

(** odd roots of negative numbers exist but are not computed *)
Lemma powerRZ_neg_odd : forall p j, Z.odd j = true -> powerRZ (- p) j = - powerRZ p j.
Proof.
  assert (forall p m, Z.odd (Z.of_nat m) = true -> (- p) ^ m = - p ^ m) as P.
  { intros p m Hm. apply Zodd_bool_iff in Hm. apply Zodd_ex_iff in Hm. destruct Hm as [q Hq]. assert (m = (2 * Z.to_nat q + 1)%nat) as -> by lia. rewrite !pow_add, !pow_mult, !pow_1. replace ((- p) ^ 2) with (p ^ 2) by ring. ring. }
  intros p j Hj. destruct j as [|q|q]; [discriminate| |]; cbn [powerRZ].
  - apply P. rewrite positive_nat_Z. assumption.
  - rewrite P by (rewrite positive_nat_Z, <- Z.odd_opp; assumption). apply Rinv_opp.
Qed.
Lemma odd_root_exists : forall x j, x < 0 -> Z.odd j = true -> exists r, is_root j x r.
Proof.
  intros x j Nx Hj. assert (j <> 0%Z) as Nj by (intros ->; discriminate). assert (IZR j <> 0) by (apply not_0_IZR; assumption).
  pose proof (exp_pos (/ IZR j * ln (- x))) as P. exists (- exp (/ IZR j * ln (- x))). split; [assumption|]. split; [lra|]. split; [|lra].
  rewrite powerRZ_neg_odd by assumption. rewrite powerRZ_Rpower by assumption. unfold Rpower. rewrite ln_exp. replace (IZR j * (/ IZR j * ln (- x))) with (ln (- x)) by (field; assumption). rewrite exp_ln by lra. ring.
Qed.
Theorem odd_root_wrong : forall lm w t j x, c99 lm -> is_intn (bits w) t -> is_int64 j -> value Linear (bits w) t = Some x -> x < 0 -> Z.odd j = true -> j <> 1%Z -> j <> (-1)%Z ->
  (exists r, is_root j x r) /\ api_root Linear lm w t j = Val (nar (bits w)).
Proof.
  intros lm w t j x C It Hj Hx Nx Ho J1 J2. split; [apply odd_root_exists; assumption|]. apply (root_nar_iff lm C); [assumption|assumption|]. right. right. left. split; [|split; assumption].
  apply (value_sign Linear (bits w) t x It); [destruct w; simpl; lia|assumption|assumption].
Qed.
