(** The squares of sine and cosine add up to one, up to an error (C117). *)
From Coq Require Import ZArith Reals Bool Lia Lra.
From Flocq Require Import Core.Core.
From Verif Require Import CModel FloatModel Spec CodeFacts SpecFacts ValueFacts RoundFacts WidthFacts Libm LibmSpec LinApi LinArith Wrappers WrapApi WrapSpec Faithful RangeFacts Exactly Octant ErrorSpec ErrorProps Sums Horner TwoSum Sterbenz InverseFun.
Local Open Scope R_scope.

Lemma log2_pred : forall k, (1 <= k)%Z -> (Z.log2 k <= k - 1)%Z.
Proof. intros k Hk. assert (Z.log2 k < k)%Z; [|lia]. apply Z.log2_lt_lin. lia. Qed.
(** the absolute error of a result between -2 and 2 *)
Lemma unit_step : forall n z t, std_width n -> n <> 8%Z -> rounds_faithfully Linear n z t -> Rabs z < 2 ->
  exists v, value Linear n t = Some v /\ Rabs (v - z) <= bpow radix2 (- (n - 5)) * Rmax 1 (Rabs z).
Proof.
  intros n z t Sw N8 F Hz. assert (16 <= n <= 64)%Z as Hn by (unfold std_width in Sw; lia). pose proof (bpow_gt_0 radix2 (- (n - 5))) as Pb. pose proof (Rmax_l 1 (Rabs z)) as M1. pose proof (Rmax_r 1 (Rabs z)) as M2. pose proof (Rabs_pos z) as Pz.
  destruct (Rle_or_lt (bpow radix2 (-254)) (Rabs z)) as [K|K].
  - assert (Rabs z < bpow radix2 254) as K' by (eapply Rlt_trans; [exact Hz|]; change 2 with (bpow radix2 1); apply bpow_lt; lia).
    destruct (lin_exponent z (conj K K')) as (e & He & Be).
    destruct (faithful_error _ _ _ _ Sw N8 F e He Be) as (v & V & Q). exists v. split; [assumption|]. eapply Rle_trans; [exact Q|].
    simpl in He. rewrite !powerRZ_bpow in *. assert (e < 1)%Z as E1 by (apply (lt_bpow radix2); eapply Rle_lt_trans; [apply He|]; exact Hz).
    unfold fraction_bits. rewrite Z.add_0_r. destruct (Z.ltb_spec e 0).
    + pose proof (log2_pred (- e) ltac:(lia)) as L.
      assert (bpow radix2 (- (n - 5 - Z.log2 (- e))) * Rabs z <= bpow radix2 (- (n - 5 - Z.log2 (- e))) * bpow radix2 (e + 1)) as A by (apply Rmult_le_compat_l; [apply bpow_ge_0|lra]).
      rewrite <- bpow_plus in A. assert (bpow radix2 (- (n - 5 - Z.log2 (- e)) + (e + 1)) <= bpow radix2 (- (n - 5))) by (apply bpow_le; lia). nra.
    + assert (e = 0)%Z as -> by lia. change (Z.log2 (0 + 1)) with 0%Z. rewrite Z.sub_0_r. apply Rmult_le_compat_l; lra.
  - destruct (faithful_step n z t Sw N8 F) as (v & V & Q).
    { eapply Rlt_trans; [exact K|]. apply bpow_lt. lia. }
    exists v. split; [assumption|]. eapply Rle_trans; [exact Q|].
    pose proof (roundoff_small n 0 ltac:(lia) ltac:(lia)) as U. pose proof (roundoff_pos n 0) as U0.
    assert (2 * bpow radix2 (-254) <= bpow radix2 (- (n - 5))) as B by (change (2 * bpow radix2 (-254)) with (bpow radix2 1 * bpow radix2 (-254)); rewrite <- bpow_plus; apply bpow_le; lia).
    nra.
Qed.
(** the square of a rounded number of magnitude at most one *)
Lemma square_step : forall n f z t, std_width n -> n <> 8%Z -> linear_multiplication n f -> is_intn n t -> rounds_faithfully Linear n z t -> Rabs z <= 1 ->
  exists p v, f t t = Val p /\ is_intn n p /\ value Linear n p = Some v /\ Rabs (v - z * z) <= 3 * bpow radix2 (- (n - 5)).
Proof.
  intros n f z t Sw N8 Hf It F Hz. destruct (unit_step n z t Sw N8 F ltac:(lra)) as (v & V & Q). rewrite (Rmax_left 1) in Q by assumption. rewrite Rmult_1_r in Q.
  assert (Rabs v <= 1) as Hv.
  { destruct (between n z t Sw F) as (v' & V' & B). assert (v' = v) as -> by congruence. assert (has_takum Linear n 1) as T1.
    { change 1 with (bpow radix2 0). apply TwoSum.bpow_takum; [assumption|assumption|lia]. }
    apply Rabs_le_inv in Hz. destruct (B 1 T1) as [B1 _]. destruct (B (-1)) as [_ B2]; [replace (-1) with (- (1)) by lra; apply Sterbenz.has_takum_opp; assumption|].
    apply Rabs_le. split; [apply B2; lra|apply B1; lra]. }
  destruct (mul_lin_faithful n f Hf t t It It) as (p & Ep & Ip & Fp). rewrite V in Fp. apply Rabs_le_inv in Hz, Hv. apply Rabs_le_inv in Q.
  assert (Rabs (v * v) <= 1) as Hvv by (rewrite Rabs_pos_eq by nra; nra).
  destruct (unit_step n (v * v) p Sw N8 Fp ltac:(lra)) as (s & Vs & Qs). rewrite (Rmax_left 1) in Qs by assumption. rewrite Rmult_1_r in Qs.
  exists p, s. split; [assumption|]. split; [assumption|]. split; [assumption|]. pose proof (bpow_gt_0 radix2 (- (n - 5))) as P. set (e := bpow radix2 (- (n - 5))) in *. clearbody e.
  assert (Rabs (v * v - z * z) <= 2 * e) as D.
  { replace (v * v - z * z) with ((v - z) * (v + z)) by ring. rewrite Rabs_mult. rewrite Rmult_comm. apply Rmult_le_compat; try apply Rabs_pos; apply Rabs_le; lra. }
  replace (s - z * z) with ((s - v * v) + (v * v - z * z)) by ring. eapply Rle_trans; [apply Rabs_triang|]. lra.
Qed.
Lemma pythagoras : forall lm w t x f g, c99 lm -> (w = W16 \/ w = W32) -> linear_multiplication (bits w) f -> linear_addition (bits w) g ->
  is_intn (bits w) t -> value Linear (bits w) t = Some x ->
  exists s c s2 c2 r v, api_unary Linear lm n_sin w t = Val s /\ api_unary Linear lm n_cos w t = Val c /\ f s s = Val s2 /\ f c c = Val c2 /\ g s2 c2 = Val r /\
    value Linear (bits w) r = Some v /\ Rabs (v - 1) <= powerRZ 2 (- (bits w - 8)).
Proof.
  intros lm w t x f g C Hw Hf Hg It V. destruct (narrow_width w Hw) as (Sw & N8 & Hn & N64).
  destruct (unary_faithful lm n_sin w t x C N64 eq_refl It V (conj I I)) as (s & Es & Fs). destruct (unary_faithful lm n_cos w t x C N64 eq_refl It V (conj I I)) as (c & Ec & Fc). simpl in Fs, Fc.
  assert (Rabs (sin x) <= 1) as Bs by (apply Rabs_le, SIN_bound). assert (Rabs (cos x) <= 1) as Bc by (apply Rabs_le, COS_bound).
  destruct (square_step _ f _ s Sw N8 Hf (faithful_intn _ _ _ _ Sw Fs) Fs Bs) as (s2 & vs & E2 & I2 & V2 & Q2).
  destruct (square_step _ f _ c Sw N8 Hf (faithful_intn _ _ _ _ Sw Fc) Fc Bc) as (c2 & vc & E3 & I3 & V3 & Q3).
  destruct (add_faithful _ g Hg s2 c2 I2 I3) as (r & Er & Ir & Fr). rewrite V2, V3 in Fr.
  pose proof (sin2_cos2 x) as S. unfold Rsqr in S. set (e := bpow radix2 (- (bits w - 5))) in *.
  assert (0 < e <= / 2048) as He by (split; [apply bpow_gt_0|]; unfold e; change (/ 2048) with (bpow radix2 (-11)); apply bpow_le; lia).
  apply Rabs_le_inv in Q2, Q3. assert (1 - 6 * e <= vs + vc <= 1 + 6 * e) as B by lra.
  destruct (unit_step _ (vs + vc) r Sw N8 Fr) as (v & Vr & Qr). { rewrite Rabs_pos_eq by lra. lra. }
  exists s, c, s2, c2, r, v. do 6 (split; [assumption|]). rewrite powerRZ_bpow. replace (- (bits w - 8))%Z with (3 + - (bits w - 5))%Z by lia. rewrite bpow_plus. change (bpow radix2 3) with 8. fold e in Qr |- *.
  rewrite (Rabs_pos_eq (vs + vc)) in Qr by lra. assert (Rmax 1 (vs + vc) <= 1 + 6 * e) as M by (apply Rmax_lub; lra). apply Rabs_le_inv in Qr.
  pose proof (Rmax_l 1 (vs + vc)). clearbody e. assert (e * Rmax 1 (vs + vc) <= e * 2) by (apply Rmult_le_compat_l; lra). apply Rabs_le. lra.
Qed.
