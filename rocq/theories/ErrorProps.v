(** Relative errors of rounded results (C101). *)
From Coq Require Import ZArith Reals Bool Lia Lra.
From Flocq Require Import Core.Core.
From Verif Require Import CModel FloatModel WidthConv Spec CodeFacts SpecFacts ValueFacts RoundFacts WidthFacts WidthApi WidthProps Machine LogApi LogProps LinOps LinApi LinArith MiscProps WidthSteps RangeFacts Exactly Sterbenz ErrorSpec.
Local Open Scope R_scope.

(** the takums around L *)
Lemma grid : forall n L h, (12 <= n <= 64)%Z -> (-254 <= h < 254)%Z -> IZR h <= L < IZR h + 1 ->
  let p := fraction_bits n h in
  exists g, g <= L < g + bpow radix2 (- p) /\ IZR h <= g /\ g + bpow radix2 (- p) <= IZR h + 1 /\
    (exists u, (0 < u < 2 ^ (n - 1))%Z /\ cpm n u = g) /\ (exists u, (0 < u < 2 ^ (n - 1))%Z /\ cpm n u = g + bpow radix2 (- p)).
Proof.
  intros n L h Hn Hh HL p. destruct (regc_bound h ltac:(lia)) as [Rh _].
  assert (p = n - 5 - regc h)%Z as Ep by (unfold p, fraction_bits; rewrite regc_eq by lia; reflexivity).
  assert (0 <= p)%Z as P0 by lia. pose proof (bpow_gt_0 radix2 p) as Pp. pose proof (bpow_gt_0 radix2 (- p)) as Pm.
  assert (bpow radix2 p * bpow radix2 (- p) = 1) as PP by (rewrite <- bpow_plus; replace (p + - p)%Z with 0%Z by lia; reflexivity).
  set (j := Zfloor (L * bpow radix2 p)). pose proof (Zfloor_lb (L * bpow radix2 p)) as F1. pose proof (Zfloor_ub (L * bpow radix2 p)) as F2. fold j in F1, F2.
  assert (h * 2 ^ p <= j)%Z as J1 by (apply Zfloor_lub; rewrite mult_IZR, IZR_pow2 by lia; nra).
  assert (j + 1 <= (h + 1) * 2 ^ p)%Z as J2.
  { assert (j < (h + 1) * 2 ^ p)%Z; [|lia]. apply lt_IZR. rewrite mult_IZR, plus_IZR, IZR_pow2 by lia. nra. }
  apply IZR_le in J1, J2. rewrite mult_IZR, IZR_pow2 in J1 by lia. rewrite mult_IZR, !plus_IZR, IZR_pow2 in J2 by lia.
  exists (IZR j * bpow radix2 (- p)).
  assert (IZR j * bpow radix2 (- p) <= L) as A1 by (replace L with (L * bpow radix2 p * bpow radix2 (- p)) by (rewrite Rmult_assoc, PP; ring); nra).
  assert (L < IZR j * bpow radix2 (- p) + bpow radix2 (- p)) as A2 by (replace L with (L * bpow radix2 p * bpow radix2 (- p)) by (rewrite Rmult_assoc, PP; ring); nra).
  assert (IZR h <= IZR j * bpow radix2 (- p)) as A3 by (replace (IZR h) with (IZR h * bpow radix2 p * bpow radix2 (- p)) by (rewrite Rmult_assoc, PP; ring); nra).
  assert (IZR j * bpow radix2 (- p) + bpow radix2 (- p) <= IZR h + 1) as A4.
  { replace (IZR h + 1) with ((IZR h + 1) * bpow radix2 p * bpow radix2 (- p)) by (rewrite Rmult_assoc, PP; ring). nra. }
  assert (-254 <= IZR h <= 253) as Bh by (split; apply IZR_le; lia).
  split; [lra|]. split; [assumption|]. split; [assumption|]. split.
  - apply (rep_regime n _ j p); [lia|lra| |reflexivity]. rewrite (Zfloor_imp h) by (rewrite plus_IZR; lra). fold (regc h). lia.
  - destruct (Rle_lt_or_eq_dec _ _ A4) as [K|K].
    + apply (rep_regime n _ (j + 1) p); [lia|lra| |rewrite plus_IZR; ring]. rewrite (Zfloor_imp h) by (rewrite plus_IZR; lra). fold (regc h). lia.
    + rewrite K. apply (rep_regime n _ (h + 1) 0); [lia|lra| |rewrite plus_IZR; change (bpow radix2 (- 0)) with 1; ring].
      rewrite <- (plus_IZR h 1), Zfloor_IZR. fold (regc (h + 1)). destruct (regc_bound (h + 1) ltac:(lia)) as [R1 _]. lia.
Qed.

Lemma exponent_coord : forall k z h, has_exponent k z h -> z <> 0 /\ IZR h <= coord k z < IZR h + 1.
Proof.
  intros k z h H. destruct k; simpl in H |- *.
  - assert (z <> 0) as Nz by (intros ->; rewrite Rabs_R0 in H; pose proof (exp_pos (IZR h / 2)); lra). split; [assumption|].
    unfold log_coord. pose proof (Rabs_pos_lt z Nz) as Pz. destruct H as [H1 H2]. split.
    + destruct H1 as [H1|H1]; [apply ln_increasing in H1; [|apply exp_pos]|apply (f_equal ln) in H1]; rewrite ln_exp in H1; lra.
    + apply ln_increasing in H2; [|assumption]. rewrite ln_exp in H2. lra.
  - assert (powerRZ 2 h = bpow radix2 h) as E1 by (symmetry; exact (bpow_powerRZ radix2 h)).
    assert (powerRZ 2 (h + 1) = bpow radix2 (h + 1)) as E2 by (symmetry; exact (bpow_powerRZ radix2 (h + 1))). rewrite E1, E2 in H. clear E1 E2.
    assert (z <> 0) as Nz by (intros ->; rewrite Rabs_R0 in H; pose proof (bpow_gt_0 radix2 h); lra). split; [assumption|].
    unfold lin_coord. rewrite (mag_unique radix2 z (h + 1)) by (replace (h + 1 - 1)%Z with h by lia; assumption). replace (h + 1 - 1)%Z with h by lia.
    pose proof (bpow_gt_0 radix2 h) as Ph. rewrite bpow_plus in H. change (bpow radix2 1) with 2 in H.
    assert (1 <= Rabs z / bpow radix2 h < 2); [|lra].
    split; [apply (Rmult_le_reg_r (bpow radix2 h)); [assumption|]|apply (Rmult_lt_reg_r (bpow radix2 h)); [assumption|]]; unfold Rdiv; rewrite Rmult_assoc, Rinv_l by lra; lra.
Qed.

Lemma Lin_binade : forall h x, IZR h <= x <= IZR h + 1 -> Lin x = (1 + x - IZR h) * bpow radix2 h.
Proof.
  intros h x [H1 H2]. destruct H2 as [H2| ->].
  - unfold Lin. rewrite (Zfloor_imp h) by (rewrite plus_IZR; lra). ring.
  - rewrite <- (plus_IZR h 1), Lin_bpow, bpow_plus, plus_IZR. change (bpow radix2 1) with 2. ring.
Qed.
Lemma exp_half : forall d, 0 <= d <= / 2 -> exp d - 1 <= 2 * d.
Proof.
  intros d [D0 D1]. pose proof (exp_ineq1_le (- d)) as H. assert (exp d * exp (- d) = 1) as E by (rewrite <- exp_plus; replace (d + - d) with 0 by ring; apply exp_0).
  pose proof (exp_pos d) as P. assert (exp d * (1 - d) <= 1) by nra. nra.
Qed.
Lemma E_close : forall k h x y, IZR h <= x <= IZR h + 1 -> IZR h <= y <= IZR h + 1 -> Rabs (E k x - E k y) <= Rabs (x - y) * E k y.
Proof.
  intros k h x y Hx Hy. destruct k; simpl E.
  - assert (exp (x / 2) = exp (y / 2) * exp ((x - y) / 2)) as -> by (rewrite <- exp_plus; f_equal; lra).
    replace (exp (y / 2) * exp ((x - y) / 2) - exp (y / 2)) with ((exp ((x - y) / 2) - 1) * exp (y / 2)) by ring.
    pose proof (exp_pos (y / 2)) as P. rewrite Rabs_mult, (Rabs_pos_eq (exp (y / 2))) by lra. apply Rmult_le_compat_r; [lra|].
    destruct (Rle_or_lt y x) as [L|L].
    + rewrite (Rabs_pos_eq (x - y)) by lra. pose proof (exp_ineq1_le ((x - y) / 2)). rewrite Rabs_pos_eq by lra. pose proof (exp_half ((x - y) / 2) ltac:(lra)). lra.
    + rewrite (Rabs_left (x - y)) by lra. pose proof (exp_ineq1_le ((x - y) / 2)) as I. pose proof (exp_increasing ((x - y) / 2) 0 ltac:(lra)) as J. rewrite exp_0 in J.
      rewrite Rabs_left by lra. lra.
  - rewrite (Lin_binade h x Hx), (Lin_binade h y Hy). pose proof (bpow_gt_0 radix2 h) as P.
    replace ((1 + x - IZR h) * bpow radix2 h - (1 + y - IZR h) * bpow radix2 h) with ((x - y) * bpow radix2 h) by ring.
    rewrite Rabs_mult, (Rabs_pos_eq (bpow radix2 h)) by lra. apply Rmult_le_compat_l; [apply Rabs_pos|]. nra.
Qed.
Lemma error_from_coord : forall k n z t h d, std_width n -> z <> 0 -> is_real_takum n t -> has_sign (Rlt_bool z 0) t ->
  IZR h <= coord k z <= IZR h + 1 -> IZR h <= l_ n t <= IZR h + 1 -> Rabs (l_ n t - coord k z) <= d ->
  exists y, value k n t = Some y /\ Rabs (y - z) <= d * Rabs z.
Proof.
  intros k n z t h d Sw Nz R S Hz Ht Hd. pose proof (std_range n Sw).
  eexists. split; [apply (value_real n); [lia|assumption]|]. unfold has_sign in S.
  assert ((t <? 0)%Z = Rlt_bool z 0) as ->. { destruct (Rlt_bool z 0); [apply Z.ltb_lt|apply Z.ltb_ge]; lia. }
  pose proof (real_sg k z Nz) as Ez. pose proof (E_close k h _ _ Ht Hz) as C. rewrite (E_coord k z Nz) in C, Ez.
  assert (Rabs ((if Rlt_bool z 0 then -1 else 1) * E k (l_ n t) - z) = Rabs (E k (l_ n t) - Rabs z)) as ->.
  { rewrite Ez at 2. rewrite <- Rmult_minus_distr_l, Rabs_mult. destruct (Rlt_bool z 0); [rewrite Rabs_left by lra|rewrite Rabs_R1]; ring. }
  eapply Rle_trans; [exact C|]. apply Rmult_le_compat_r; [apply Rabs_pos|assumption].
Qed.

Lemma faithful_error : forall k n z t, std_width n -> n <> 8%Z -> rounds_faithfully k n z t -> relative_error k n 0 z t.
Proof.
  intros k n z t Sw N8 F h He Hh. destruct (exponent_coord k z h He) as [Nz Hc]. destruct F as [[K _]|[_ (R & S & F)]]; [contradiction|].
  assert (12 <= n <= 64)%Z as Hn by (unfold std_width in Sw; lia).
  destruct (grid n _ h Hn Hh Hc) as (g & Hg & B1 & B2 & R1 & R2). set (p := fraction_bits n h) in *.
  destruct (sg_opp_rep n (Rlt_bool z 0) g ltac:(lia) R1) as (t1 & T1 & S1 & L1). destruct (sg_opp_rep n (Rlt_bool z 0) _ ltac:(lia) R2) as (t2 & T2 & S2 & L2).
  assert (forall t', (t' <? 0)%Z = Rlt_bool z 0 -> is_real_takum n t' -> has_sign (Rlt_bool z 0) t') as HS.
  { intros t' H (_ & H0 & _). unfold has_sign. destruct (Rlt_bool z 0); lia. }
  destruct (F t1 T1 (HS t1 S1 T1)) as [F1 _]. destruct (F t2 T2 (HS t2 S2 T2)) as [_ F2]. rewrite L1 in F1. rewrite L2 in F2.
  assert (powerRZ 2 (- (p + 0)) = bpow radix2 (- p)) as ->. { rewrite Z.add_0_r. symmetry. exact (bpow_powerRZ radix2 (- p)). }
  assert (g <= l_ n t <= g + bpow radix2 (- p)) as B by (split; apply Rnot_lt_le; intro; [apply F1|apply F2]; lra).
  apply (error_from_coord k n z t h); try assumption; [lra|lra|]. apply Rabs_le. lra.
Qed.
Lemma rounds_error : forall k n z t, std_width n -> n <> 8%Z -> rounds k n z t -> relative_error k n 1 z t.
Proof.
  intros k n z t Sw N8 H h He Hh. pose proof (rounds_faithful k n z t Sw H) as F. destruct (exponent_coord k z h He) as [Nz Hc].
  destruct F as [[K _]|[_ (R & S & F)]]; [contradiction|]. destruct H as [[K _]|[_ (_ & _ & H)]]; [contradiction|].
  assert (12 <= n <= 64)%Z as Hn by (unfold std_width in Sw; lia).
  destruct (grid n _ h Hn Hh Hc) as (g & Hg & B1 & B2 & R1 & R2). set (p := fraction_bits n h) in *.
  destruct (sg_opp_rep n (Rlt_bool z 0) g ltac:(lia) R1) as (t1 & T1 & S1 & L1). destruct (sg_opp_rep n (Rlt_bool z 0) _ ltac:(lia) R2) as (t2 & T2 & S2 & L2).
  assert (forall t', (t' <? 0)%Z = Rlt_bool z 0 -> is_real_takum n t' -> has_sign (Rlt_bool z 0) t') as HS.
  { intros t' K (_ & H0 & _). unfold has_sign. destruct (Rlt_bool z 0); lia. }
  destruct (F t1 T1 (HS t1 S1 T1)) as [F1 _]. destruct (F t2 T2 (HS t2 S2 T2)) as [_ F2]. rewrite L1 in F1. rewrite L2 in F2.
  assert (powerRZ 2 (- (p + 1)) = bpow radix2 (- p) / 2) as ->.
  { transitivity (bpow radix2 (- p + -1)); [|rewrite bpow_plus; reflexivity]. replace (- p + -1)%Z with (- (p + 1))%Z by lia. symmetry. exact (bpow_powerRZ radix2 (- (p + 1))). }
  assert (g <= l_ n t <= g + bpow radix2 (- p)) as B by (split; apply Rnot_lt_le; intro; [apply F1|apply F2]; lra).
  apply (error_from_coord k n z t h); try assumption; [lra|lra|].
  destruct (H t1 T1 (HS t1 S1 T1)) as [H1 _]. destruct (H t2 T2 (HS t2 S2 T2)) as [H2 _]. rewrite L1 in H1. rewrite L2 in H2.
  destruct (Rle_or_lt (coord k z - g) (bpow radix2 (- p) / 2)).
  - eapply Rle_trans; [exact H1|]. rewrite Rabs_left1 by lra. lra.
  - eapply Rle_trans; [exact H2|]. rewrite Rabs_pos_eq by lra. lra.
Qed.
