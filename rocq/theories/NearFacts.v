(** Rounding a coordinate known up to a small error gives one of the two
    neighbours of the exact one. *)
From Coq Require Import ZArith Reals Bool Lia Lra.
From Flocq Require Import Core.Core IEEE754.BinarySingleNaN.
From Verif Require Import CModel FloatModel WidthConv Spec CodeFacts SpecFacts ValueFacts RoundFacts WidthFacts WidthApi WidthProps FloatFacts DecodeFacts EncodeFacts Machine LogFacts.
Local Open Scope R_scope.

(** ** Distances of neighbours *)
Lemma reg_bias : forall DR, (0 <= DR < 16)%Z ->
  (- 2 ^ (regZ DR + 1) + 1 <= biasZ DR)%Z /\ (biasZ DR + 2 ^ regZ DR <= 2 ^ (regZ DR + 1) - 1)%Z.
Proof. intros DR H. destruct (DR_cases DR H) as [-> | H']; [vm_compute; split; discriminate|]. repeat (destruct H' as [-> | H']; [vm_compute; split; discriminate|]). subst; vm_compute; split; discriminate. Qed.

Section Gap.
Variable n : Z.
Hypothesis Hn : (6 <= n <= 64)%Z.

Lemma cpm_step : forall v, (0 <= v)%Z -> (v + 1 < 2 ^ (n - 1))%Z -> exists g,
  cpm n (v + 1) - cpm n v = g /\ bpow radix2 (4 - n) * (Rabs (cpm n v) + 1) <= g /\ bpow radix2 (4 - n) * (Rabs (cpm n (v + 1)) + 1) <= g.
Proof.
  intros v V0 V1. destruct (u_split n Hn v ltac:(lia)) as (DR & y & Ev & Hy & HD).
  pose proof (cpm_affine n Hn DR y HD ltac:(lia) ltac:(lia)) as E1.
  pose proof (cpm_affine n Hn DR (y + 1) HD ltac:(lia) ltac:(lia)) as E2.
  replace (DR * 2 ^ (n - 5) + (y + 1))%Z with (v + 1)%Z in E2 by lia. rewrite <- Ev in E1.
  pose proof (regZ_bounds DR HD) as Hr. destruct (reg_bias DR HD) as [B1 B2].
  exists (bpow radix2 (regZ DR - (n - 5))).
  assert (forall z, (0 <= z <= 2 ^ (n - 5))%Z -> Rabs (IZR (biasZ DR) + IZR z * bpow radix2 (regZ DR - (n - 5))) + 1 <= bpow radix2 (regZ DR + 1)) as K.
  { intros z Hz. apply IZR_le in B1, B2. rewrite !plus_IZR, opp_IZR, !IZR_pow2 in B1 by lia. rewrite minus_IZR, plus_IZR, !IZR_pow2 in B2 by lia.
    assert (0 <= IZR z * bpow radix2 (regZ DR - (n - 5)) <= bpow radix2 (regZ DR)) as [Z1 Z2].
    { split; [apply Rmult_le_pos; [apply IZR_le; lia|apply bpow_ge_0]|].
      replace (bpow radix2 (regZ DR)) with (bpow radix2 (n - 5) * bpow radix2 (regZ DR - (n - 5))) by (rewrite <- bpow_plus; f_equal; lia).
      apply Rmult_le_compat_r; [apply bpow_ge_0|]. rewrite <- IZR_pow2 by lia. apply IZR_le. lia. }
    assert (Rabs (IZR (biasZ DR) + IZR z * bpow radix2 (regZ DR - (n - 5))) <= bpow radix2 (regZ DR + 1) - 1); [|lra].
    apply Rabs_le. lra. }
  assert (forall r, r + 1 <= bpow radix2 (regZ DR + 1) -> bpow radix2 (4 - n) * (r + 1) <= bpow radix2 (regZ DR - (n - 5))) as J.
  { intros r H. replace (regZ DR - (n - 5))%Z with (4 - n + (regZ DR + 1))%Z by lia. rewrite bpow_plus. apply Rmult_le_compat_l; [apply bpow_ge_0|assumption]. }
  rewrite E1, E2. split; [rewrite plus_IZR; ring|]. split; apply J; apply K; lia.
Qed.

Lemma cpm_gap : forall u v, (0 <= u < v)%Z -> (v < 2 ^ (n - 1))%Z ->
  bpow radix2 (4 - n) * (Rabs (cpm n u) + 1) <= cpm n v - cpm n u /\
  bpow radix2 (4 - n) * (Rabs (cpm n v) + 1) <= cpm n v - cpm n u.
Proof.
  intros u v Hu Hv. destruct (cpm_step u ltac:(lia) ltac:(lia)) as (g & E & A & _). destruct (cpm_step (v - 1) ltac:(lia) ltac:(lia)) as (h & E' & _ & B).
  replace (v - 1 + 1)%Z with v in * by lia.
  pose proof (cpm_le n Hn (u + 1) v ltac:(lia) ltac:(lia)). pose proof (cpm_le n Hn u (v - 1) ltac:(lia) ltac:(lia)). lra.
Qed.

Lemma l_gap : forall t t', is_real_takum n t -> is_real_takum n t' -> (t <? 0)%Z = (t' <? 0)%Z -> l_ n t < l_ n t' ->
  bpow radix2 (4 - n) * (Rabs (l_ n t) + 1) <= l_ n t' - l_ n t /\ bpow radix2 (4 - n) * (Rabs (l_ n t') + 1) <= l_ n t' - l_ n t.
Proof.
  intros t t' Ht Ht' Es. rewrite !l_sg_cpm, <- Es by assumption.
  pose proof (real_low_pos n t ltac:(lia) Ht) as B. pose proof (real_low_pos n t' ltac:(lia) Ht') as B'.
  rewrite !Rabs_mult, !sg_abs, !Rmult_1_l. unfold sg. destruct (t <? 0)%Z; intros H.
  - assert (low n t' < low n t)%Z as L by (apply (cpm_lt_iff n Hn); [lia|lia|lra]).
    destruct (cpm_gap _ _ (conj (Z.lt_le_incl _ _ (proj1 B')) L) ltac:(lia)). split; lra.
  - assert (low n t < low n t')%Z as L by (apply (cpm_lt_iff n Hn); [lia|lia|lra]).
    destruct (cpm_gap _ _ (conj (Z.lt_le_incl _ _ (proj1 B)) L) ltac:(lia)). split; lra.
Qed.

(** ** Rounding near L *)
Lemma has_sign_ltb : forall s t, has_sign s t -> t <> 0%Z -> (t <? 0)%Z = s.
Proof. intros [] t H N; simpl in H; [apply Z.ltb_lt|apply Z.ltb_ge]; lia. Qed.

Lemma near_faithful : forall s L L' t, Rabs (L' - L) < bpow radix2 (3 - n) * (Rabs L + 1) -> nearest n s L' t -> faithful n s L t.
Proof.
  intros s L L' t He (Ht & Hs & Hb). split; [assumption|]. split; [assumption|]. intros t' Ht' Hs'.
  destruct (Hb t' Ht' Hs') as [Hd _].
  assert ((t <? 0)%Z = (t' <? 0)%Z) as Es by (rewrite (has_sign_ltb s t), (has_sign_ltb s t'); auto; [apply Ht'|apply Ht]).
  replace (3 - n)%Z with (4 - n - 1)%Z in He by lia. set (k := bpow radix2 (4 - n - 1)) in *.
  assert (bpow radix2 (4 - n) = 2 * k) as Ek.
  { unfold k. replace (4 - n)%Z with (1 + (4 - n - 1))%Z at 1 by lia. rewrite bpow_plus. reflexivity. }
  assert (0 < k <= 1 / 4) as Kb. { split; [apply bpow_gt_0|]. change (1 / 4) with (1 / IZR (2 ^ 2)). unfold k. replace (1 / IZR (2 ^ 2)) with (bpow radix2 (-2)) by (simpl; lra). apply bpow_le. lia. }
  split; intros [H1 H2].
  - destruct (l_gap t t' Ht Ht' Es H1) as [_ G]. rewrite Ek in G.
    apply Rabs_def2 in He as [_ He]. 
    assert (l_ n t' - k * (Rabs (l_ n t') + 1) <= L - k * (Rabs L + 1)).
    { assert (Rabs L <= Rabs (l_ n t') + (L - l_ n t')). { pose proof (Rabs_triang (l_ n t') (L - l_ n t')) as T. replace (l_ n t' + (L - l_ n t')) with L in T by ring. rewrite (Rabs_pos_eq (L - _)) in T by lra. exact T. }
      nra. }
    assert (L' > (l_ n t + l_ n t') / 2) by lra.
    assert (Rabs (l_ n t' - L') < Rabs (l_ n t - L')); [|lra]. rewrite (Rabs_left1 (l_ n t - L')) by lra. apply Rabs_def1; lra.
  - destruct (l_gap t' t Ht' Ht (eq_sym Es) H2) as [G _]. rewrite Ek in G.
    apply Rabs_def2 in He as [He _].
    assert (L + k * (Rabs L + 1) <= l_ n t' + k * (Rabs (l_ n t') + 1)).
    { assert (Rabs L <= Rabs (l_ n t') + (l_ n t' - L)). { pose proof (Rabs_triang (l_ n t') (L - l_ n t')) as T. replace (l_ n t' + (L - l_ n t')) with L in T by ring. rewrite (Rabs_left1 (L - _)) in T by lra. lra. }
      nra. }
    assert (L' < (l_ n t + l_ n t') / 2) by lra.
    assert (Rabs (l_ n t' - L') < Rabs (l_ n t - L')); [|lra]. rewrite (Rabs_pos_eq (l_ n t - L')) by lra. apply Rabs_def1; lra.
Qed.

(** a coordinate that is close to that of a takum rounds to it *)
Lemma near_self : forall t L', is_real_takum n t -> Rabs (L' - l_ n t) < bpow radix2 (3 - n) * (Rabs (l_ n t) + 1) ->
  forall t', nearest n (t <? 0)%Z L' t' -> t' = t.
Proof.
  intros t L' Ht He t' Hn'. pose proof (near_faithful _ _ _ _ He Hn') as (Ht' & Hs' & F).
  assert (has_sign (t <? 0)%Z t) as Hs. { destruct (Z.ltb_spec t 0); simpl; [assumption|]. destruct Ht as (_ & N & _). lia. }
  destruct (F t Ht Hs) as [F1 F2].
  assert (l_ n t' = l_ n t) as E by lra.
  rewrite !l_sg_cpm in E by assumption. rewrite (has_sign_ltb _ _ Hs') in E by apply Ht'.
  assert (cpm n (low n t') = cpm n (low n t)) as E2 by (unfold sg in E; destruct (t <? 0)%Z; lra).
  pose proof (real_low_pos n t ltac:(lia) Ht) as B. pose proof (real_low_pos n t' ltac:(lia) Ht') as B'.
  assert (low n t' = low n t) as E3.
  { destruct (Z.lt_trichotomy (low n t') (low n t)) as [K|[K|K]]; [|assumption|]; apply (cpm_lt_iff n Hn) in K; try lia; lra. }
  rewrite <- (asm_low n t), <- (asm_low n t'), E3 by (apply Ht || apply Ht' || lia).
  rewrite (has_sign_ltb _ _ Hs') by apply Ht'. reflexivity.
Qed.

Lemma cpm_gap0 : forall u v, (0 <= u < v)%Z -> (v < 2 ^ (n - 1))%Z -> bpow radix2 (5 - n) <= cpm n v - cpm n u.
Proof.
  intros u v Hu Hv. destruct (u_split n Hn u ltac:(lia)) as (DR & y & Ev & Hy & HD).
  pose proof (cpm_affine n Hn DR y HD ltac:(lia) ltac:(lia)) as E1.
  pose proof (cpm_affine n Hn DR (y + 1) HD ltac:(lia) ltac:(lia)) as E2.
  replace (DR * 2 ^ (n - 5) + (y + 1))%Z with (u + 1)%Z in E2 by lia. rewrite <- Ev in E1.
  pose proof (regZ_bounds DR HD) as Hr. pose proof (cpm_le n Hn (u + 1) v ltac:(lia) ltac:(lia)) as Hle.
  rewrite E2, plus_IZR in Hle. rewrite E1. assert (bpow radix2 (5 - n) <= bpow radix2 (regZ DR - (n - 5))) by (apply bpow_le; lia). lra.
Qed.

(** the same within half of the smallest distance *)
Lemma near_self0 : forall t L', is_real_takum n t -> Rabs (L' - l_ n t) < bpow radix2 (4 - n) ->
  forall t', nearest n (t <? 0)%Z L' t' -> t' = t.
Proof.
  intros t L' Ht He t' (Ht' & Hs' & Hb).
  assert (has_sign (t <? 0)%Z t) as Hs. { destruct (Z.ltb_spec t 0); simpl; [assumption|]. destruct Ht as (_ & N & _). lia. }
  destruct (Hb t Ht Hs) as [Hd _]. rewrite (Rabs_minus_sym (l_ n t)) in Hd.
  assert (Rabs (l_ n t' - l_ n t) < bpow radix2 (5 - n)) as Hl.
  { replace (l_ n t' - l_ n t) with ((l_ n t' - L') + (L' - l_ n t)) by ring. eapply Rle_lt_trans; [apply Rabs_triang|].
    replace (5 - n)%Z with (1 + (4 - n))%Z by lia. rewrite bpow_plus. change (bpow radix2 1) with 2. lra. }
  rewrite !l_sg_cpm, (has_sign_ltb _ _ Hs'), <- Rmult_minus_distr_l, Rabs_mult, sg_abs, Rmult_1_l in Hl by (assumption || apply Ht').
  pose proof (real_low_pos n t ltac:(lia) Ht) as B. pose proof (real_low_pos n t' ltac:(lia) Ht') as B'. apply Rabs_def2 in Hl.
  assert (low n t' = low n t) as E3.
  { destruct (Z.lt_trichotomy (low n t') (low n t)) as [K|[K|K]]; [|assumption|].
    - pose proof (cpm_gap0 _ _ (conj (Z.lt_le_incl _ _ (proj1 B')) K) ltac:(lia)). lra.
    - pose proof (cpm_gap0 _ _ (conj (Z.lt_le_incl _ _ (proj1 B)) K) ltac:(lia)). lra. }
  rewrite <- (asm_low n t), <- (asm_low n t'), E3 by (apply Ht || apply Ht' || lia).
  rewrite (has_sign_ltb _ _ Hs') by apply Ht'. reflexivity.
Qed.
End Gap.

(** ** Double rounding through a wider format *)
Lemma faithful_narrow : forall n s L T t, (6 <= n < 64)%Z -> faithful 64 s L T -> nearest n s (l_ 64 T) t -> faithful n s L t.
Proof.
  intros n s L T t Hn (HT & HsT & HF) (Ht & Hs & Hb). split; [assumption|]. split; [assumption|]. intros t' Ht' Hs'.
  destruct (Hb t' Ht' Hs') as [Hd _].
  assert (is_real_takum 64 (t' * 2 ^ (64 - n)) /\ has_sign s (t' * 2 ^ (64 - n)) /\ l_ 64 (t' * 2 ^ (64 - n)) = l_ n t') as (R1 & R2 & R3).
  { pose proof (pow2_pos (64 - n) ltac:(lia)). split; [|split].
    - destruct Ht' as (I1 & I2 & I3). unfold is_real_takum, is_intn, nar in *.
      assert (2 ^ (64 - 1) = 2 ^ (n - 1) * 2 ^ (64 - n))%Z as E by (rewrite <- Z.pow_add_r by lia; f_equal; lia). rewrite E. nia.
    - unfold has_sign in *. destruct s; nia.
    - apply l_mul; try lia. apply Ht'. }
  destruct (HF _ R1 R2) as [F1 F2]. rewrite R3 in F1, F2. split; intros [H1 H2].
  - assert (l_ n t' <= l_ 64 T) by lra.
    assert (Rabs (l_ n t' - l_ 64 T) < Rabs (l_ n t - l_ 64 T)); [|lra]. rewrite !Rabs_left1 by lra. lra.
  - assert (l_ 64 T <= l_ n t') by lra.
    assert (Rabs (l_ n t' - l_ 64 T) < Rabs (l_ n t - l_ 64 T)); [|lra]. rewrite !Rabs_pos_eq by lra. lra.
Qed.
