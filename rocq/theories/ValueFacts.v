(** Facts about the real numbers denoted by takums. *)
From Coq Require Import ZArith Reals Bool Lia Lra.
From Flocq Require Import Core.Core.
From Verif Require Import CModel Spec CodeFacts SpecFacts.
Local Open Scope R_scope.

(** (1 + frac x) 2^floor x *)
Definition Lin (x : R) : R := (1 + (x - IZR (Zfloor x))) * bpow radix2 (Zfloor x).

(** magnitude of a takum as a function of its coordinate *)
Definition E (k : kind) (x : R) : R :=
  match k with Logarithmic => exp (x / 2) | Linear => Lin x end.

Lemma Lin_bounds : forall x, bpow radix2 (Zfloor x) <= Lin x < bpow radix2 (Zfloor x + 1).
Proof.
  intros x. unfold Lin. pose proof (Zfloor_lb x). pose proof (Zfloor_ub x).
  pose proof (bpow_gt_0 radix2 (Zfloor x)).
  rewrite bpow_plus. change (bpow radix2 1) with 2. split; nra.
Qed.

Lemma Lin_pos : forall x, 0 < Lin x.
Proof. intros x. pose proof (Lin_bounds x). pose proof (bpow_gt_0 radix2 (Zfloor x)). lra. Qed.

Lemma Lin_lt : forall x y, x < y -> Lin x < Lin y.
Proof.
  intros x y H.
  assert (Zfloor x <= Zfloor y)%Z as Hf by (apply Zfloor_le; lra).
  destruct (Z.eq_dec (Zfloor x) (Zfloor y)) as [He|He].
  - unfold Lin. rewrite He. apply Rmult_lt_compat_r; [apply bpow_gt_0|lra].
  - apply Rlt_le_trans with (bpow radix2 (Zfloor x + 1)); [apply Lin_bounds|].
    apply Rle_trans with (bpow radix2 (Zfloor y)); [apply bpow_le; lia|apply Lin_bounds].
Qed.

Lemma E_pos : forall k x, 0 < E k x.
Proof. intros [] x; [apply exp_pos|apply Lin_pos]. Qed.

Lemma E_lt : forall k x y, x < y -> E k x < E k y.
Proof. intros [] x y H; [apply exp_increasing; lra|apply Lin_lt; assumption]. Qed.

Lemma E_lt_iff : forall k x y, x < y <-> E k x < E k y.
Proof.
  intros k x y; split; [apply E_lt|]. intros H.
  destruct (Rlt_or_le x y) as [K|K]; auto.
  destruct K as [K|K]; [apply (E_lt k) in K; lra|subst; lra].
Qed.

Lemma E_inj : forall k x y, E k x = E k y -> x = y.
Proof.
  intros k x y H. destruct (Rtotal_order x y) as [K|[K|K]]; auto; apply (E_lt k) in K; lra.
Qed.

Lemma mag_Lin : forall x, (mag radix2 (Lin x) = Zfloor x + 1 :> Z)%Z.
Proof.
  intros x. apply mag_unique_pos. pose proof (Lin_bounds x).
  replace (Zfloor x + 1 - 1)%Z with (Zfloor x) by lia. assumption.
Qed.

Lemma lin_coord_Lin : forall x, lin_coord (Lin x) = x.
Proof.
  intros x. unfold lin_coord. rewrite mag_Lin.
  replace (Zfloor x + 1 - 1)%Z with (Zfloor x) by lia.
  rewrite Rabs_pos_eq by (left; apply Lin_pos). unfold Lin.
  field. apply Rgt_not_eq, bpow_gt_0.
Qed.

Lemma lin_coord_opp : forall x, lin_coord (- x) = lin_coord x.
Proof. intros x. unfold lin_coord. rewrite mag_opp, Rabs_Ropp. reflexivity. Qed.

Lemma log_coord_opp : forall x, log_coord (- x) = log_coord x.
Proof. intros x. unfold log_coord. rewrite Rabs_Ropp. reflexivity. Qed.

Lemma coord_opp : forall k x, coord k (- x) = coord k x.
Proof. intros []; [exact log_coord_opp|exact lin_coord_opp]. Qed.

Lemma coord_E : forall k x, coord k (E k x) = x.
Proof.
  intros [] x; simpl.
  - unfold log_coord. rewrite Rabs_pos_eq by (left; apply exp_pos). rewrite ln_exp. field.
  - apply lin_coord_Lin.
Qed.

Lemma Lin_lin_coord : forall y, y <> 0 -> Lin (lin_coord y) = Rabs y.
Proof.
  intros y Hy. unfold lin_coord. set (h := (mag radix2 y - 1)%Z).
  assert (bpow radix2 h <= Rabs y < bpow radix2 (h + 1)) as [H1 H2].
  { unfold h. clear h. destruct (mag radix2 y) as (e & He). simpl. specialize (He Hy).
    replace (e - 1 + 1)%Z with e by lia. assumption. }
  pose proof (bpow_gt_0 radix2 h) as Hb.
  assert (0 <= Rabs y / bpow radix2 h - 1 < 1) as Hg.
  { rewrite bpow_plus in H2. change (bpow radix2 1) with 2 in H2. split.
    - apply Rmult_le_reg_r with (bpow radix2 h); [assumption|]. field_simplify; lra.
    - apply Rmult_lt_reg_r with (bpow radix2 h); [assumption|]. field_simplify; lra. }
  assert (Zfloor (IZR h + (Rabs y / bpow radix2 h - 1)) = h) as Hf.
  { apply Zfloor_imp. rewrite plus_IZR. lra. }
  unfold Lin. rewrite Hf. field. lra.
Qed.

Lemma E_coord : forall k y, y <> 0 -> E k (coord k y) = Rabs y.
Proof.
  intros [] y Hy; simpl.
  - unfold log_coord. replace (2 * ln (Rabs y) / 2) with (ln (Rabs y)) by field.
    apply exp_ln. apply Rabs_pos_lt. assumption.
  - apply Lin_lin_coord. assumption.
Qed.

Lemma powerRZ_bpow : forall e, powerRZ 2 e = bpow radix2 e.
Proof. intros e. rewrite bpow_powerRZ. reflexivity. Qed.

Lemma Zfloor_opp_int_frac : forall c m, 0 < m < 1 -> Zfloor (- (IZR c + m)) = (- c - 1)%Z.
Proof. intros c m H. apply Zfloor_imp. rewrite plus_IZR, minus_IZR, opp_IZR. lra. Qed.

Section Width.
Variable n : Z.
Hypothesis Hn : (5 <= n <= 64)%Z.

Lemma m_bounds : forall t, is_intn n t -> 0 <= m_ n t < 1.
Proof.
  intros t Ht. unfold m_. destruct (C_M_eq n Hn t Ht) as [_ HM]. rewrite HM.
  assert (0 <= p_ n t)%Z as Hp.
  { unfold p_. rewrite (r_eq n Hn) by assumption. pose proof (regZ_bounds _ (DRn_bounds n Hn t)).
    pose proof (W_ge n Hn). unfold width in *. lia. }
  pose proof (pow2_pos _ Hp).
  pose proof (Z.mod_pos_bound (yn n t) (2 ^ p_ n t) ltac:(lia)) as [K1 K2].
  apply IZR_le in K1. apply IZR_lt in K2. assert (0 < IZR (2 ^ p_ n t)) by (apply IZR_lt; lia). split.
  - apply Rmult_le_reg_r with (IZR (2 ^ p_ n t)); [assumption|]. field_simplify; lra.
  - apply Rmult_lt_reg_r with (IZR (2 ^ p_ n t)); [assumption|]. field_simplify; lra.
Qed.

Lemma lin_real_eq : forall t, is_intn n t -> lin_real n t = sgn n t * Lin (l_ n t).
Proof.
  intros t Ht. unfold lin_real, l_. rewrite powerRZ_bpow.
  pose proof (m_bounds t Ht) as Hm. rewrite sgn_eq by assumption. rewrite S_eq by assumption.
  destruct (t <? 0)%Z; cbv beta iota delta [b2z].
  - destruct (Req_dec (m_ n t) 0) as [H0|H0].
    + rewrite H0, !Rplus_0_r.
      replace (-1 * IZR (c_ n t)) with (IZR (- c_ n t)) by (rewrite opp_IZR; ring).
      unfold Lin. rewrite Zfloor_IZR.
      replace ((1 - 2 * 1) * (c_ n t + 1))%Z with (- c_ n t + -1)%Z by ring.
      rewrite bpow_plus. change (bpow radix2 (-1)) with (/2). simpl IZR. field.
    + replace (-1 * (IZR (c_ n t) + m_ n t)) with (- (IZR (c_ n t) + m_ n t)) by ring.
      unfold Lin. rewrite Zfloor_opp_int_frac by lra.
      replace ((1 - 2 * 1) * (c_ n t + 1))%Z with (- c_ n t - 1)%Z by ring.
      rewrite minus_IZR, opp_IZR. ring.
  - rewrite !Rmult_1_l. unfold Lin.
    assert (Zfloor (IZR (c_ n t) + m_ n t) = c_ n t) as ->.
    { apply Zfloor_imp. rewrite plus_IZR. lra. }
    replace ((1 - 2 * 0) * (c_ n t + 0))%Z with (c_ n t) by ring. simpl IZR. ring.
Qed.

Lemma value_real : forall k t, is_real_takum n t ->
  value k n t = Some ((if (t <? 0)%Z then -1 else 1) * E k (l_ n t)).
Proof.
  intros k t (Ht & H0 & H1). unfold value.
  destruct (Z.eq_dec t 0); [contradiction|]. destruct (Z.eq_dec t (nar n)); [contradiction|].
  f_equal. destruct k.
  - unfold log_real. rewrite sgn_eq by assumption. reflexivity.
  - rewrite lin_real_eq by assumption. rewrite sgn_eq by assumption. reflexivity.
Qed.

Lemma value_0 : forall k, value k n 0 = Some 0.
Proof. intros k. unfold value. destruct (Z.eq_dec 0 0); congruence. Qed.

Lemma value_nar : forall k, value k n (nar n) = None.
Proof.
  intros k. unfold value, nar. pose proof (pow2_pos (n - 1) ltac:(lia)).
  destruct (Z.eq_dec _ 0); [lia|]. destruct (Z.eq_dec _ _); congruence.
Qed.

(** coordinates of same-sign takums are ordered as the codes *)
Lemma l_lt_pos : forall t t', is_real_takum n t -> is_real_takum n t' -> (0 < t)%Z -> (0 < t')%Z ->
  ((t < t')%Z <-> l_ n t < l_ n t').
Proof.
  intros t t' H H' P P'. rewrite !l_eq by (apply H || apply H' || assumption).
  destruct (Z.ltb_spec t 0); [lia|]. destruct (Z.ltb_spec t' 0); [lia|].
  pose proof (real_low_pos n t Hn H). pose proof (real_low_pos n t' Hn H').
  assert ((t < t')%Z <-> (Xn n (low n t) < Xn n (low n t'))%Z) as ->.
  { rewrite <- Xn_lt_iff by lia. rewrite !low_cases by (apply H || apply H' || assumption).
    destruct (Z.ltb_spec t 0); [lia|]. destruct (Z.ltb_spec t' 0); [lia|]. reflexivity. }
  assert (0 < IZR (2 ^ 59)) by (apply IZR_lt; lia).
  split; intros K.
  - apply IZR_lt in K. unfold Rdiv. rewrite !Rmult_1_l. apply Rmult_lt_compat_r; [apply Rinv_0_lt_compat|]; assumption.
  - apply lt_IZR. unfold Rdiv in K. rewrite !Rmult_1_l in K. apply Rmult_lt_reg_r in K; [assumption|apply Rinv_0_lt_compat; assumption].
Qed.

Lemma l_lt_neg : forall t t', is_real_takum n t -> is_real_takum n t' -> (t < 0)%Z -> (t' < 0)%Z ->
  ((t < t')%Z <-> l_ n t' < l_ n t).
Proof.
  intros t t' H H' P P'. rewrite !l_eq by (apply H || apply H' || assumption).
  destruct (Z.ltb_spec t 0); [|lia]. destruct (Z.ltb_spec t' 0); [|lia].
  pose proof (real_low_pos n t Hn H). pose proof (real_low_pos n t' Hn H').
  assert ((t < t')%Z <-> (Xn n (low n t) < Xn n (low n t'))%Z) as ->.
  { rewrite <- Xn_lt_iff by lia. rewrite !low_cases by (apply H || apply H' || assumption).
    destruct (Z.ltb_spec t 0); [|lia]. destruct (Z.ltb_spec t' 0); [|lia]. lia. }
  assert (0 < IZR (2 ^ 59)) as P59 by (apply IZR_lt; lia).
  assert (0 < / IZR (2 ^ 59)) by (apply Rinv_0_lt_compat; assumption).
  split; intros K.
  - apply IZR_lt in K. unfold Rdiv. nra.
  - apply lt_IZR. unfold Rdiv in K. nra.
Qed.

(** integer comparison is numeric comparison *)
Lemma takum_cases : forall t, is_intn n t -> t = 0%Z \/ t = nar n \/ is_real_takum n t.
Proof.
  intros t Ht. unfold is_real_takum. destruct (Z.eq_dec t 0); auto.
  destruct (Z.eq_dec t (nar n)); auto.
Qed.

Lemma value_lt : forall k t t' x x', is_intn n t -> is_intn n t' ->
  value k n t = Some x -> value k n t' = Some x' -> ((t < t')%Z <-> x < x').
Proof.
  intros k t t' x x' Ht Ht' V V'.
  assert (t <> nar n /\ t' <> nar n) as [N N'].
  { split; intros ->; rewrite value_nar in *; discriminate. }
  assert (forall a y, is_intn n a -> a <> nar n -> value k n a = Some y ->
     (a = 0%Z /\ y = 0) \/ ((0 < a)%Z /\ y = E k (l_ n a) /\ is_real_takum n a)
     \/ ((a < 0)%Z /\ y = - E k (l_ n a) /\ is_real_takum n a)) as HH.
  { intros a y Ha Na Va. destruct (takum_cases a Ha) as [->|[->|Ra]].
    - left. rewrite value_0 in Va. inversion Va. auto.
    - contradiction.
    - right. rewrite value_real in Va by assumption. inversion Va as [Ey].
      destruct (Z.ltb_spec a 0); [right|left]; repeat split; try ring; try apply Ra; try lia.
      destruct Ra as (_ & R0 & _). lia. }
  destruct (HH t x Ht N V) as [(-> & ->)|[(P & -> & Rt)|(P & -> & Rt)]];
  destruct (HH t' x' Ht' N' V') as [(-> & ->)|[(P' & -> & Rt')|(P' & -> & Rt')]];
  try (pose proof (E_pos k (l_ n t))); try (pose proof (E_pos k (l_ n t')));
  try (split; intros; lia || lra).
  - rewrite l_lt_pos by assumption. apply E_lt_iff.
  - rewrite l_lt_neg by assumption. rewrite (E_lt_iff k). lra.
Qed.

(** negation *)
Lemma Xn_neg : forall u, (0 < u < 2 ^ (n - 1))%Z -> (Xn n (2 ^ (n - 1) - u) = - Xn n u)%Z.
Proof.
  intros u Hu. unfold Xn. rewrite <- X_neg.
  - f_equal. unfold code64. rewrite Z.mul_sub_distr_r. f_equal.
    rewrite <- pow2_split by lia. f_equal. lia.
  - pose proof (code64_bounds n u ltac:(lia) ltac:(lia)). unfold code64 in *.
    pose proof (pow2_pos (64 - n) ltac:(lia)). nia.
Qed.

Lemma l_neg : forall t, is_real_takum n t -> l_ n (- t) = l_ n t.
Proof.
  intros t H. pose proof H as (Ht & H0 & H1). unfold nar in H1.
  assert (is_intn n (- t)) as Ht' by (unfold is_intn in *; lia).
  rewrite !l_eq by assumption. pose proof (real_low_pos n t Hn H) as Hl.
  assert (low n (- t) = 2 ^ (n - 1) - low n t)%Z as ->.
  { rewrite !low_cases by assumption. unfold is_intn in *.
    destruct (Z.ltb_spec t 0); destruct (Z.ltb_spec (- t) 0); lia. }
  rewrite Xn_neg, opp_IZR by assumption.
  destruct (Z.ltb_spec t 0); destruct (Z.ltb_spec (- t) 0); try lia; field; apply not_0_IZR; lia.
Qed.

Lemma neg_real : forall t, is_real_takum n t -> is_real_takum n (- t).
Proof. intros t (Ht & H0 & H1). unfold is_real_takum, is_intn, nar in *. lia. Qed.

Lemma value_neg : forall k t x, is_intn n t -> value k n t = Some x -> value k n (- t) = Some (- x).
Proof.
  intros k t x Ht V. destruct (takum_cases t Ht) as [->|[->|H]].
  - simpl Z.opp. rewrite value_0 in *. inversion V. f_equal. ring.
  - rewrite value_nar in V. discriminate.
  - rewrite value_real in * by (try apply neg_real; assumption). rewrite l_neg by assumption.
    inversion V. f_equal. destruct H as (_ & H0 & _).
    destruct (Z.ltb_spec t 0); destruct (Z.ltb_spec (- t) 0); try lia; ring.
Qed.

Lemma l_inj : forall t t', is_real_takum n t -> is_real_takum n t' -> (t <? 0)%Z = (t' <? 0)%Z ->
  l_ n t = l_ n t' -> t = t'.
Proof.
  intros t t' H H' Hs Hl. pose proof H as (_ & H0 & _). pose proof H' as (_ & H0' & _).
  destruct (Z.lt_trichotomy t t') as [K|[K|K]]; auto; exfalso;
  destruct (Z.ltb_spec t 0); destruct (Z.ltb_spec t' 0); try discriminate.
  - apply l_lt_neg in K; try assumption; try lra.
  - apply l_lt_pos in K; try assumption; try lia; try lra.
  - apply l_lt_neg in K; try assumption; try lra.
  - apply l_lt_pos in K; try assumption; try lia; try lra.
Qed.

End Width.
