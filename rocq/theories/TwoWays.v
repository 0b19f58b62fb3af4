(** Two ways to compute the same number: the results are at most one unit in
    the last place apart. *)
From Coq Require Import ZArith Reals Bool Lia Lra Psatz.
From Flocq Require Import Core.Core IEEE754.BinarySingleNaN.
From Verif Require Import CModel FloatModel Libm LibmSpec LibmIdeal Spec CodeFacts SpecFacts ValueFacts WidthFacts WidthApi WidthProps LinApi LinArith Wrappers WrapApi WrapSpec WrapSpec2 RoundFacts Faithful RangeFacts Agree WaySpec LinArithRefute WrapExact MiscProps CalcFacts InverseRefute.
Local Open Scope R_scope.

Lemma bits_std : forall w, std_width (bits w).
Proof. destruct w; unfold std_width; simpl; tauto. Qed.

Theorem way_faithful : forall lm w o z, c99 lm -> way lm w o z -> exists t, o = Val t /\ rounds_faithfully Linear (bits w) z t.
Proof.
  intros lm w o z C H. destruct H.
  - destruct (add_faithful _ f H s t H0 H1) as (r & E & _ & F). rewrite H2, H3 in F. exists r. split; assumption.
  - destruct (sub_faithful _ f H s t H0 H1) as (r & E & _ & F). rewrite H2, H3 in F. exists r. split; assumption.
  - destruct (mul_lin_faithful _ f H s t H0 H1) as (r & E & _ & F). rewrite H2, H3 in F. exists r. split; assumption.
  - destruct (div_lin_faithful _ f H s t H0 H1) as (r & E & _ & F). rewrite H2, H3 in F. destruct F as [[F _]|[_ F]]; [contradiction|]. exists r. split; assumption.
  - destruct (inv_lin_faithful _ f H t H0) as (r & E & _ & F). rewrite H1 in F. destruct F as [[F _]|[_ F]]; [contradiction|]. exists r. split; assumption.
  - destruct (sqrt_lin_faithful _ f H t H0) as (r & E & _ & F). rewrite H1 in F. destruct F as [[F _]|[_ F]]; [lra|]. exists r. split; assumption.
  - apply integer_power_faithful; assumption.
  - eapply root_faithful; eassumption.
  - apply unary_faithful; assumption.
  - eapply Faithful.binary_faithful; try eassumption; intros ->; intuition discriminate.
Qed.

(** a takum between a result and the number above *)
Lemma faithful_order : forall k n z z' t t', std_width n -> rounds_faithfully k n z t -> rounds_faithfully k n z' t' -> z <= z' -> (t <= t' + 1)%Z.
Proof.
  intros k n z z' t t' Sw F F' Hz. destruct (Z_le_gt_dec t (t' + 1)) as [H|H]; [assumption|exfalso]. pose proof (std_range n Sw) as Hn.
  destruct (faithful_value k n z t Sw F) as (It & y & Vy & _). destruct (faithful_value k n z' t' Sw F') as (It' & y' & Vy' & _).
  assert (is_intn n (t' + 1)) as Iu by (unfold is_intn in *; lia).
  assert (t' + 1 <> nar n)%Z as Nu by (unfold nar; unfold is_intn in *; lia).
  assert (exists v, value k n (t' + 1) = Some v) as (v & Vv).
  { destruct (takum_cases n (t' + 1) Iu) as [E | [E | R]]; [rewrite E, value_0; eauto|contradiction|rewrite value_real by (assumption || lia); eauto]. }
  assert (y' < v) as L1 by (apply (value_lt n ltac:(lia) k t' (t' + 1)); auto; lia).
  assert (v < y) as L2 by (apply (value_lt n ltac:(lia) k (t' + 1) t); auto; lia).
  destruct (Rle_or_lt z v) as [K|K]; [pose proof (faithful_le k n z t y _ v Sw F Vy Iu Vv K); lra|].
  destruct (Rle_or_lt v z') as [K'|K']; [pose proof (faithful_ge k n z' t' y' _ v Sw F' Vy' Iu Vv K'); lra|]. lra.
Qed.

Theorem ways_ordered : forall lm lm' w o o' z z', c99 lm -> c99 lm' -> way lm w o z -> way lm' w o' z' -> z <= z' ->
  exists t t', o = Val t /\ o' = Val t' /\ (t <= t' + 1)%Z.
Proof.
  intros lm lm' w o o' z z' C C' H H' Hz. destruct (way_faithful lm w o z C H) as (t & E & F). destruct (way_faithful lm' w o' z' C' H') as (t' & E' & F').
  exists t, t'. split; [assumption|]. split; [assumption|]. eapply faithful_order; [apply bits_std| | |]; eassumption.
Qed.
Theorem ways_agree : forall lm lm' w o o' z, c99 lm -> c99 lm' -> way lm w o z -> way lm' w o' z -> agree o o'.
Proof.
  intros lm lm' w o o' z C C' H H'. destruct (way_faithful lm w o z C H) as (t & E & F). destruct (way_faithful lm' w o' z C' H') as (t' & E' & F').
  exists t, t'. split; [assumption|]. split; [assumption|]. eapply faithful_unit; [apply bits_std| |]; eassumption.
Qed.
Theorem ways_separated : forall lm lm' w o o' z z' a v, c99 lm -> c99 lm' -> way lm w o z -> way lm' w o' z' ->
  is_intn (bits w) a -> value Linear (bits w) a = Some v -> z <= v <= z' ->
  exists t t' y y', o = Val t /\ o' = Val t' /\ value Linear (bits w) t = Some y /\ value Linear (bits w) t' = Some y' /\ y <= v <= y'.
Proof.
  intros lm lm' w o o' z z' a v C C' H H' Ia Va [Hz Hz']. destruct (way_faithful lm w o z C H) as (t & E & F). destruct (way_faithful lm' w o' z' C' H') as (t' & E' & F').
  pose proof (bits_std w) as Sw. destruct (faithful_value _ _ z t Sw F) as (It & y & Vy & _). destruct (faithful_value _ _ z' t' Sw F') as (It' & y' & Vy' & _).
  exists t, t', y, y'. repeat (split; [assumption|]). split; [eapply (faithful_le Linear (bits w) z t y a v)|eapply (faithful_ge Linear (bits w) z' t' y' a v)]; eassumption.
Qed.

(** ** Examples of pairs of ways *)
Lemma is_power_two : forall x, is_power x 2 (x * x).
Proof.
  intros x. destruct (Rtotal_order x 0) as [H|[-> | H]].
  - right; left. split; [assumption|]. exists 2%Z. split; [reflexivity|]. simpl. ring.
  - right; right. repeat split; lra.
  - left. split; [assumption|]. replace (2 * ln x) with (ln x + ln x) by ring. rewrite exp_plus, exp_ln by assumption. reflexivity.
Qed.
Lemma is_power_half : forall x, 0 < x -> is_power x (/ 2) (sqrt x).
Proof.
  intros x H. left. split; [assumption|]. pose proof (sqrt_lt_R0 x H) as P. rewrite <- (exp_ln (sqrt x)) by assumption. f_equal.
  assert (ln x = ln (sqrt x) + ln (sqrt x)) as -> by (rewrite <- ln_mult, sqrt_sqrt by (assumption || lra); reflexivity). lra.
Qed.
Lemma is_root_two : forall x, 0 < x -> is_root 2 x (sqrt x).
Proof.
  intros x H. pose proof (sqrt_lt_R0 x H) as P. repeat split; try lia; try lra. simpl. rewrite Rmult_1_r. apply sqrt_sqrt. lra.
Qed.
Lemma is_root_minus1 : forall x, x <> 0 -> is_root (-1) x (/ x).
Proof.
  intros x H. assert (/ x <> 0) as Ni by (apply Rinv_neq_0_compat; assumption). repeat split; try lia; try contradiction.
  - intros _. assumption.
  - simpl. rewrite Rmult_1_r. apply Rinv_inv.
  - apply Rinv_0_lt_compat.
  - apply Rinv_lt_0_compat.
Qed.

Theorem square_ways : forall lm w f two t x, c99 lm -> linear_multiplication (bits w) f -> is_intn (bits w) t -> value Linear (bits w) t = Some x ->
  is_intn (bits w) two -> value Linear (bits w) two = Some 2 ->
  agree (f t t) (api_integer_power Linear lm w t 2) /\
  (w <> W64 -> agree (f t t) (api_binary Linear lm n_power w t two) /\
               agree (api_integer_power Linear lm w t 2) (api_binary Linear lm n_power w t two)).
Proof.
  intros lm w f two t x C Hf It Vt I2 V2.
  assert (way lm w (f t t) (x * x)) as W1 by (apply by_product; assumption).
  assert (way lm w (api_integer_power Linear lm w t 2) (x * x)) as W2.
  { replace (x * x) with (powerRZ x 2) by (simpl; ring). apply by_integer_power; try assumption; [unfold is_int64; lia|right; lia]. }
  split; [apply (ways_agree lm lm w _ _ (x * x)); assumption|]. intros Nw.
  assert (way lm w (api_binary Linear lm n_power w t two) (x * x)) as W3 by (eapply by_function_of_two; try eassumption; [tauto|apply is_power_two]).
  split; apply (ways_agree lm lm w _ _ (x * x)); assumption.
Qed.
Theorem reciprocal_ways : forall lm w inv div one t x, c99 lm -> linear_inversion (bits w) inv -> linear_division (bits w) div ->
  is_intn (bits w) t -> value Linear (bits w) t = Some x -> x <> 0 -> is_intn (bits w) one -> value Linear (bits w) one = Some 1 ->
  agree (inv t) (div one t) /\ agree (inv t) (api_integer_power Linear lm w t (-1)) /\ agree (div one t) (api_integer_power Linear lm w t (-1)) /\
  (w <> W64 -> agree (inv t) (api_root Linear lm w t (-1)) /\ agree (div one t) (api_root Linear lm w t (-1))).
Proof.
  intros lm w inv div one t x C Hi Hd It Vt Nx I1 V1.
  assert (way lm w (inv t) (/ x)) as W1 by (apply by_inversion; assumption).
  assert (way lm w (div one t) (/ x)) as W2 by (replace (/ x) with (1 / x) by (unfold Rdiv; ring); apply by_quotient; assumption).
  assert (way lm w (api_integer_power Linear lm w t (-1)) (/ x)) as W3.
  { replace (/ x) with (powerRZ x (-1)) by (simpl; rewrite Rmult_1_r; reflexivity). apply by_integer_power; try assumption; [unfold is_int64; lia|left; assumption]. }
  repeat split; try (apply (ways_agree lm lm w _ _ (/ x)); assumption);
  (assert (way lm w (api_root Linear lm w t (-1)) (/ x)) as W4 by (apply (by_root lm w t (-1) x); try assumption; [unfold is_int64; lia|tauto|apply is_root_minus1; assumption]));
  apply (ways_agree lm lm w _ _ (/ x)); assumption.
Qed.
Theorem square_root_ways : forall lm w f half t x, c99 lm -> w <> W64 -> linear_square_root (bits w) f -> is_intn (bits w) t -> value Linear (bits w) t = Some x -> 0 < x ->
  is_intn (bits w) half -> value Linear (bits w) half = Some (/ 2) ->
  agree (f t) (api_root Linear lm w t 2) /\ agree (f t) (api_binary Linear lm n_power w t half) /\
  agree (api_root Linear lm w t 2) (api_binary Linear lm n_power w t half).
Proof.
  intros lm w f half t x C Nw Hf It Vt Px Ih Vh.
  assert (way lm w (f t) (sqrt x)) as W1 by (apply by_square_root; try assumption; lra).
  assert (way lm w (api_root Linear lm w t 2) (sqrt x)) as W2 by (apply (by_root lm w t 2 x); try assumption; [unfold is_int64; lia|tauto|apply is_root_two; assumption]).
  assert (way lm w (api_binary Linear lm n_power w t half) (sqrt x)) as W3 by (eapply by_function_of_two; try eassumption; [tauto|apply is_power_half; assumption]).
  repeat split; apply (ways_agree lm lm w _ _ (sqrt x)); assumption.
Qed.
Theorem power_of_two_ways : forall lm w two t x, c99 lm -> w <> W64 -> is_intn (bits w) t -> value Linear (bits w) t = Some x -> regular Linear (bits w) n_2_raised x ->
  is_intn (bits w) two -> value Linear (bits w) two = Some 2 ->
  agree (api_unary Linear lm n_2_raised w t) (api_binary Linear lm n_power w two t).
Proof.
  intros lm w two t x C Nw It Vt Rg I2 V2. apply (ways_agree lm lm w _ _ (Rpower 2 x)); try assumption.
  - apply (by_function lm w n_2_raised); try assumption. reflexivity.
  - eapply by_function_of_two; try eassumption; [tauto|]. left. split; [lra|reflexivity].
Qed.
Theorem doubling_ways : forall w add mul two t x, linear_addition (bits w) add -> linear_multiplication (bits w) mul -> is_intn (bits w) t -> value Linear (bits w) t = Some x ->
  is_intn (bits w) two -> value Linear (bits w) two = Some 2 -> agree (add t t) (mul two t).
Proof.
  intros w add mul two t x Ha Hm It Vt I2 V2. apply (ways_agree ideal ideal w _ _ (2 * x)); try exact ideal_c99.
  - replace (2 * x) with (x + x) by ring. apply by_sum; assumption.
  - apply by_product; assumption.
Qed.

Lemma ways_case : c99 ideal /\ is_intn 16 0x4800 /\ value Linear 16 0x4800 = Some 2 /\ is_intn 16 (7 * 2 ^ 11) /\ value Linear 16 (7 * 2 ^ 11) = Some (/ 2) /\
  linear_multiplication 16 (takum_linear_multiplication x86_64 W16) /\ linear_square_root 16 (takum_linear_square_root x86_64 W16) /\
  way ideal W16 (takum_linear_multiplication x86_64 W16 0x4800 0x4800) (2 * 2) /\
  way ideal W16 (api_binary Linear ideal n_power W16 0x4800 0x4800) (2 * 2) /\ regular Linear 16 n_2_raised 2.
Proof.
  destruct mean_not_exact as (V2 & _). assert (is_intn 16 0x4800) as I2 by (unfold is_intn; lia). destruct (half_takum 16 ltac:(unfold std_width; tauto)) as (V3 & I3 & _).
  split; [exact ideal_c99|]. repeat (split; [assumption|]). split; [constructor|]. split; [constructor|].
  split; [apply by_product; try assumption; constructor|].
  split; [eapply by_function_of_two; try eassumption; [discriminate|tauto|apply is_power_two]|]. split; exact I.
Qed.
