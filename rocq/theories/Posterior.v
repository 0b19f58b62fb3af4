(** The error of a result in terms of the precision of the result (C105). *)
From Coq Require Import ZArith Reals Bool Lia Lra.
From Flocq Require Import Core.Core.
From Verif Require Import CModel FloatModel WidthConv Spec CodeFacts SpecFacts ValueFacts RoundFacts WidthFacts WidthApi WidthProps Machine LogApi LogProps LinOps LinApi LinAlgebra MiscProps WidthSteps RangeFacts Exactly Sterbenz ErrorSpec PosteriorSpec ErrorProps ErrorApi Sums.
Local Open Scope R_scope.

Lemma regime_of_l : forall n t, (6 <= n <= 64)%Z -> is_real_takum n t -> r_ n t = regc (Zfloor (if (t <? 0)%Z then - l_ n t else l_ n t)).
Proof.
  intros n t Hn R. pose proof (real_low_pos n t ltac:(lia) R) as B. rewrite r_eq by (apply R || lia). unfold regc. f_equal.
  assert ((if (t <? 0)%Z then - l_ n t else l_ n t) = cpm n (low n t)) as ->.
  { rewrite l_sg_cpm by assumption. unfold sg. destruct (t <? 0)%Z; ring. }
  pose proof (G_loc n Hn (cpm n (low n t)) (cpm_bounds n Hn (low n t) (conj (Z.lt_le_incl _ _ (proj1 B)) (proj2 B)))) as L. cbv zeta in L. rewrite (G_cpm n Hn) in L by lia. destruct L as (_ & _ & L1 & L2).
  apply le_IZR in L1. apply lt_IZR in L2. unfold DRn. symmetry. apply (Z.div_unique _ _ _ (low n t - 2 ^ (n - 5) * DRof (Zfloor (cpm n (low n t))))); [left|]; lia.
Qed.
Lemma regc_sym : forall c, (-255 <= c < 255)%Z -> regc (-1 - c) = regc c.
Proof. intros c Hc. rewrite !regc_eq by lia. f_equal. destruct (Z.ltb_spec (-1 - c) 0), (Z.ltb_spec c 0); lia. Qed.
Lemma log2_next : forall a b, (1 <= a)%Z -> (b <= a + 1)%Z -> (Z.log2 b <= Z.log2 a + 1)%Z.
Proof. intros a b Ha Hb. pose proof (Z.log2_le_mono b (a + 1) Hb). pose proof (Z.log2_succ_le a). replace (a + 1)%Z with (Z.succ a) in * by lia. lia. Qed.
Lemma regc_adj : forall a b, (-255 <= a < 255)%Z -> (-255 <= b < 255)%Z -> (Z.abs (a - b) <= 1)%Z -> (regc a <= regc b + 1)%Z.
Proof. intros a b Ha Hb H. rewrite !regc_eq by assumption. apply log2_next; destruct (Z.ltb_spec b 0), (Z.ltb_spec a 0); lia. Qed.
Lemma E_ratio : forall k j, 3 / 2 * E k (IZR j) <= E k (IZR (j + 1)).
Proof.
  intros [|] j; simpl.
  - rewrite plus_IZR. replace ((IZR j + 1) / 2) with (IZR j / 2 + / 2) by field. rewrite exp_plus. pose proof (exp_pos (IZR j / 2)). pose proof (exp_ineq1_le (/ 2)). nra.
  - rewrite !Lin_bpow, bpow_plus. change (bpow radix2 1) with 2. pose proof (bpow_gt_0 radix2 j). lra.
Qed.
Lemma exponent_E : forall k z e, has_exponent k z e -> E k (IZR e) <= Rabs z < E k (IZR (e + 1)).
Proof.
  intros [|] z e H; simpl in H |- *; [rewrite plus_IZR; assumption|]. rewrite !Lin_bpow, <- !powerRZ_bpow. assumption.
Qed.
(** the error in terms of the precision of the result *)
Lemma posterior : forall k n q z t f p e, std_width n -> n <> 8%Z -> (0 <= q)%Z -> is_intn n t -> relative_error k n q z t -> precision_function k n f -> f t = Val p ->
  has_exponent k z e -> (-254 <= e < 254)%Z -> exists y, value k n t = Some y /\ Rabs (y - z) <= powerRZ 2 (- (p - 1 + q)) * Rabs z.
Proof.
  intros k n q z t f p e Sw N8 Hq It Er Hf Hp He Be. destruct (Er e He Be) as (y & V & B). exists y. split; [assumption|]. pose proof (std_range n Sw) as Hn.
  assert (12 <= n)%Z by (unfold std_width in Sw; lia).
  eapply Rle_trans; [exact B|]. apply Rmult_le_compat_r; [apply Rabs_pos|]. rewrite !powerRZ_bpow in *. apply bpow_le.
  enough (p <= fraction_bits n e + 1)%Z by lia.
  pose proof (exponent_E _ _ _ He) as BE. pose proof (fraction_bits_ge n e ltac:(lia)) as FB. assert (16 <= n)%Z by (unfold std_width in Sw; lia).
  assert (Rabs (y - z) <= / 16 * Rabs z) as B'.
  { eapply Rle_trans; [exact B|]. apply Rmult_le_compat_r; [apply Rabs_pos|]. change (/ 16) with (bpow radix2 (-4)). apply bpow_le. lia. }
  pose proof (E_ratio k (e - 1)) as R1. replace (e - 1 + 1)%Z with e in R1 by lia. pose proof (E_ratio k (e + 1)) as R2. pose proof (E_pos k (IZR (e - 1))) as P1.
  pose proof (Rabs_triang_inv z (z - y)) as T1. replace (z - (z - y)) with y in T1 by ring. pose proof (Rabs_triang z (y - z)) as T2. replace (z + (y - z)) with y in T2 by ring. rewrite (Rabs_minus_sym z y) in T1.
  destruct (takum_cases n t It) as [->|[->|R]].
  { rewrite value_0 in V. assert (y = 0) as -> by congruence. rewrite Rabs_R0 in *. lra. }
  { rewrite value_nar in V by lia. discriminate. }
  rewrite (precision_correct k n f t Hf R), regime_of_l in Hp by (assumption || lia). injection Hp as <-. unfold fraction_bits. rewrite <- regc_eq by lia.
  assert (Rabs y = E k (l_ n t)) as Ey.
  { rewrite (value_real n) in V by (assumption || lia). assert (y = (if (t <? 0)%Z then -1 else 1) * E k (l_ n t)) as -> by congruence. pose proof (E_pos k (l_ n t)). rewrite Rabs_mult, (Rabs_pos_eq (E k _)) by lra.
    destruct (t <? 0)%Z; [rewrite Rabs_left by lra|rewrite Rabs_R1]; ring. }
  assert (IZR (e - 1) < l_ n t < IZR (e + 1 + 1)) as BL.
  { rewrite Ey in *. split; apply Rnot_le_lt; intro K; apply (E_le k) in K; lra. }
  set (l := l_ n t) in *. clearbody l. assert (16 - 12 <= n - 5 - regc e)%Z by (destruct (regc_bound e ltac:(lia)); lia).
  enough (regc e <= regc (Zfloor (if (t <? 0)%Z then - l else l)) + 1)%Z by lia.
  pose proof (Zfloor_lb (- l)) as F1. pose proof (Zfloor_ub (- l)) as F2. pose proof (Zfloor_lb l) as F3. pose proof (Zfloor_ub l) as F4. destruct (t <? 0)%Z.
  - assert (e - 1 < - Zfloor (- l))%Z by (apply lt_IZR; rewrite opp_IZR; lra). assert (- Zfloor (- l) - 1 < e + 1 + 1)%Z by (apply lt_IZR; rewrite minus_IZR, opp_IZR; lra).
    rewrite <- (regc_sym (Zfloor (- l))) by lia. apply regc_adj; lia.
  - assert (e - 1 < Zfloor l + 1)%Z by (apply lt_IZR; rewrite (plus_IZR (Zfloor l)); lra). assert (Zfloor l < e + 1 + 1)%Z by (apply lt_IZR; lra).
    apply regc_adj; lia.
Qed.

(** * The operations *)
Lemma lin_add_posterior : forall n f a b x y, linear_addition n f -> n <> 8%Z -> is_intn n a -> is_intn n b ->
  value Linear n a = Some x -> value Linear n b = Some y ->
  exists t, f a b = Val t /\ is_intn n t /\ error_by_precision Linear n (if (n <? 64)%Z then 1 else 0) (x + y) t.
Proof.
  intros n f a b x y H N8 Ia Ib Va Vb. destruct (lin_add_error n f a b x y H N8 Ia Ib Va Vb) as (t & E & I & R). exists t. split; [assumption|]. split; [assumption|].
  intros g p e Hg Hp He Be. apply (posterior Linear n _ (_) t g p e); try assumption; [destruct H; unfold std_width; tauto|destruct H; discriminate].
Qed.
Lemma lin_sub_posterior : forall n f a b x y, linear_subtraction n f -> n <> 8%Z -> is_intn n a -> is_intn n b ->
  value Linear n a = Some x -> value Linear n b = Some y ->
  exists t, f a b = Val t /\ is_intn n t /\ error_by_precision Linear n (if (n <? 64)%Z then 1 else 0) (x - y) t.
Proof.
  intros n f a b x y H N8 Ia Ib Va Vb. destruct (lin_sub_error n f a b x y H N8 Ia Ib Va Vb) as (t & E & I & R). exists t. split; [assumption|]. split; [assumption|].
  intros g p e Hg Hp He Be. apply (posterior Linear n _ (_) t g p e); try assumption; [destruct H; unfold std_width; tauto|destruct H; discriminate].
Qed.
Lemma lin_mul_posterior : forall n f a b x y, linear_multiplication n f -> n <> 8%Z -> is_intn n a -> is_intn n b ->
  value Linear n a = Some x -> value Linear n b = Some y ->
  exists t, f a b = Val t /\ is_intn n t /\ error_by_precision Linear n (if (n =? 16)%Z then 1 else 0) (x * y) t.
Proof.
  intros n f a b x y H N8 Ia Ib Va Vb. destruct (lin_mul_error n f a b x y H N8 Ia Ib Va Vb) as (t & E & I & R). exists t. split; [assumption|]. split; [assumption|].
  intros g p e Hg Hp He Be. apply (posterior Linear n _ (_) t g p e); try assumption; [destruct H; unfold std_width; tauto|destruct H; discriminate].
Qed.
Lemma lin_div_posterior : forall n f a b x y, linear_division n f -> n <> 8%Z -> is_intn n a -> is_intn n b ->
  value Linear n a = Some x -> value Linear n b = Some y -> y <> 0 ->
  exists t, f a b = Val t /\ is_intn n t /\ error_by_precision Linear n (if (n =? 16)%Z then 1 else 0) (x / y) t.
Proof.
  intros n f a b x y H N8 Ia Ib Va Vb Ny. destruct (lin_div_error n f a b x y H N8 Ia Ib Va Vb Ny) as (t & E & I & R). exists t. split; [assumption|]. split; [assumption|].
  intros g p e Hg Hp He Be. apply (posterior Linear n _ (_) t g p e); try assumption; [destruct H; unfold std_width; tauto|destruct H; discriminate].
Qed.
Lemma lin_sqrt_posterior : forall n f a x, linear_square_root n f -> n <> 8%Z -> is_intn n a ->
  value Linear n a = Some x -> 0 <= x ->
  exists t, f a = Val t /\ is_intn n t /\ error_by_precision Linear n (if (n =? 16)%Z then 1 else 0) (sqrt x) t.
Proof.
  intros n f a x H N8 Ia Va Nx. destruct (lin_sqrt_error n f a x H N8 Ia Va Nx) as (t & E & I & R). exists t. split; [assumption|]. split; [assumption|].
  intros g p e Hg Hp He Be. apply (posterior Linear n _ (_) t g p e); try assumption; [destruct H; unfold std_width; tauto|destruct H; discriminate].
Qed.
Lemma lin_inv_posterior : forall n f a x, linear_inversion n f -> n <> 8%Z -> is_intn n a ->
  value Linear n a = Some x -> x <> 0 ->
  exists t, f a = Val t /\ is_intn n t /\ error_by_precision Linear n (if (n =? 16)%Z then 1 else 0) (/ x) t.
Proof.
  intros n f a x H N8 Ia Va Nx. destruct (lin_inv_error n f a x H N8 Ia Va Nx) as (t & E & I & R). exists t. split; [assumption|]. split; [assumption|].
  intros g p e Hg Hp He Be. apply (posterior Linear n _ (_) t g p e); try assumption; [destruct H; unfold std_width; tauto|destruct H; discriminate].
Qed.
Lemma log_mul_posterior : forall n f a b x y, log_multiplication n f -> n <> 8%Z -> is_intn n a -> is_intn n b ->
  value Logarithmic n a = Some x -> value Logarithmic n b = Some y ->
  exists t, f a b = Val t /\ is_intn n t /\ error_by_precision Logarithmic n (if (n <? 64)%Z then 1 else 0) (x * y) t.
Proof.
  intros n f a b x y H N8 Ia Ib Va Vb. destruct (log_mul_error n f a b x y H N8 Ia Ib Va Vb) as (t & E & I & R). exists t. split; [assumption|]. split; [assumption|].
  intros g p e Hg Hp He Be. apply (posterior Logarithmic n _ (_) t g p e); try assumption; [destruct H; unfold std_width; tauto|destruct H; discriminate].
Qed.
Lemma log_div_posterior : forall n f a b x y, log_division n f -> n <> 8%Z -> is_intn n a -> is_intn n b ->
  value Logarithmic n a = Some x -> value Logarithmic n b = Some y -> y <> 0 ->
  exists t, f a b = Val t /\ is_intn n t /\ error_by_precision Logarithmic n (if (n <? 64)%Z then 1 else 0) (x / y) t.
Proof.
  intros n f a b x y H N8 Ia Ib Va Vb Ny. destruct (log_div_error n f a b x y H N8 Ia Ib Va Vb Ny) as (t & E & I & R). exists t. split; [assumption|]. split; [assumption|].
  intros g p e Hg Hp He Be. apply (posterior Logarithmic n _ (_) t g p e); try assumption; [destruct H; unfold std_width; tauto|destruct H; discriminate].
Qed.
Lemma log_sqrt_posterior : forall n f a x, log_square_root n f -> n <> 8%Z -> is_intn n a ->
  value Logarithmic n a = Some x -> 0 <= x ->
  exists t, f a = Val t /\ is_intn n t /\ error_by_precision Logarithmic n 1 (sqrt x) t.
Proof.
  intros n f a x H N8 Ia Va Nx. destruct (log_sqrt_error n f a x H N8 Ia Va Nx) as (t & E & I & R). exists t. split; [assumption|]. split; [assumption|].
  intros g p e Hg Hp He Be. apply (posterior Logarithmic n _ (_) t g p e); try assumption; [destruct H; unfold std_width; tauto|destruct H; discriminate].
Qed.
