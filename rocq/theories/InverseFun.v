(** Logarithms and exponential functions undo each other up to an error (C111). *)
From Coq Require Import ZArith Reals Bool Lia Lra.
From Flocq Require Import Core.Core.
From Verif Require Import CModel FloatModel Spec CodeFacts SpecFacts ValueFacts RoundFacts WidthFacts LibmSpec Libm Wrappers WrapApi WrapSpec Faithful RangeFacts LogConv Exactly Sterbenz ErrorSpec ErrorProps ErrorApi Sums Horner InverseSpec.
Local Open Scope R_scope.

Lemma fraction_bits_mid : forall n e, (-8 <= e < 8)%Z -> (n - 8 <= fraction_bits n e)%Z.
Proof.
  intros n e He. unfold fraction_bits. assert (Z.log2 (if (e <? 0)%Z then - e else e + 1) <= 3)%Z; [|lia].
  change 3%Z with (Z.log2 8). apply Z.log2_le_mono. destruct (Z.ltb_spec e 0); lia.
Qed.
(** the absolute error of a result between -256 and 256 *)
Lemma mid_step : forall n z t, std_width n -> n <> 8%Z -> (n <= 32)%Z -> rounds_faithfully Linear n z t -> Rabs z < 256 ->
  exists v, value Linear n t = Some v /\ Rabs (v - z) <= powerRZ 2 (- (n - 8)) * Rmax 1 (Rabs z).
Proof.
  intros n z t Sw N8 N32 F Hz. rewrite powerRZ_bpow. pose proof (bpow_gt_0 radix2 (- (n - 8))) as Pb. pose proof (Rmax_l 1 (Rabs z)) as M1. pose proof (Rmax_r 1 (Rabs z)) as M2.
  destruct (Rle_or_lt (bpow radix2 (-8)) (Rabs z)) as [K|K].
  - assert (Rabs z < bpow radix2 254) as K' by (eapply Rlt_trans; [exact Hz|]; change 256 with (bpow radix2 8); apply bpow_lt; lia).
    assert (bpow radix2 (-254) <= Rabs z) as K2 by (eapply Rle_trans; [apply bpow_le|exact K]; lia).
    destruct (lin_exponent z (conj K2 K')) as (e & He & Be).
    destruct (faithful_error _ _ _ _ Sw N8 F e He Be) as (v & V & Q). exists v. split; [assumption|].
    eapply Rle_trans; [exact Q|]. apply Rmult_le_compat; [rewrite powerRZ_bpow; apply bpow_ge_0|apply Rabs_pos| |assumption].
    rewrite powerRZ_bpow. apply bpow_le. simpl in He. rewrite !powerRZ_bpow in He.
    assert (e < 8)%Z by (apply (lt_bpow radix2); eapply Rle_lt_trans; [apply He|]; exact Hz).
    assert (-8 < e + 1)%Z by (apply (lt_bpow radix2); eapply Rle_lt_trans; [exact K|]; apply He).
    pose proof (fraction_bits_mid n e ltac:(lia)). lia.
  - destruct (faithful_step n z t Sw N8 F) as (v & V & Q).
    { eapply Rlt_trans; [exact K|]. apply bpow_lt. lia. }
    exists v. split; [assumption|]. eapply Rle_trans; [exact Q|].
    assert (roundoff n 0 * Rabs z <= bpow radix2 (- (n - 4))) as A.
    { unfold roundoff. rewrite powerRZ_bpow. replace (- (n - 4))%Z with (- (n - 12 + 0) + -8)%Z by lia. rewrite bpow_plus. apply Rmult_le_compat_l; [apply bpow_ge_0|lra]. }
    assert (bpow radix2 (-254) <= bpow radix2 (- (n - 4))) as B by (apply bpow_le; lia).
    assert (bpow radix2 (- (n - 8)) = 16 * bpow radix2 (- (n - 4))) as C by (replace (- (n - 8))%Z with (4 + - (n - 4))%Z by lia; rewrite bpow_plus; simpl; lra).
    pose proof (bpow_gt_0 radix2 (- (n - 4))). nra.
Qed.
(** the relative error of a result in the takum range *)
Lemma rel_step : forall n z t, std_width n -> n <> 8%Z -> rounds_faithfully Linear n z t -> bpow radix2 (-254) <= Rabs z < bpow radix2 254 ->
  exists v, value Linear n t = Some v /\ Rabs (v - z) <= powerRZ 2 (- (n - 12)) * Rabs z.
Proof.
  intros n z t Sw N8 F B. destruct (lin_exponent z B) as (e & He & Be).
  assert (16 <= n)%Z as Hn by (unfold std_width in Sw; lia).
  destruct (error_roundoff _ _ _ _ _ e Hn He Be (faithful_error _ _ _ _ Sw N8 F)) as (v & V & Q). exists v. split; [assumption|].
  unfold roundoff in Q. replace (n - 12 + 0)%Z with (n - 12)%Z in Q by lia. assumption.
Qed.
Lemma faithful_intn : forall k n z t, std_width n -> rounds_faithfully k n z t -> is_intn n t.
Proof. intros k n z t Sw F. destruct (faithful_value _ _ _ _ Sw F) as (I & _). assumption. Qed.
Lemma pair_funs : forall L P b, logarithm_pair L P b ->
  (forall x, real_fun L x = ln x / ln b) /\ (forall x, real_fun P x = exp (x * ln b)) /\ argument_error L = 0 /\ argument_error P = 0 /\
  (forall n x, 0 < x -> regular Linear n L x) /\ (forall n x, regular Linear n P x) /\ ln 2 <= ln b <= 9.
Proof.
  assert (ln 2 <= 1) as A by (pose proof (ln_lt_sub 2); lra).
  intros L P b [].
  - rewrite ln_exp. split; [intros; simpl; lra|]. split; [intros; simpl; f_equal; lra|]. do 2 (split; [reflexivity|]).
    split; [intros n x Hx; split; [exact Hx|exact I]|]. split; [intros n x; split; exact I|]. lra.
  - split; [intros; reflexivity|]. split; [intros; reflexivity|]. do 2 (split; [reflexivity|]).
    split; [intros n x Hx; split; [exact Hx|exact I]|]. split; [intros n x; split; exact I|]. lra.
  - split; [intros; reflexivity|]. split; [intros; reflexivity|]. do 2 (split; [reflexivity|]).
    split; [intros n x Hx; split; [exact Hx|exact I]|]. split; [intros n x; split; exact I|].
    split; [apply Rlt_le, ln_increasing; lra|]. pose proof (ln_lt_sub 10). lra.
Qed.
Lemma ln_bpow : forall e, ln (bpow radix2 e) = IZR e * ln 2.
Proof. intros e. rewrite <- powerRZ_bpow, powerRZ_Rpower by lra. unfold Rpower. apply ln_exp. Qed.
Lemma exp_bpow : forall e, exp (IZR e * ln 2) = bpow radix2 e.
Proof. intros e. rewrite <- ln_bpow. apply exp_ln, bpow_gt_0. Qed.
Lemma exp_le' : forall a b, a <= b -> exp a <= exp b.
Proof. intros a b [H| ->]; [left; apply exp_increasing; assumption|lra]. Qed.
Lemma ln_le2 : forall a b, 0 < a -> a <= b -> ln a <= ln b.
Proof. intros a b P [H| ->]; [left; apply ln_increasing; assumption|lra]. Qed.
Lemma exp_dist : forall d D, Rabs d <= D -> Rabs (exp d - 1) <= exp D - 1 /\ exp d <= exp D.
Proof.
  intros d D H. pose proof (Rabs_pos d). apply Rabs_le_inv in H. pose proof (exp_le' d D ltac:(lra)) as A. split; [|assumption].
  pose proof (exp_le' (- D) d ltac:(lra)) as B. rewrite exp_Ropp in B. pose proof (exp_pos D) as PD. pose proof (exp_ineq1_le D).
  assert (/ exp D >= 2 - exp D). { apply Rle_ge. apply (Rmult_le_reg_r (exp D)); [lra|]. rewrite Rinv_l by lra. pose proof (Rle_0_sqr (exp D - 1)). unfold Rsqr in *. lra. }
  apply Rabs_le. lra.
Qed.
Lemma narrow_width : forall w, w = W16 \/ w = W32 -> std_width (bits w) /\ bits w <> 8%Z /\ (16 <= bits w <= 32)%Z /\ w <> W64.
Proof. intros w [-> | ->]; (split; [unfold std_width; simpl; tauto|]; split; [discriminate|]; split; [simpl; lia|discriminate]). Qed.

Lemma exp_of_log : forall lm w L P b t x, c99 lm -> (w = W16 \/ w = W32) -> logarithm_pair L P b ->
  is_intn (bits w) t -> value Linear (bits w) t = Some x -> powerRZ 2 (-252) <= x <= powerRZ 2 252 ->
  exists r s v, api_unary Linear lm L w t = Val r /\ api_unary Linear lm P w r = Val s /\ value Linear (bits w) s = Some v /\
    Rabs (v - x) <= (exp (ln b * powerRZ 2 (- (bits w - 8)) * Rmax 1 (Rabs (ln x / ln b))) * (1 + powerRZ 2 (- (bits w - 12))) - 1) * x.
Proof.
  intros lm w L P b t x C Hw Hp It V Hx. destruct (narrow_width w Hw) as (Sw & N8 & Hn & N64).
  destruct (pair_funs L P b Hp) as (FL & FP & AL & AP & RL & RP & Hb). rewrite !powerRZ_bpow in Hx.
  assert (0 < x) as Px by (pose proof (bpow_gt_0 radix2 (-252)); lra). pose proof ln_lt_2 as L2.
  destruct (unary_faithful lm L w t x C N64 AL It V (RL _ _ Px)) as (r & Er & Fr). rewrite FL in Fr.
  assert (Rabs (ln x) <= 252 * ln 2) as Hl.
  { apply Rabs_le. pose proof (ln_le2 _ _ (bpow_gt_0 radix2 (-252)) (proj1 Hx)) as A. pose proof (ln_le2 _ _ Px (proj2 Hx)) as B. rewrite ln_bpow in A, B. lra. }
  set (y := ln x / ln b) in *. assert (y * ln b = ln x) as Ey by (unfold y; field; lra).
  assert (Rabs y * ln b = Rabs (ln x)) as Ey' by (rewrite <- Ey, Rabs_mult, (Rabs_pos_eq (ln b)) by lra; reflexivity).
  assert (Rabs y < 256) as Hy. { pose proof (Rabs_pos y). nra. }
  destruct (mid_step _ y r Sw N8 ltac:(lia) Fr Hy) as (v1 & V1 & Q1).
  rewrite powerRZ_bpow in Q1. set (c := bpow radix2 (- (bits w - 8))) in *. set (M := Rmax 1 (Rabs y)) in *.
  assert (0 < c <= / 256) as Hc by (split; [apply bpow_gt_0|]; unfold c; replace (/ 256) with (bpow radix2 (-8)) by (simpl; lra); apply bpow_le; lia).
  assert (ln b * c * M <= ln 2) as HD.
  { assert (ln b * M <= 256 * ln 2). { unfold M, Rmax. destruct (Rle_dec 1 (Rabs y)); [lra|lra]. }
    assert (0 <= ln b * M) by (unfold M; pose proof (Rmax_l 1 (Rabs y)); nra). nra. }
  destruct (unary_faithful lm P w r v1 C N64 AP (faithful_intn _ _ _ _ Sw Fr) V1 (RP _ _)) as (s & Es & Fs). rewrite FP in Fs.
  set (d := (v1 - y) * ln b). set (D := ln b * c * M) in *.
  assert (Rabs d <= D) as Hd. { unfold d, D. rewrite Rabs_mult, (Rabs_pos_eq (ln b)) by lra. nra. }
  assert (exp (v1 * ln b) = x * exp d) as Ez. { replace (v1 * ln b) with (ln x + d) by (unfold d; lra). rewrite exp_plus, exp_ln by assumption. reflexivity. }
  rewrite Ez in Fs. destruct (exp_dist d D Hd) as [X1 X2].
  assert (/ 2 <= exp d <= 2) as X3.
  { split.
    - replace (/ 2) with (exp (- ln 2)) by (rewrite exp_Ropp, exp_ln; lra). apply exp_le'. apply Rabs_le_inv in Hd. lra.
    - replace 2 with (exp (ln 2)) by (apply exp_ln; lra). apply exp_le'. apply Rabs_le_inv in Hd. lra. }
  assert (bpow radix2 (-254) <= Rabs (x * exp d) < bpow radix2 254) as B.
  { rewrite Rabs_pos_eq by (apply Rmult_le_pos; lra). replace (-254)%Z with (-252 + -2)%Z by lia. replace 254%Z with (252 + 2)%Z by lia. rewrite !bpow_plus.
    change (bpow radix2 (-2)) with (/ 4). change (bpow radix2 2) with 4. pose proof (bpow_gt_0 radix2 (-252)). pose proof (bpow_gt_0 radix2 252).
    split; nra. }
  destruct (rel_step _ _ s Sw N8 Fs B) as (v & Vs & Q). exists r, s, v. split; [assumption|]. split; [assumption|]. split; [assumption|].
  rewrite Rabs_mult, (Rabs_pos_eq x), (Rabs_pos_eq (exp d)) in Q by lra. rewrite !powerRZ_bpow in *. fold c. fold D. set (u := bpow radix2 (- (bits w - 12))) in *.
  assert (0 < u) as Hu by apply bpow_gt_0.
  replace (v - x) with ((v - x * exp d) + x * (exp d - 1)) by ring. eapply Rle_trans; [apply Rabs_triang|]. rewrite Rabs_mult, (Rabs_pos_eq x) by lra.
  replace ((exp D * (1 + u) - 1) * x) with (u * (x * exp D) + x * (exp D - 1)) by ring.
  apply Rplus_le_compat; [|apply Rmult_le_compat_l; lra]. eapply Rle_trans; [exact Q|]. apply Rmult_le_compat_l; [lra|]. apply Rmult_le_compat_l; lra.
Qed.

Lemma ln_dist : forall q u, 0 < u <= / 16 -> Rabs (q - 1) <= u -> Rabs (ln q) <= 16 / 15 * u.
Proof.
  intros q u Hu H. apply Rabs_le_inv in H. pose proof (ln_lt_sub q ltac:(lra)) as A. pose proof (ln_lt_sub (/ q) ltac:(apply Rinv_0_lt_compat; lra)) as B. rewrite ln_Rinv in B by lra.
  assert (/ q <= 1 + 16 / 15 * u). { apply (Rmult_le_reg_r q); [lra|]. rewrite Rinv_l by lra. nra. }
  apply Rabs_le. lra.
Qed.
Lemma log_of_exp : forall lm w L P b t x, c99 lm -> (w = W16 \/ w = W32) -> logarithm_pair L P b ->
  is_intn (bits w) t -> value Linear (bits w) t = Some x -> Rabs x * ln b <= 252 * ln 2 ->
  exists r s v, api_unary Linear lm P w t = Val r /\ api_unary Linear lm L w r = Val s /\ value Linear (bits w) s = Some v /\
    Rabs (v - x) <= 2 * powerRZ 2 (- (bits w - 12)) / ln b + powerRZ 2 (- (bits w - 8)) * Rmax 1 (Rabs x).
Proof.
  intros lm w L P b t x C Hw Hp It V Hx. destruct (narrow_width w Hw) as (Sw & N8 & Hn & N64).
  destruct (pair_funs L P b Hp) as (FL & FP & AL & AP & RL & RP & Hb). pose proof ln_lt_2 as L2. pose proof (Rabs_pos x) as Pax.
  destruct (unary_faithful lm P w t x C N64 AP It V (RP _ _)) as (r & Er & Fr). rewrite FP in Fr.
  set (y := exp (x * ln b)) in *. assert (0 < y) as Py by apply exp_pos.
  assert (bpow radix2 (-254) <= Rabs y < bpow radix2 254) as By.
  { rewrite Rabs_pos_eq by lra. assert (Rabs (x * ln b) <= 252 * ln 2) as A by (rewrite Rabs_mult, (Rabs_pos_eq (ln b)) by lra; assumption). apply Rabs_le_inv in A.
    rewrite <- !exp_bpow. split; [apply exp_le'; lra|apply exp_increasing; lra]. }
  destruct (rel_step _ _ r Sw N8 Fr By) as (v1 & V1 & Q1). rewrite powerRZ_bpow, (Rabs_pos_eq y) in Q1 by lra.
  set (u := bpow radix2 (- (bits w - 12))) in *.
  assert (0 < u <= / 16) as Hu by (split; [apply bpow_gt_0|]; unfold u; replace (/ 16) with (bpow radix2 (-4)) by (simpl; lra); apply bpow_le; lia).
  assert (v1 = y * (v1 / y)) as Ev by (field; lra). set (q := v1 / y) in *.
  assert (Rabs (q - 1) <= u) as Hq. { apply (Rmult_le_reg_r y); [lra|]. rewrite <- (Rabs_pos_eq y) at 1 by lra. rewrite <- Rabs_mult. replace ((q - 1) * y) with (v1 - y) by (rewrite Ev; ring). assumption. }
  pose proof (ln_dist q u Hu Hq) as Hlq. assert (0 < q) as Pq by (apply Rabs_le_inv in Hq; lra).
  assert (0 < v1) as Pv by (rewrite Ev; apply Rmult_lt_0_compat; assumption).
  destruct (unary_faithful lm L w r v1 C N64 AL (faithful_intn _ _ _ _ Sw Fr) V1 (RL _ _ Pv)) as (s & Es & Fs). rewrite FL in Fs.
  set (z := ln v1 / ln b) in *. assert (z = x + ln q / ln b) as Ez. { unfold z. rewrite Ev, ln_mult by assumption. unfold y. rewrite ln_exp. field. lra. }
  assert (Rabs (ln q / ln b) <= 16 / 15 * u / ln b) as Hd.
  { unfold Rdiv at 1. rewrite Rabs_mult, (Rabs_pos_eq (/ ln b)) by (left; apply Rinv_0_lt_compat; lra). unfold Rdiv at 2. apply Rmult_le_compat_r; [left; apply Rinv_0_lt_compat; lra|assumption]. }
  set (d := ln q / ln b) in *. set (iv := / ln b). assert (0 < iv <= 2) as Hiv by (unfold iv; split; [apply Rinv_0_lt_compat; lra|]; replace 2 with (/ (/ 2)) by lra; apply Rinv_le_contravar; lra).
  change (16 / 15 * u / ln b) with (16 / 15 * u * iv) in Hd. change (2 * powerRZ 2 (- (bits w - 12)) / ln b) with (2 * powerRZ 2 (- (bits w - 12)) * iv).
  assert (Rabs x <= 252) as Hx'. { nra. }
  assert (Rabs z <= Rabs x + Rabs d) as Hz by (rewrite Ez; apply Rabs_triang).
  assert (0 < u * iv <= / 8) as Hui by nra.
  destruct (mid_step _ z s Sw N8 ltac:(lia) Fs ltac:(lra)) as (v & Vs & Q). exists r, s, v. split; [assumption|]. split; [assumption|]. split; [assumption|].
  rewrite !powerRZ_bpow in *. fold u. set (c := bpow radix2 (- (bits w - 8))) in *.
  assert (0 < c <= / 256) as Hc by (split; [apply bpow_gt_0|]; unfold c; replace (/ 256) with (bpow radix2 (-8)) by (simpl; lra); apply bpow_le; lia).
  assert (Rmax 1 (Rabs z) <= Rmax 1 (Rabs x) + Rabs d) as HM.
  { pose proof (Rmax_l 1 (Rabs x)). pose proof (Rmax_r 1 (Rabs x)). pose proof (Rabs_pos d). apply Rmax_lub; lra. }
  replace (v - x) with ((v - z) + d) by (rewrite Ez; ring). eapply Rle_trans; [apply Rabs_triang|]. clearbody c u d iv q z y.
  pose proof (Rabs_pos d). assert (c * Rmax 1 (Rabs z) <= c * Rmax 1 (Rabs x) + c * Rabs d) by (rewrite <- Rmult_plus_distr_l; apply Rmult_le_compat_l; lra).
  assert (c * Rabs d <= / 256 * Rabs d) by (apply Rmult_le_compat_r; lra). lra.
Qed.
