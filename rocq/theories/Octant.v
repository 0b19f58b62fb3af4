(** Functions of two arguments do not overshoot takums, and the octant of the
    angle (C100). *)
From Coq Require Import ZArith Reals Bool Lia Lra.
From Flocq Require Import Core.Core.
From Verif Require Import CModel FloatModel Libm LibmSpec Spec SpecFacts ValueFacts RoundFacts WidthFacts WidthApi WidthProps Wrappers WrapApi WrapSpec WrapSpec2 WrapBin RangeSpec Faithful RangeFacts LogProps LinArith MiscProps WidthSteps Exactly Sterbenz.
Local Open Scope R_scope.

Lemma between : forall n z t, std_width n -> rounds_faithfully Linear n z t ->
  exists y, value Linear n t = Some y /\ forall v, has_takum Linear n v -> (z <= v -> y <= v) /\ (v <= z -> v <= y).
Proof.
  intros n z t Sw Rf. destruct (faithful_value _ _ _ _ Sw Rf) as (_ & y & Vy & _). exists y. split; [assumption|]. intros v (a & Ia & Va).
  split; intros H; [apply (faithful_le Linear n z t y a v)|apply (faithful_ge Linear n z t y a v)]; assumption.
Qed.
Lemma std_bits : forall w, std_width (bits w).
Proof. intros []; unfold std_width; simpl; tauto. Qed.
Theorem binary_between : forall lm b w s t x y r a v, c99 lm -> w <> W64 -> b <> n_multiplication -> b <> n_division ->
  is_intn (bits w) s -> is_intn (bits w) t -> value Linear (bits w) s = Some x -> value Linear (bits w) t = Some y -> is_value2 b x y r ->
  is_intn (bits w) a -> value Linear (bits w) a = Some v ->
  exists z u, api_binary Linear lm b w s t = Val z /\ value Linear (bits w) z = Some u /\ (r <= v -> u <= v) /\ (v <= r -> v <= u).
Proof.
  intros lm b w s t x y r a v C Nw N1 N2 Is It Vx Vy Hr Ia Va. destruct (Faithful.binary_faithful lm C b w s t x y r Nw N1 N2 Is It Vx Vy Hr) as (z & E & Rf).
  destruct (between _ _ _ (std_bits w) Rf) as (u & Vu & K). exists z, u. split; [assumption|]. split; [assumption|]. apply K. exists a. split; assumption.
Qed.
Theorem power_between : forall lm w t j x a v, c99 lm -> is_intn (bits w) t -> is_int64 j -> value Linear (bits w) t = Some x -> x <> 0 \/ (0 < j)%Z ->
  is_intn (bits w) a -> value Linear (bits w) a = Some v ->
  exists z u, api_integer_power Linear lm w t j = Val z /\ value Linear (bits w) z = Some u /\ (powerRZ x j <= v -> u <= v) /\ (v <= powerRZ x j -> v <= u).
Proof.
  intros lm w t j x a v C It Ij Vx Hx Ia Va. destruct (Faithful.integer_power_faithful lm C w t j x It Ij Vx Hx) as (z & E & Rf).
  destruct (between _ _ _ (std_bits w) Rf) as (u & Vu & K). exists z, u. split; [assumption|]. split; [assumption|]. apply K. exists a. split; assumption.
Qed.
Theorem root_between : forall lm w t j x r a v, c99 lm -> w <> W64 -> is_intn (bits w) t -> is_int64 j -> value Linear (bits w) t = Some x ->
  0 < x \/ j = 1%Z \/ j = (-1)%Z -> is_root j x r -> is_intn (bits w) a -> value Linear (bits w) a = Some v ->
  exists z u, api_root Linear lm w t j = Val z /\ value Linear (bits w) z = Some u /\ (r <= v -> u <= v) /\ (v <= r -> v <= u).
Proof.
  intros lm w t j x r a v C Nw It Ij Vx Hx Hr Ia Va. destruct (Faithful.root_faithful lm C w t j x r Nw It Ij Vx Hx Hr) as (z & E & Rf).
  destruct (between _ _ _ (std_bits w) Rf) as (u & Vu & K). exists z, u. split; [assumption|]. split; [assumption|]. apply K. exists a. split; assumption.
Qed.

(** takums 1/4, 1/2, 3/4 and 1 *)
Lemma Lin_takum : forall n x j d, std_width n -> -255 < x < 255 -> (0 <= d <= n - 5 - regc (Zfloor x))%Z -> x = IZR j * bpow radix2 (- d) -> has_takum Linear n (Lin x).
Proof.
  intros n x j d Sw Hx Hd E. pose proof (Lin_pos x). apply rep_value; [assumption|lra|]. simpl coord. rewrite lin_coord_Lin. apply (rep_regime n x j d); try assumption.
  pose proof (std_range n Sw). lia.
Qed.
Lemma quarters : forall n, std_width n -> has_takum Linear n (/ 4) /\ has_takum Linear n (/ 2) /\ has_takum Linear n (3 / 4) /\ has_takum Linear n 1.
Proof.
  intros n Sw.
  assert (Zfloor (- / 2) = -1)%Z as F by (apply Zfloor_imp; simpl; lra).
  split; [|split; [|split]].
  - replace (/ 4) with (Lin (IZR (-2))) by (unfold Lin; rewrite Zfloor_IZR; change (bpow radix2 (-2)) with (/ 4); lra).
    apply (Lin_takum n _ (-2) 0); [assumption|lra| |change (bpow radix2 (- 0)) with 1; lra]. rewrite Zfloor_IZR. change (regc (-2)) with 1%Z. unfold std_width in *; lia.
  - replace (/ 2) with (Lin (IZR (-1))) by (unfold Lin; rewrite Zfloor_IZR; change (bpow radix2 (-1)) with (/ 2); lra).
    apply (Lin_takum n _ (-1) 0); [assumption|lra| |change (bpow radix2 (- 0)) with 1; lra]. rewrite Zfloor_IZR. change (regc (-1)) with 0%Z. unfold std_width in *; lia.
  - replace (3 / 4) with (Lin (- / 2)) by (unfold Lin; rewrite F; change (bpow radix2 (-1)) with (/ 2); lra).
    apply (Lin_takum n _ (-1) 1); [assumption|lra| |change (bpow radix2 (- (1))) with (/ 2); lra]. rewrite F. change (regc (-1)) with 0%Z. unfold std_width in *; lia.
  - replace 1 with (Lin (IZR 0)) by (unfold Lin; rewrite Zfloor_IZR; change (bpow radix2 0) with 1; lra).
    apply (Lin_takum n _ 0 0); [assumption|lra| |change (bpow radix2 (- 0)) with 1; lra]. rewrite Zfloor_IZR. change (regc 0) with 0%Z. unfold std_width in *; lia.
Qed.

(** octants *)
Lemma cos_half : forall w, 0 <= w <= PI -> (0 <= cos w -> w <= PI / 2) /\ (cos w <= 0 -> PI / 2 <= w).
Proof.
  intros w Hw. pose proof PI_RGT_0. split; intros H'.
  - apply Rnot_lt_le. intros K. pose proof (cos_lt_0 w K ltac:(lra)). lra.
  - apply Rnot_lt_le. intros K. pose proof (cos_gt_0 w ltac:(lra) K). lra.
Qed.
Lemma cos_quarter : forall w, 0 <= w <= PI -> (sin w <= cos w -> w <= PI / 4) /\ (cos w <= sin w -> PI / 4 <= w).
Proof.
  intros w Hw. pose proof PI_RGT_0. assert (cos (w + PI / 4) = (cos w - sin w) * (1 / sqrt 2)) as E by (rewrite cos_plus, cos_PI4, sin_PI4; ring).
  assert (0 < 1 / sqrt 2) as P by (apply Rdiv_lt_0_compat; [lra|apply sqrt_lt_R0; lra]). split; intros H'; apply Rnot_lt_le; intros K.
  - pose proof (cos_lt_0 (w + PI / 4) ltac:(lra) ltac:(lra)) as L. rewrite E in L. pose proof (Rmult_le_pos (cos w - sin w) _ ltac:(lra) (Rlt_le _ _ P)). lra.
  - pose proof (cos_gt_0 (w + PI / 4) ltac:(lra) ltac:(lra)) as L. rewrite E in L. pose proof (Rmult_le_pos (sin w - cos w) _ ltac:(lra) (Rlt_le _ _ P)). lra.
Qed.
Lemma cos_three_quarters : forall w, 0 <= w <= PI -> (- sin w <= cos w -> w <= 3 / 4 * PI) /\ (cos w <= - sin w -> 3 / 4 * PI <= w).
Proof.
  intros w Hw. pose proof PI_RGT_0. assert (cos (w - PI / 4) = (cos w + sin w) * (1 / sqrt 2)) as E by (rewrite cos_minus, cos_PI4, sin_PI4; ring).
  assert (0 < 1 / sqrt 2) as P by (apply Rdiv_lt_0_compat; [lra|apply sqrt_lt_R0; lra]). split; intros H'; apply Rnot_lt_le; intros K.
  - pose proof (cos_lt_0 (w - PI / 4) ltac:(lra) ltac:(lra)) as L. rewrite E in L. pose proof (Rmult_le_pos (cos w + sin w) _ ltac:(lra) (Rlt_le _ _ P)). lra.
  - pose proof (cos_gt_0 (w - PI / 4) ltac:(lra) ltac:(lra)) as L. rewrite E in L. pose proof (Rmult_le_pos (- sin w - cos w) _ ltac:(lra) (Rlt_le _ _ P)). lra.
Qed.
Lemma angle_octant : forall y x z, is_angle y x z -> octant y x (z / PI).
Proof.
  intros y x z (B & D & O). cbv zeta in D. pose proof (sqrt_pos (x * x + y * y)) as Pd.
  set (d := sqrt (x * x + y * y)) in *. clearbody d. pose proof PI_RGT_0 as Pp.
  assert (forall v, v * PI <= z -> v <= z / PI) as U by (intros v Hv; apply (Rmult_le_reg_r PI); [assumption|]; unfold Rdiv; rewrite Rmult_assoc, Rinv_l by lra; lra).
  assert (forall v, z <= v * PI -> z / PI <= v) as L by (intros v Hv; apply (Rmult_le_reg_r PI); [assumption|]; unfold Rdiv; rewrite Rmult_assoc, Rinv_l by lra; lra).
  assert (Rabs (z / PI) = Rabs z / PI) as EA by (unfold Rdiv; rewrite Rabs_mult, Rabs_inv, (Rabs_pos_eq PI) by lra; reflexivity).
  assert (forall v, v * PI <= Rabs z -> v <= Rabs (z / PI)) as UA by (intros v Hv; rewrite EA; apply (Rmult_le_reg_r PI); [assumption|]; unfold Rdiv; rewrite Rmult_assoc, Rinv_l by lra; lra).
  assert (forall v, Rabs z <= v * PI -> Rabs (z / PI) <= v) as LA by (intros v Hv; rewrite EA; apply (Rmult_le_reg_r PI); [assumption|]; unfold Rdiv; rewrite Rmult_assoc, Rinv_l by lra; lra).
  set (w := Rabs z) in *. assert (0 <= w <= PI) as Bw by (unfold w; split; [apply Rabs_pos|apply Rabs_le; lra]).
  assert (cos z = cos w) as Ec by (unfold w, Rabs; destruct (Rcase_abs z); [symmetry; apply cos_neg|reflexivity]).
  assert (Rabs (sin z) = sin w) as Es.
  { rewrite <- (Rabs_pos_eq (sin w)) by (apply sin_ge_0; lra). unfold w, Rabs at 3. destruct (Rcase_abs z); [rewrite sin_neg, Rabs_Ropp|]; reflexivity. }
  assert (Rabs y = d * sin w) as Ey by (destruct D as [_ Dy]; rewrite Dy, Rabs_mult, (Rabs_pos_eq d) by assumption; rewrite Es; reflexivity).
  assert (x = d * cos w) as Ex by (rewrite <- Ec; apply D).
  assert (d = 0 -> w = 0) as D0.
  { intros Z0. rewrite Z0 in D. assert (z = 0) as -> by (apply O; lra). unfold w. apply Rabs_R0. }
  assert (x <> 0 \/ y <> 0 -> 0 < d) as Dp by (intros N; destruct Pd as [?|Z0]; [assumption|]; rewrite <- Z0 in D; destruct N; lra).
  destruct (cos_half w Bw) as [H1 H2]. destruct (cos_quarter w Bw) as [Q1 Q2]. destruct (cos_three_quarters w Bw) as [T1 T2].
  assert (forall a b, d * a <= d * b -> d = 0 \/ a <= b) as Cd.
  { intros a b Hd. destruct Pd as [Pd|Z0]; [right; apply (Rmult_le_reg_l d); assumption|left; auto]. }
  assert (Rabs z <= 1 * PI) as A1 by (fold w; lra). apply LA in A1. apply Rabs_le_inv in A1.
  assert (sin z <= 0 -> 0 < z -> z = PI) as SP by (intros; destruct (Rlt_or_le z PI) as [K|K]; [pose proof (sin_gt_0 z ltac:(lra) K); lra|lra]).
  split; [lra|]. split; [|split; [|split; [|split; [|split; [|split]]]]].
  - intros Hy. apply U. rewrite Rmult_0_l. destruct (Rlt_or_le z 0) as [K|K]; [|assumption]. exfalso.
    assert (0 < d) as P by (destruct Pd as [?|Z0]; [assumption|]; symmetry in Z0; specialize (D0 Z0); unfold w in D0; destruct (Rcase_abs z); [rewrite Rabs_left in D0; lra|lra]).
    pose proof (sin_lt_0_var z ltac:(lra) K) as S. destruct D as [_ D]. assert (0 < d * - sin z) by (apply Rmult_lt_0_compat; lra). lra.
  - intros Hy. assert (0 < d) as P by (apply Dp; right; lra).
    assert (sin z < 0) as S by (destruct D as [_ D]; apply (Rmult_lt_reg_l d); lra).
    assert (z < 0) as Nz by (apply Rnot_le_lt; intros K; pose proof (sin_ge_0 z K ltac:(lra)); lra).
    unfold Rdiv. assert (0 < / PI) by (apply Rinv_0_lt_compat; lra). assert (0 < - z * / PI) by (apply Rmult_lt_0_compat; lra). lra.
  - intros H. apply LA. rewrite Ey, Ex in H. destruct (Cd _ _ H) as [Z0|K]; [rewrite D0 by assumption|apply Q1 in K]; lra.
  - intros H. apply LA. rewrite Ex in H. destruct (Cd 0 (cos w) ltac:(lra)) as [Z0|K]; [rewrite D0 by assumption|apply H1 in K]; lra.
  - intros H. apply LA. rewrite Ey, Ex in H. destruct (Cd (- sin w) (cos w) ltac:(lra)) as [Z0|K]; [rewrite D0 by assumption|apply T1 in K]; lra.
  - intros N. specialize (Dp N). repeat split; intros H; apply UA.
    + rewrite Ey, Ex in H. apply (Rmult_le_reg_l d) in H; [|assumption]. apply Q2 in H. lra.
    + rewrite Ex in H. assert (cos w <= 0) as K by (apply (Rmult_le_reg_l d); lra). apply H2 in K. lra.
    + rewrite Ey, Ex in H. assert (cos w <= - sin w) as K by (destruct (Cd (sin w) (- cos w) ltac:(lra)); lra). apply T2 in K. lra.
  - intros Nx Y0. assert (0 < d) as P by (apply Dp; left; lra). assert (sin z = 0) as S by (destruct D as [_ D]; apply (Rmult_eq_reg_l d); lra).
    assert (cos w <= 0) as K by (apply (Rmult_le_reg_l d); lra). apply H2 in K.
    assert (z = PI) as -> by (apply SP; [lra|]; destruct (Rle_lt_dec z 0) as [Z|Z]; [|assumption]; exfalso; unfold w in K; rewrite Rabs_left1 in K by assumption; pose proof (sin_lt_0_var z ltac:(lra) ltac:(lra)); lra). field. lra.
Qed.
Theorem arctan2_octant : forall lm w s t y x, c99 lm -> w <> W64 -> is_intn (bits w) s -> is_intn (bits w) t ->
  value Linear (bits w) s = Some y -> value Linear (bits w) t = Some x ->
  exists r v, api_binary Linear lm n_arctan2_over_pi w s t = Val r /\ value Linear (bits w) r = Some v /\ octant y x v.
Proof.
  intros lm w s t y x C Nw Is It Vy Vx. pose proof (atan2_angle y x) as A. set (z := real_atan2 y x) in *. pose proof PI_RGT_0 as Pp.
  pose proof (angle_octant y x z A) as O. set (q := z / PI) in *.
  assert (is_value2 n_arctan2_over_pi y x q) as V by (unfold is_value2, q; replace (z / PI * PI) with z by (field; lra); assumption).
  destruct (Faithful.binary_faithful lm C n_arctan2_over_pi w s t y x q Nw ltac:(discriminate) ltac:(discriminate) Is It Vy Vx V) as (r & E & Rf).
  pose proof (std_bits w) as Sw. destruct (between _ _ _ Sw Rf) as (v & Vv & K). exists r, v. split; [assumption|]. split; [assumption|].
  destruct (quarters (bits w) Sw) as (T4 & T2 & T3 & T1). pose proof (has_takum_0 Linear (bits w) Sw) as T0.
  assert (forall b, has_takum Linear (bits w) b -> (Rabs q <= b -> Rabs v <= b) /\ (b <= Rabs q -> b <= Rabs v)) as KA.
  { intros b Tb. pose proof (has_takum_opp _ _ _ Sw Tb) as Tb'. destruct (K b Tb) as [K1 K2]. destruct (K _ Tb') as [K3 K4]. split; intros H.
    - apply Rabs_le_inv in H. apply Rabs_le. split; [apply K4|apply K1]; lra.
    - destruct (Rle_lt_dec 0 q) as [P|P].
      + rewrite Rabs_pos_eq in H by assumption. specialize (K2 H). pose proof (Rle_abs v). lra.
      + rewrite Rabs_left in H by assumption. specialize (K3 ltac:(lra)). pose proof (Rle_abs (- v)) as RA. rewrite Rabs_Ropp in RA. lra. }
  destruct (faithful_value _ _ _ _ Sw Rf) as (_ & v' & Vv' & S1 & S2 & S3). assert (v' = v) as -> by congruence.
  destruct O as (O1 & O2 & O3 & O4 & O5 & O6 & O7 & O8).
  split; [assert (Rabs q <= 1) as A1 by (apply Rabs_le; assumption); apply KA in A1; [apply Rabs_le_inv in A1; assumption|assumption]|].
  split; [intros H; apply (K 0 T0); auto|]. split; [intros H; apply S2; auto|].
  split; [intros H; apply (KA _ T4); auto|]. split; [intros H; apply (KA _ T2); auto|]. split; [intros H; apply (KA _ T3); auto|].
  split; [intros N; destruct (O7 N) as (P1 & P2 & P3); repeat split; intros H; [apply (KA _ T4)|apply (KA _ T2)|apply (KA _ T3)]; auto|].
  intros H1 H2. specialize (O8 H1 H2). destruct (K 1 T1) as [K1 K2]. apply Rle_antisym; [apply K1|apply K2]; lra.
Qed.
