(** Errors of sums and products of lists of takums (C102, C103). *)
From Coq Require Import ZArith Reals Bool List Lia Lra.
From Flocq Require Import Core.Core.
From Verif Require Import CModel FloatModel Spec CodeFacts SpecFacts ValueFacts RoundFacts WidthFacts WidthProps LogApi LogProps LinOps LinApi LinArith MiscProps WidthSteps RangeFacts Exactly Sterbenz Octant ErrorSpec ErrorProps ErrorApi.
Local Open Scope R_scope.

Lemma fraction_bits_ge : forall n e, (-255 <= e < 255)%Z -> (n - 12 <= fraction_bits n e <= n - 5)%Z.
Proof.
  intros n e He. destruct (regc_bound e He) as [B _]. rewrite regc_eq in B by assumption. unfold fraction_bits. lia.
Qed.
Lemma powerRZ_bpow : forall e, powerRZ 2 e = bpow radix2 e.
Proof. intros e. symmetry. exact (bpow_powerRZ radix2 e). Qed.
Lemma roundoff_pos : forall n q, 0 < roundoff n q.
Proof. intros n q. unfold roundoff. rewrite powerRZ_bpow. apply bpow_gt_0. Qed.
Lemma roundoff_small : forall n q, (16 <= n)%Z -> (0 <= q)%Z -> roundoff n q <= / 16.
Proof.
  intros n q Hn Hq. unfold roundoff. rewrite powerRZ_bpow. replace (/ 16) with (bpow radix2 (-4)) by (simpl; lra). apply bpow_le. lia.
Qed.
Lemma lin_exponent : forall z, bpow radix2 (-254) <= Rabs z < bpow radix2 254 -> exists e, has_exponent Linear z e /\ (-254 <= e < 254)%Z.
Proof.
  intros z Hz. assert (z <> 0) as Nz by (intros ->; rewrite Rabs_R0 in Hz; pose proof (bpow_gt_0 radix2 (-254)); lra).
  assert (exists e, bpow radix2 e <= Rabs z < bpow radix2 (e + 1)) as (e & He).
  { exists (mag radix2 z - 1)%Z. destruct (mag radix2 z) as [e He]. simpl. specialize (He Nz). replace (e - 1 + 1)%Z with e by lia. assumption. }
  exists e. split.
  - unfold has_exponent. rewrite !powerRZ_bpow. assumption.
  - split.
    + assert (-254 < e + 1)%Z; [|lia]. apply (lt_bpow radix2). lra.
    + apply (lt_bpow radix2). lra.
Qed.
Lemma error_roundoff : forall k n q z t e, (16 <= n)%Z -> has_exponent k z e -> (-254 <= e < 254)%Z -> relative_error k n q z t ->
  exists y, value k n t = Some y /\ Rabs (y - z) <= roundoff n q * Rabs z.
Proof.
  intros k n q z t e Hn He Be H. destruct (H e He Be) as (y & V & B). exists y. split; [assumption|]. eapply Rle_trans; [exact B|].
  apply Rmult_le_compat_r; [apply Rabs_pos|]. unfold roundoff. rewrite !powerRZ_bpow. apply bpow_le. pose proof (fraction_bits_ge n e). lia.
Qed.
Lemma tiny_takum : forall n, std_width n -> n <> 8%Z -> has_takum Linear n (bpow radix2 (-254)).
Proof.
  intros n Sw N8. rewrite <- Lin_bpow. apply (Lin_takum n _ (-254) 0); [assumption|split; apply IZR_lt; reflexivity| |].
  - rewrite Zfloor_IZR. destruct (regc_bound (-254) ltac:(lia)) as [B _]. unfold std_width in Sw. lia.
  - change (bpow radix2 (- 0)) with 1. ring.
Qed.

(** one step *)
Lemma add_step : forall n f a b x y, linear_addition n f -> n <> 8%Z -> is_intn n a -> is_intn n b ->
  value Linear n a = Some x -> value Linear n b = Some y -> Rabs (x + y) < bpow radix2 254 ->
  exists t v, f a b = Val t /\ is_intn n t /\ value Linear n t = Some v /\
    (bpow radix2 (-254) <= Rabs (x + y) -> Rabs (v - (x + y)) <= roundoff n (if (n <? 64)%Z then 1 else 0) * Rabs (x + y)) /\
    (Rabs (x + y) < bpow radix2 (-254) -> Rabs (v - (x + y)) <= bpow radix2 (-254)) /\
    (bpow radix2 (-254) <= x + y -> bpow radix2 (-254) <= v) /\ (x + y = 0 -> v = 0).
Proof.
  intros n f a b x y H N8 Ia Ib Va Vb Hz. destruct (lin_add_error n f a b x y H N8 Ia Ib Va Vb) as (t & E & I & Er).
  destruct (add_faithful n f H a b Ia Ib) as (t' & E' & _ & F). rewrite Va, Vb in F. assert (t' = t) as -> by congruence. clear E'.
  assert (std_width n) as Sw by (destruct H; unfold std_width; tauto). assert (16 <= n)%Z as Hn by (unfold std_width in Sw; lia).
  destruct (between n _ t Sw F) as (v & Vt & B). destruct (faithful_value _ _ _ _ Sw F) as (_ & v' & V' & S1 & S2 & S3). assert (v' = v) as -> by congruence. clear V'.
  exists t, v. split; [assumption|]. split; [assumption|]. split; [assumption|]. split; [|split; [|split]].
  - intros K. destruct (lin_exponent (x + y) ltac:(lra)) as (e & He & Be). destruct (error_roundoff _ _ _ _ _ e Hn He Be Er) as (v' & V' & Q). assert (v' = v) as -> by congruence. assumption.
  - intros K. destruct (B _ (tiny_takum n Sw N8)) as [B1 _]. destruct (B _ (has_takum_opp _ _ _ Sw (tiny_takum n Sw N8))) as [_ B2].
    apply Rabs_lt_inv in K. specialize (B1 ltac:(lra)). specialize (B2 ltac:(lra)).
    destruct (Rtotal_order (x + y) 0) as [C|[C|C]].
    + specialize (S2 C). apply Rabs_le. lra.
    + rewrite (S3 C), C. rewrite Rminus_0_r, Rabs_R0. apply bpow_ge_0.
    + specialize (S1 C). apply Rabs_le. lra.
  - intros K. apply (B _ (tiny_takum n Sw N8)). assumption.
  - assumption.
Qed.

(** * Sums *)
Lemma sum_error : forall n f, linear_addition n f -> n <> 8%Z -> forall ts a x0 xs, is_intn n a -> value Linear n a = Some x0 -> have_values Linear n ts xs ->
  let u := roundoff n (if (n <? 64)%Z then 1 else 0) in let m := length ts in
  (1 + u) ^ m * (Rabs x0 + sum_of_magnitudes xs + INR m * powerRZ 2 (-254)) < powerRZ 2 254 ->
  exists t y, accumulate f a ts = Val t /\ is_intn n t /\ value Linear n t = Some y /\
    Rabs (y - (x0 + sum xs)) <= ((1 + u) ^ m - 1) * (Rabs x0 + sum_of_magnitudes xs) + INR m * (1 + u) ^ m * powerRZ 2 (-254).
Proof.
  intros n f H N8 ts. induction ts as [|t ts IH]; intros a x0 xs Ia Va Hv u m Hs.
  - inversion Hv; subst. exists a, x0. split; [reflexivity|]. split; [assumption|]. split; [assumption|]. unfold sum, sum_of_magnitudes, m. simpl.
    replace (x0 - (x0 + 0)) with 0 by ring. rewrite Rabs_R0. lra.
  - inversion Hv as [|? x ? xs' [It Vt] Hv']; subst. clear Hv. rewrite !powerRZ_bpow in *.
    set (eta := bpow radix2 (-254)) in *. assert (0 < eta) as Pe by apply bpow_gt_0.
    assert (0 < u) as Pu by apply roundoff_pos.
    set (k := length ts) in *. assert (m = S k) as Em by reflexivity. clearbody m. subst m. rewrite S_INR in *.
    unfold sum, sum_of_magnitudes in *. cbn [fold_right] in *. fold (sum xs') in *. fold (sum_of_magnitudes xs') in *.
    assert (0 <= sum_of_magnitudes xs') as PB. { clear. unfold sum_of_magnitudes. induction xs' as [|y l IH]; simpl; [lra|]. pose proof (Rabs_pos y). lra. }
    set (B := sum_of_magnitudes xs') in *. set (S := sum xs') in *. set (q := (1 + u) ^ k) in *. assert (1 <= q) as Pq by (apply pow_R1_Rle; lra).
    change ((1 + u) ^ Datatypes.S k) with ((1 + u) * q) in *. pose proof (pos_INR k) as PN. set (N := INR k) in *.
    pose proof (Rabs_triang x0 x) as T. pose proof (Rabs_pos x0) as P0. pose proof (Rabs_pos x) as P1. pose proof (Rabs_pos (x0 + x)) as P2.
    assert (1 <= (1 + u) * q) as Pq' by nra.
    assert (Rabs (x0 + x) < bpow radix2 254) as Hz. { assert (0 <= (N + 1) * eta) by nra. assert (0 <= (1 + u) * q - 1) as W by lra. nra. }
    destruct (add_step n f a t x0 x H N8 Ia It Va Vt Hz) as (t1 & y1 & E1 & I1 & V1 & C1 & C2 & _). fold u in C1. fold eta in C1, C2.
    assert (Rabs (y1 - (x0 + x)) <= u * Rabs (x0 + x) + eta) as C.
    { destruct (Rle_or_lt (bpow radix2 (-254)) (Rabs (x0 + x))) as [K|K]; [specialize (C1 K); lra|specialize (C2 K)]. nra. }
    clear C1 C2. clearbody eta.
    assert (Rabs y1 <= Rabs (x0 + x) + u * Rabs (x0 + x) + eta) as A1.
    { replace y1 with ((y1 - (x0 + x)) + (x0 + x)) by ring. pose proof (Rabs_triang (y1 - (x0 + x)) (x0 + x)). lra. }
    assert (q * (Rabs y1 + B + N * eta) <= (1 + u) * q * (Rabs x0 + (Rabs x + B) + (N + 1) * eta)) as A2.
    { rewrite (Rmult_comm (1 + u) q), Rmult_assoc. apply Rmult_le_compat_l; [lra|]. assert (0 <= u * B) by nra. assert (0 <= u * ((N + 1) * eta)) by (apply Rmult_le_pos; [lra|]; apply Rmult_le_pos; lra).
      assert (u * Rabs (x0 + x) <= u * (Rabs x0 + Rabs x)) by (apply Rmult_le_compat_l; lra). lra. }
    destruct (IH t1 y1 xs' I1 V1 Hv') as (t2 & y2 & E2 & I2 & V2 & D2).
    { change (q * (Rabs y1 + B + N * eta) < bpow radix2 254). lra. }
    exists t2, y2. split; [cbn [accumulate]; rewrite E1; exact E2|]. split; [assumption|]. split; [assumption|].
    change (Rabs (y2 - (y1 + S)) <= (q - 1) * (Rabs y1 + B) + N * q * eta) in D2.
    replace (y2 - (x0 + (x + S))) with ((y2 - (y1 + S)) + (y1 - (x0 + x))) by ring. eapply Rle_trans; [apply Rabs_triang|].
    set (z := Rabs (x0 + x)) in *. clearbody z.
    assert ((q - 1) * (Rabs y1 + B) <= (q - 1) * (z + u * z + eta + B)) as A3 by (apply Rmult_le_compat_l; lra).
    assert (((1 + u) * q - 1) * z <= ((1 + u) * q - 1) * (Rabs x0 + Rabs x)) as A4 by (apply Rmult_le_compat_l; lra).
    assert (0 <= u * q * B) by (apply Rmult_le_pos; [apply Rmult_le_pos; lra|lra]).
    assert (0 <= u * q * ((N + 1) * eta)) by (apply Rmult_le_pos; [apply Rmult_le_pos; lra|apply Rmult_le_pos; lra]).
    lra.
Qed.

(** sums of numbers that are not negative *)
Lemma sum_positive : forall n f, linear_addition n f -> n <> 8%Z -> forall ts a x0 xs, is_intn n a -> value Linear n a = Some x0 -> have_values Linear n ts xs ->
  Forall (fun x => x = 0 \/ powerRZ 2 (-254) <= x) (x0 :: xs) ->
  let u := roundoff n (if (n <? 64)%Z then 1 else 0) in let m := length ts in
  (1 + u) ^ m * (x0 + sum xs) < powerRZ 2 254 ->
  exists t y, accumulate f a ts = Val t /\ is_intn n t /\ value Linear n t = Some y /\
    (1 - u) ^ m * (x0 + sum xs) <= y <= (1 + u) ^ m * (x0 + sum xs).
Proof.
  intros n f H N8 ts. induction ts as [|t ts IH]; intros a x0 xs Ia Va Hv Hp u m Hs.
  - inversion Hv; subst. exists a, x0. split; [reflexivity|]. split; [assumption|]. split; [assumption|]. unfold sum, m. simpl. lra.
  - inversion Hv as [|? x ? xs' [It Vt] Hv']; subst. clear Hv. inversion Hp as [|? ? Hx0 Hp']; subst. clear Hp. inversion Hp' as [|? ? Hx Hp]; subst. clear Hp'.
    assert (0 < u <= / 16) as Pu by (split; [apply roundoff_pos|apply roundoff_small; [destruct H; lia|destruct (n <? 64)%Z; lia]]).
    pose proof (bpow_gt_0 radix2 (-254)) as Pe. assert (0 <= x0 /\ 0 <= x) as [P0 P1] by (rewrite powerRZ_bpow in *; lra).
    assert (0 <= sum xs') as PB.
    { clear - Hp. unfold sum. induction Hp as [|y l Hy Hp IH]; simpl; [lra|]. rewrite powerRZ_bpow in Hy. pose proof (bpow_gt_0 radix2 (-254)). lra. }
    set (k := length ts) in *. change m with (S k) in *. clear m.
    change (sum (x :: xs')) with (x + sum xs') in *. set (S := sum xs') in *. set (q := (1 + u) ^ k) in *. set (r := (1 - u) ^ k) in *.
    assert (1 <= q) as Pq by (apply pow_R1_Rle; lra). assert (0 <= r) as Pr by (apply pow_le; lra).
    change ((1 + u) ^ Datatypes.S k) with ((1 + u) * q) in *. change ((1 - u) ^ Datatypes.S k) with ((1 - u) * r) in *.
    assert (1 <= (1 + u) * q) as Pq' by nra.
    assert (x0 + x < bpow radix2 254) as Hz by (rewrite powerRZ_bpow in Hs; nra).
    destruct (add_step n f a t x0 x H N8 Ia It Va Vt ltac:(rewrite Rabs_pos_eq by lra; assumption)) as (t1 & y1 & E1 & I1 & V1 & C1 & _ & C3 & C4). fold u in C1.
    rewrite Rabs_pos_eq in C1 by lra.
    assert ((x0 + x = 0 /\ y1 = 0 \/ powerRZ 2 (-254) <= y1) /\ (1 - u) * (x0 + x) <= y1 <= (1 + u) * (x0 + x)) as [Y1 Y2].
    { rewrite powerRZ_bpow in *. assert (x0 + x = 0 \/ bpow radix2 (-254) <= x0 + x) as [K|K] by lra.
      - rewrite (C4 K), K. lra.
      - specialize (C1 K). specialize (C3 K). split; [right; assumption|]. apply Rabs_le_inv in C1. lra. }
    assert (q * (y1 + S) <= (1 + u) * q * (x0 + (x + S))) as A2.
    { rewrite (Rmult_comm (1 + u) q), Rmult_assoc. apply Rmult_le_compat_l; [lra|]. assert (0 <= u * S) by (apply Rmult_le_pos; lra). lra. }
    assert ((1 - u) * r * (x0 + (x + S)) <= r * (y1 + S)) as A3.
    { rewrite (Rmult_comm (1 - u) r), Rmult_assoc. apply Rmult_le_compat_l; [lra|]. assert (0 <= u * S) by (apply Rmult_le_pos; lra). lra. }
    destruct (IH t1 y1 xs' I1 V1 Hv') as (t2 & y2 & E2 & I2 & V2 & D2).
    { constructor; [tauto|assumption]. }
    { change (q * (y1 + S) < powerRZ 2 254). lra. }
    change (r * (y1 + S) <= y2 <= q * (y1 + S)) in D2.
    exists t2, y2. split; [cbn [accumulate]; rewrite E1; exact E2|]. split; [assumption|]. split; [assumption|]. lra.
Qed.

(** * Products *)
Lemma moderate_exponent : forall k z c, moderate k z -> / 2 <= c < 2 -> z * c <> 0 -> exists e, has_exponent k (z * c) e /\ (-254 <= e < 254)%Z.
Proof.
  intros k z c M Hc Nz. pose proof (Rabs_pos z) as Pz. assert (Rabs (z * c) = Rabs z * c) as Ez by (rewrite Rabs_mult, (Rabs_pos_eq c) by lra; reflexivity).
  destruct k.
  - simpl in M. assert (exp (-127) <= Rabs (z * c) < exp 127) as B.
    { rewrite Ez. assert (2 < exp 1) as E1 by (pose proof (exp_ineq1 1 ltac:(lra)); lra).
      assert (exp (-126) = exp (-127) * exp 1) as EA by (rewrite <- exp_plus; f_equal; lra). assert (exp 127 = exp 126 * exp 1) as EB by (rewrite <- exp_plus; f_equal; lra).
      pose proof (exp_pos (-127)). pose proof (exp_pos 126). split; nra. }
    exists (Zfloor (log_coord (z * c))). pose proof (Rabs_pos_lt _ Nz) as Pc.
    pose proof (Zfloor_lb (log_coord (z * c))) as F1. pose proof (Zfloor_ub (log_coord (z * c))) as F2. unfold log_coord in *.
    assert (exp (ln (Rabs (z * c))) = Rabs (z * c)) as EL by (apply exp_ln; assumption).
    assert (-254 <= 2 * ln (Rabs (z * c)) < 254) as BL.
    { destruct B as [B1 B2]. split.
      - destruct B1 as [B1|B1]; [apply ln_increasing in B1; [|apply exp_pos]|apply (f_equal ln) in B1]; rewrite ln_exp in B1; lra.
      - apply ln_increasing in B2; [|assumption]. rewrite ln_exp in B2. lra. }
    split; [|split; [apply Zfloor_lub; lra|apply lt_IZR; lra]].
    simpl. set (e := Zfloor (2 * ln (Rabs (z * c)))) in *. clearbody e. rewrite <- EL. split.
    + destruct (Rle_lt_or_eq_dec (IZR e / 2) (ln (Rabs (z * c))) ltac:(lra)) as [K|K]; [left; apply exp_increasing; assumption|rewrite K; lra].
    + apply exp_increasing. lra.
  - apply lin_exponent. unfold moderate in M. rewrite !powerRZ_bpow in M. rewrite Ez.
    replace (bpow radix2 (-253)) with (2 * bpow radix2 (-254)) in M by (change (-253)%Z with (1 + -254)%Z; rewrite bpow_plus; reflexivity).
    replace (bpow radix2 254) with (2 * bpow radix2 253) by (change 254%Z with (1 + 253)%Z; rewrite bpow_plus; reflexivity).
    pose proof (bpow_gt_0 radix2 (-254)) as PA. pose proof (bpow_gt_0 radix2 253) as PB. set (A := bpow radix2 (-254)) in *. set (B := bpow radix2 253) in *. clearbody A B.
    split; [nra|]. destruct (Rlt_or_le 0 (Rabs z)) as [K|K]; nra.
Qed.
Lemma pow_range : forall u j m, 0 < u < 1 -> (j <= m)%nat -> INR m * u < / 2 -> / 2 < (1 - u) ^ j /\ (1 + u) ^ j < 2.
Proof.
  intros u j m Hu Hj Hm. assert (INR j * u < / 2) as Hju by (apply le_INR in Hj; nra). clear Hj Hm m.
  assert (/ 2 < (1 - u) ^ j) as L.
  { assert (forall x k, -1 < x -> 1 + INR k * x <= (1 + x) ^ k) as Bn.
    { clear. intros x k Hx. induction k as [|k IH]; [simpl; lra|]. rewrite S_INR. cbn [pow]. pose proof (pos_INR k).
      assert (0 <= INR k * x * x) by (rewrite Rmult_assoc; apply Rmult_le_pos; [assumption|nra]). nra. }
    specialize (Bn (- u) j ltac:(lra)). replace (1 + - u) with (1 - u) in Bn by ring. lra. }
  split; [assumption|]. assert ((1 - u) ^ j * (1 + u) ^ j <= 1) as P.
  { rewrite <- Rpow_mult_distr. replace 1 with (1 ^ j) at 3 by apply pow1. apply pow_incr. nra. }
  assert (0 < (1 + u) ^ j) by (apply pow_lt; lra). nra.
Qed.
Lemma product_error : forall k n q f, std_width n -> n <> 8%Z -> (q = 0 \/ q = 1)%Z ->
  (forall a b x y, is_intn n a -> is_intn n b -> value k n a = Some x -> value k n b = Some y ->
     exists t, f a b = Val t /\ is_intn n t /\ relative_error k n q (x * y) t) ->
  let u := roundoff n q in
  forall ts a y0 c P0 xs j, is_intn n a -> value k n a = Some y0 -> y0 = P0 * c -> (1 - u) ^ j <= c <= (1 + u) ^ j ->
  have_values k n ts xs -> moderate_products k P0 xs -> INR (j + length ts) * u < / 2 ->
  exists t y d, accumulate f a ts = Val t /\ is_intn n t /\ value k n t = Some y /\ y = P0 * product xs * d /\
    (1 - u) ^ (j + length ts) <= d <= (1 + u) ^ (j + length ts).
Proof.
  intros k n q f Sw N8 Hq Hf u ts. assert (16 <= n)%Z as Hn by (unfold std_width in Sw; lia).
  assert (0 < u <= / 16) as Pu by (split; [apply roundoff_pos|apply roundoff_small; lia]).
  induction ts as [|t ts IH]; intros a y0 c P0 xs j Ia Va Ey Hc Hv HM Hs.
  - inversion Hv; subst. exists a, (P0 * c), c. split; [reflexivity|]. split; [assumption|]. split; [assumption|]. unfold product. simpl. rewrite Nat.add_0_r. split; [ring|assumption].
  - inversion Hv as [|? x ? xs' [It Vt] Hv']; subst. clear Hv. destruct HM as [_ HM]. cbn [length] in *. rewrite <- plus_n_Sm in *. change (S (j + length ts)) with (S j + length ts)%nat in *.
    destruct (Hf a t _ x Ia It Va Vt) as (t1 & E1 & I1 & R1).
    assert (moderate k (P0 * x)) as M1 by (destruct xs'; apply HM).
    destruct (pow_range u j (S j + length ts) ltac:(lra) ltac:(lia) Hs) as [L1 L2].
    assert (P0 * x <> 0) as Nz.
    { intros K. rewrite K in M1. destruct k; unfold moderate in M1; rewrite Rabs_R0 in M1; [pose proof (exp_pos (-126)); lra|]. rewrite !powerRZ_bpow in M1. pose proof (bpow_gt_0 radix2 (-253)). lra. }
    assert (P0 * c * x = P0 * x * c) as Ez by ring. rewrite Ez in R1.
    assert (P0 * x * c <> 0) as Nc by (apply Rmult_integral_contrapositive; split; [assumption|lra]).
    destruct (moderate_exponent k (P0 * x) c M1 ltac:(lra) Nc) as (e & He & Be).
    destruct (error_roundoff _ _ _ _ _ e Hn He Be R1) as (y1 & V1 & B1). fold u in B1.
    set (r := y1 / (P0 * x * c)).
    assert (y1 = P0 * x * c * r) as Er by (unfold r; field; split; [lra|]; split; intros K; apply Nz; rewrite K; ring).
    assert (Rabs (r - 1) <= u) as Br.
    { apply (Rmult_le_reg_r (Rabs (P0 * x * c))); [apply Rabs_pos_lt; assumption|]. rewrite <- Rabs_mult. replace ((r - 1) * (P0 * x * c)) with (y1 - P0 * x * c) by (rewrite Er; ring). assumption. }
    apply Rabs_le_inv in Br. clearbody r.
    destruct (IH t1 y1 (c * r) (P0 * x) xs' (S j) I1 V1 ltac:(rewrite Er; ring)) as (t2 & y2 & d & E2 & I2 & V2 & D2 & D3); try assumption.
    { cbn [pow]. assert (0 < (1 - u) ^ j) by lra. split.
      - rewrite (Rmult_comm c r). apply Rmult_le_compat; lra.
      - rewrite (Rmult_comm c r). apply Rmult_le_compat; lra. }
    exists t2, y2, d. split; [cbn [accumulate]; rewrite E1; exact E2|]. split; [assumption|]. split; [assumption|]. split; [|assumption].
    rewrite D2. unfold product. cbn [fold_right]. ring.
Qed.
Lemma lin_product : forall n f ts a x0 xs, linear_multiplication n f -> n <> 8%Z -> is_intn n a -> value Linear n a = Some x0 -> have_values Linear n ts xs ->
  let u := roundoff n (if (n =? 16)%Z then 1 else 0) in let m := length ts in
  moderate_products Linear x0 xs -> INR m * u < / 2 ->
  exists t y d, accumulate f a ts = Val t /\ is_intn n t /\ value Linear n t = Some y /\ y = x0 * product xs * d /\ (1 - u) ^ m <= d <= (1 + u) ^ m.
Proof.
  intros n f ts a x0 xs H N8 Ia Va Hv u m HM Hs. assert (std_width n) as Sw by (destruct H; unfold std_width; tauto).
  apply (product_error Linear n (if (n =? 16)%Z then 1 else 0)%Z f Sw N8 ltac:(destruct (n =? 16)%Z; [right|left]; reflexivity) (fun a b x y Ia Ib Va Vb => lin_mul_error n f a b x y H N8 Ia Ib Va Vb) ts a x0 1 x0 xs 0%nat); try assumption; [ring|simpl; lra].
Qed.
Lemma log_product : forall n f ts a x0 xs, log_multiplication n f -> n <> 8%Z -> is_intn n a -> value Logarithmic n a = Some x0 -> have_values Logarithmic n ts xs ->
  let u := roundoff n (if (n <? 64)%Z then 1 else 0) in let m := length ts in
  moderate_products Logarithmic x0 xs -> INR m * u < / 2 ->
  exists t y d, accumulate f a ts = Val t /\ is_intn n t /\ value Logarithmic n t = Some y /\ y = x0 * product xs * d /\ (1 - u) ^ m <= d <= (1 + u) ^ m.
Proof.
  intros n f ts a x0 xs H N8 Ia Va Hv u m HM Hs. assert (std_width n) as Sw by (destruct H; unfold std_width; tauto).
  apply (product_error Logarithmic n (if (n <? 64)%Z then 1 else 0)%Z f Sw N8 ltac:(destruct (n <? 64)%Z; [right|left]; reflexivity) (fun a b x y Ia Ib Va Vb => log_mul_error n f a b x y H N8 Ia Ib Va Vb) ts a x0 1 x0 xs 0%nat); try assumption; [ring|simpl; lra].
Qed.
