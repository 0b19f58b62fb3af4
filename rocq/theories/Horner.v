(** Errors of scalar products and polynomials of linear takums (C104). *)
From Coq Require Import ZArith Reals Bool List Lia Lra.
From Flocq Require Import Core.Core.
From Verif Require Import CModel FloatModel Spec CodeFacts SpecFacts ValueFacts RoundFacts WidthFacts WidthProps LogApi LogProps LinOps LinApi LinArith MiscProps WidthSteps RangeFacts Exactly Sterbenz Octant ErrorSpec ErrorProps ErrorApi Sums.
Local Open Scope R_scope.

Lemma roundoff_le : forall n q, (0 <= q)%Z -> roundoff n q <= roundoff n 0.
Proof. intros n q Hq. unfold roundoff. rewrite !powerRZ_bpow. apply bpow_le. lia. Qed.
(** a rounded result has a relative error of roundoff or an error of 2^-254 *)
Lemma faithful_step : forall n z t, std_width n -> n <> 8%Z -> rounds_faithfully Linear n z t -> Rabs z < bpow radix2 254 ->
  exists v, value Linear n t = Some v /\ Rabs (v - z) <= roundoff n 0 * Rabs z + bpow radix2 (-254).
Proof.
  intros n z t Sw N8 F Hz. destruct (between n _ t Sw F) as (v & Vt & B). destruct (faithful_value _ _ _ _ Sw F) as (_ & v' & V' & S1 & S2 & S3). assert (v' = v) as -> by congruence. clear V'.
  exists v. split; [assumption|]. assert (16 <= n)%Z as Hn by (unfold std_width in Sw; lia).
  pose proof (roundoff_pos n 0) as Pu. pose proof (Rabs_pos z) as Pz. pose proof (bpow_gt_0 radix2 (-254)) as Pe.
  assert (0 <= roundoff n 0 * Rabs z) as Pp by (apply Rmult_le_pos; lra).
  destruct (Rle_or_lt (bpow radix2 (-254)) (Rabs z)) as [K|K].
  - destruct (lin_exponent z ltac:(lra)) as (e & He & Be). destruct (error_roundoff _ _ _ _ _ e Hn He Be (faithful_error _ _ _ _ Sw N8 F)) as (v' & V' & Q).
    assert (v' = v) as -> by congruence. lra.
  - enough (Rabs (v - z) <= bpow radix2 (-254)) by lra.
    destruct (B _ (tiny_takum n Sw N8)) as [B1 _]. destruct (B _ (has_takum_opp _ _ _ Sw (tiny_takum n Sw N8))) as [_ B2].
    apply Rabs_lt_inv in K. specialize (B1 ltac:(lra)). specialize (B2 ltac:(lra)).
    destruct (Rtotal_order z 0) as [C|[C|C]].
    + specialize (S2 C). apply Rabs_le. lra.
    + rewrite (S3 C), C. rewrite Rminus_0_r, Rabs_R0. lra.
    + specialize (S1 C). apply Rabs_le. lra.
Qed.
Lemma mul_step : forall n g a b x y, linear_multiplication n g -> n <> 8%Z -> is_intn n a -> is_intn n b ->
  value Linear n a = Some x -> value Linear n b = Some y -> Rabs (x * y) < bpow radix2 254 ->
  exists t v, g a b = Val t /\ is_intn n t /\ value Linear n t = Some v /\ Rabs (v - x * y) <= roundoff n 0 * Rabs (x * y) + bpow radix2 (-254).
Proof.
  intros n g a b x y H N8 Ia Ib Va Vb Hz. destruct (mul_lin_faithful n g H a b Ia Ib) as (t & E & I & F). rewrite Va, Vb in F.
  destruct (faithful_step n _ t ltac:(destruct H; unfold std_width; tauto) N8 F Hz) as (v & V & B). exists t, v. auto.
Qed.
Lemma add_step' : forall n f a b x y, linear_addition n f -> n <> 8%Z -> is_intn n a -> is_intn n b ->
  value Linear n a = Some x -> value Linear n b = Some y -> Rabs (x + y) < bpow radix2 254 ->
  exists t v, f a b = Val t /\ is_intn n t /\ value Linear n t = Some v /\ Rabs (v - (x + y)) <= roundoff n 0 * Rabs (x + y) + bpow radix2 (-254).
Proof.
  intros n f a b x y H N8 Ia Ib Va Vb Hz. destruct (add_faithful n f H a b Ia Ib) as (t & E & I & F). rewrite Va, Vb in F.
  destruct (faithful_step n _ t ltac:(destruct H; unfold std_width; tauto) N8 F Hz) as (v & V & B). exists t, v. auto.
Qed.

(** * Scalar products *)
Lemma magnitudes_pos : forall xs, 0 <= sum_of_magnitudes xs.
Proof. intros xs. unfold sum_of_magnitudes. induction xs as [|y l IH]; simpl; [lra|]. pose proof (Rabs_pos y). lra. Qed.
Lemma rounded_products : forall n f g, linear_multiplication n g -> n <> 8%Z -> forall ps vs, have_values2 Linear n ps vs ->
  let u := roundoff n 0 in sum_of_magnitudes (products vs) < powerRZ 2 254 ->
  exists ts xs, have_values Linear n ts xs /\ length ts = length ps /\ (forall a, scalar_product f g a ps = accumulate f a ts) /\
    sum_of_magnitudes xs <= (1 + u) * sum_of_magnitudes (products vs) + INR (length ps) * powerRZ 2 (-254) /\
    Rabs (sum xs - sum (products vs)) <= u * sum_of_magnitudes (products vs) + INR (length ps) * powerRZ 2 (-254).
Proof.
  intros n f g Hg N8 ps vs Hv u. induction Hv as [|[a b] [x y] ps vs (Ia & Va & Ib & Vb) Hv IH]; intros Hs.
  - exists nil, nil. split; [constructor|]. split; [reflexivity|]. split; [reflexivity|]. unfold products, sum_of_magnitudes, sum. simpl. rewrite Rminus_0_r, Rabs_R0. lra.
  - simpl fst in *. simpl snd in *. change (products ((x, y) :: vs)) with (x * y :: products vs) in *.
    change (sum_of_magnitudes (x * y :: products vs)) with (Rabs (x * y) + sum_of_magnitudes (products vs)) in *. change (sum (x * y :: products vs)) with (x * y + sum (products vs)).
    pose proof (magnitudes_pos (products vs)) as P. pose proof (Rabs_pos (x * y)) as P1.
    destruct IH as (ts & xs & H1 & H2 & H3 & H4 & H5); [lra|]. rewrite powerRZ_bpow in Hs.
    destruct (mul_step n g a b x y Hg N8 Ia Ib Va Vb ltac:(lra)) as (t & v & E & I & V & B). fold u in B.
    exists (t :: ts), (v :: xs). split; [constructor; [split|]; assumption|]. split; [simpl; rewrite H2; reflexivity|].
    split; [intros c; cbn [scalar_product accumulate]; rewrite E; cbn [bind]; destruct (f c t); [apply H3|reflexivity]|].
    change (sum_of_magnitudes (v :: xs)) with (Rabs v + sum_of_magnitudes xs). change (sum (v :: xs)) with (v + sum xs).
    cbn [length]. rewrite S_INR. rewrite !powerRZ_bpow in *.
    assert (Rabs v <= Rabs (x * y) + Rabs (v - x * y)) as T. { replace v with (x * y + (v - x * y)) at 1 by ring. apply Rabs_triang. }
    replace (v + sum xs - (x * y + sum (products vs))) with ((v - x * y) + (sum xs - sum (products vs))) by ring.
    pose proof (Rabs_triang (v - x * y) (sum xs - sum (products vs))). split; lra.
Qed.
Lemma scalar_product_error : forall n f g, linear_addition n f -> linear_multiplication n g -> n <> 8%Z -> forall ps a x0 vs,
  is_intn n a -> value Linear n a = Some x0 -> have_values2 Linear n ps vs ->
  let u := roundoff n 0 in let m := length ps in let B := Rabs x0 + sum_of_magnitudes (products vs) in
  (1 + u) ^ S m * (B + 2 * INR m * powerRZ 2 (-254)) < powerRZ 2 254 ->
  exists t y, scalar_product f g a ps = Val t /\ is_intn n t /\ value Linear n t = Some y /\
    Rabs (y - (x0 + sum (products vs))) <= ((1 + u) ^ S m - 1) * B + 2 * INR m * (1 + u) ^ m * powerRZ 2 (-254).
Proof.
  intros n f g Hf Hg N8 ps a x0 vs Ia Va Hv u m B Hs.
  assert (0 < u) as Pu by apply roundoff_pos. pose proof (pos_INR m) as PN. pose proof (Rabs_pos x0) as P0. pose proof (magnitudes_pos (products vs)) as PV.
  assert (0 < powerRZ 2 (-254)) as Pe by (rewrite powerRZ_bpow; apply bpow_gt_0).
  assert (1 <= (1 + u) ^ m) as Pq by (apply pow_R1_Rle; lra). cbn [pow] in Hs |- *. set (q := (1 + u) ^ m) in *.
  set (eta := powerRZ 2 (-254)) in *. set (D := powerRZ 2 254) in *. set (M := sum_of_magnitudes (products vs)) in *. set (N := INR m) in *.
  assert (0 <= N * eta) as Pn by (apply Rmult_le_pos; lra). assert (1 <= (1 + u) * q) as Pq' by nra.
  assert (M < D) as HM by (unfold B in Hs; nra).
  destruct (rounded_products n f g Hg N8 ps vs Hv HM) as (ts & xs & H1 & H2 & H3 & H4 & H5). fold u in H4, H5. fold m in H4, H5, H2. fold M N eta in H4, H5.
  pose proof (magnitudes_pos xs) as PX. set (X := sum_of_magnitudes xs) in *.
  set (u' := roundoff n (if (n <? 64)%Z then 1 else 0)).
  assert (0 < u' <= u) as Pu' by (split; [apply roundoff_pos|apply roundoff_le; destruct (n <? 64)%Z; lia]).
  assert (1 <= (1 + u') ^ m <= q) as Pq2 by (split; [apply pow_R1_Rle; lra|apply pow_incr; lra]).
  destruct (sum_error n f Hf N8 ts a x0 xs Ia Va H1) as (t & y & E & I & V & R).
  { rewrite H2. fold u'. fold X. fold eta D N. set (q' := (1 + u') ^ m) in *.
    assert (q' * (Rabs x0 + X + N * eta) <= q * (Rabs x0 + X + N * eta)) by (apply Rmult_le_compat_r; lra).
    assert (q * (Rabs x0 + X + N * eta) <= q * ((1 + u) * (B + 2 * N * eta))); [|lra]. apply Rmult_le_compat_l; [lra|]. unfold B.
    assert (0 <= u * Rabs x0) by (apply Rmult_le_pos; lra). assert (0 <= u * (N * eta)) by (apply Rmult_le_pos; lra). lra. }
  exists t, y. split; [rewrite H3; assumption|]. split; [assumption|]. split; [assumption|].
  rewrite H2 in R. fold u' in R. fold X in R. fold eta N in R. set (q' := (1 + u') ^ m) in *.
  replace (y - (x0 + sum (products vs))) with ((y - (x0 + sum xs)) + (sum xs - sum (products vs))) by ring. eapply Rle_trans; [apply Rabs_triang|].
  assert ((q' - 1) * (Rabs x0 + X) <= (q - 1) * (Rabs x0 + ((1 + u) * M + N * eta))) as A1 by (apply Rmult_le_compat; lra).
  assert (N * q' * eta <= N * q * eta) as A2 by (apply Rmult_le_compat_r; [lra|]; apply Rmult_le_compat_l; lra).
  assert (0 <= u * q * Rabs x0) as A3 by (apply Rmult_le_pos; [apply Rmult_le_pos; lra|lra]). unfold B.
  lra.
Qed.

(** * Polynomials *)
Definition plus_eta (c : R) : R := Rabs c + 2 * powerRZ 2 (-254).
Lemma poly_mono : forall cs X a b, 0 <= X -> a <= b -> polynomial X a cs <= polynomial X b cs.
Proof.
  induction cs as [|c cs IH]; intros X a b HX Hab; simpl; [assumption|]. apply IH; [assumption|]. nra.
Qed.
Lemma poly_grows : forall cs X a, 1 <= X -> 0 <= a -> Forall (fun c => 0 <= c) cs -> a <= polynomial X a cs.
Proof.
  induction cs as [|c cs IH]; intros X a HX Ha Hc; simpl; [lra|]. inversion Hc; subst. eapply Rle_trans; [|apply IH; [assumption| |assumption]]; nra.
Qed.
Lemma poly_scale : forall cs X a A, 0 <= X -> 0 <= a -> 1 <= A -> Forall (fun c => 0 <= c) cs -> polynomial X (A * a) cs <= A * polynomial X a cs.
Proof.
  induction cs as [|c cs IH]; intros X a A HX Ha HA Hc; simpl; [lra|]. inversion Hc; subst.
  eapply Rle_trans; [|apply IH; [assumption|nra|assumption|assumption]]. apply poly_mono; [assumption|]. nra.
Qed.
Lemma horner_error_gen : forall n f g, linear_addition n f -> linear_multiplication n g -> n <> 8%Z ->
  forall cs ys a x0 t x P0 T0 H0 M0 A, is_intn n a -> value Linear n a = Some x0 -> is_intn n t -> value Linear n t = Some x ->
  have_values Linear n cs ys ->
  let u := roundoff n 0 in let m := length cs in
  1 <= A -> 0 <= T0 -> 0 <= H0 <= M0 -> Rabs x0 <= A * H0 -> Rabs (x0 - P0) <= A * H0 - T0 ->
  A * (1 + u) ^ (2 * m) * polynomial (Rmax 1 (Rabs x)) M0 (map plus_eta ys) < powerRZ 2 254 ->
  exists r y, horner f g t a cs = Val r /\ is_intn n r /\ value Linear n r = Some y /\
    Rabs (y - polynomial x P0 ys) <=
      A * (1 + u) ^ (2 * m) * polynomial (Rabs x) H0 (map plus_eta ys) - polynomial (Rabs x) T0 (map Rabs ys).
Proof.
  intros n f g Hf Hg N8. induction cs as [|c cs IH]; intros ys a x0 t x P0 T0 H0 M0 A Ia Va It Vt Hv u m HA HT HH B0 E0 Hs.
  - inversion Hv; subst. exists a, x0. split; [reflexivity|]. split; [assumption|]. split; [assumption|]. unfold m. simpl. lra.
  - inversion Hv as [|? y ? ys' [Ic Vc] Hv']; subst. clear Hv. cbn [map polynomial] in *.
    assert (0 < u) as Pu by apply roundoff_pos.
    set (k := length cs) in *. change m with (S k) in *. clear m. replace (2 * S k)%nat with (2 + 2 * k)%nat in * by lia. rewrite pow_add in *.
    set (q := (1 + u) ^ 2) in *. assert (q = 1 + 2 * u + u * u) as Eq by (unfold q; simpl; ring). assert (1 <= (1 + u) ^ (2 * k)) as Pk by (apply pow_R1_Rle; lra).
    assert (0 < powerRZ 2 (-254)) as Pe by (rewrite powerRZ_bpow; apply bpow_gt_0).
    assert (Forall (fun c => 0 <= c) (map plus_eta ys')) as Fp.
    { apply Forall_forall. intros z Hz. apply in_map_iff in Hz as (w & <- & _). unfold plus_eta. pose proof (Rabs_pos w). lra. }
    pose proof (Rmax_l 1 (Rabs x)) as X1. pose proof (Rmax_r 1 (Rabs x)) as X2. set (XM := Rmax 1 (Rabs x)) in *. pose proof (Rabs_pos x) as PX.
    unfold plus_eta at 1 in Hs. unfold plus_eta at 1. pose proof (Rabs_pos y) as PY. pose proof (Rabs_pos x0) as P0'.
    set (eta := powerRZ 2 (-254)) in *.
    assert (0 <= H0 * Rabs x) as PH by (apply Rmult_le_pos; lra). assert (H0 * Rabs x <= M0 * XM) as HM by (apply Rmult_le_compat; lra).
    set (M1 := M0 * XM + (Rabs y + 2 * eta)) in *. set (H1 := H0 * Rabs x + (Rabs y + 2 * eta)) in *.
    assert (0 <= H1 <= M1) as HH1 by (unfold H1, M1; lra).
    assert (A * q * M1 < powerRZ 2 254) as Hb.
    { pose proof (poly_grows (map plus_eta ys') XM M1 X1 ltac:(lra) Fp) as G. eapply Rle_lt_trans; [|exact Hs].
      replace (A * (q * (1 + u) ^ (2 * k)) * polynomial XM M1 (map plus_eta ys')) with (A * q * ((1 + u) ^ (2 * k) * polynomial XM M1 (map plus_eta ys'))) by ring.
      apply Rmult_le_compat_l; [nra|]. nra. }
    assert (1 <= q) as Pq by nra. assert (1 <= A * q) as PAq by nra.
    assert (Rabs (x0 * x) <= A * (H0 * Rabs x)) as Z1 by (rewrite Rabs_mult; nra).
    assert (A * (H0 * Rabs x) <= A * q * M1) as Z2.
    { rewrite Rmult_assoc. apply Rmult_le_compat_l; [lra|]. assert (M1 <= q * M1) by nra. unfold M1 in *. lra. }
    destruct (mul_step n g a t x0 x Hg N8 Ia It Va Vt) as (t1 & v1 & G1 & I1 & V1 & C1); [rewrite powerRZ_bpow in Hb; lra|].
    rewrite <- powerRZ_bpow in C1. fold eta u in C1.
    set (z := Rabs (x0 * x)) in *. assert (0 <= z) as Pz by apply Rabs_pos. set (h := H0 * Rabs x) in *.
    assert (Rabs (v1 + y) <= (1 + u) * z + eta + Rabs y) as W1.
    { pose proof (Rabs_triang v1 y). pose proof (Rabs_triang (v1 - x0 * x) (x0 * x)) as T. replace (v1 - x0 * x + x0 * x) with v1 in T by ring. fold z in T. lra. }
    assert ((1 + u) * z + eta + Rabs y <= A * q * H1) as W2.
    { assert ((1 + u) * z <= (1 + u) * (A * h)) as K1 by (apply Rmult_le_compat_l; lra). assert (0 <= A * h) as K2 by (apply Rmult_le_pos; lra).
      assert ((1 + u) * (A * h) <= q * (A * h)) as K3 by (apply Rmult_le_compat_r; [lra|nra]).
      assert (Rabs y + 2 * eta <= A * q * (Rabs y + 2 * eta)) as K4 by nra. unfold H1. lra. }
    destruct (add_step' n f t1 c v1 y Hf N8 I1 Ic V1 Vc) as (t2 & v2 & G2 & I2 & V2 & C2).
    { rewrite powerRZ_bpow in Hb. assert (A * q * H1 <= A * q * M1) by (apply Rmult_le_compat_l; lra). lra. }
    rewrite <- powerRZ_bpow in C2. fold eta u in C2. set (w := Rabs (v1 + y)) in *. assert (0 <= w) as Pw by apply Rabs_pos.
    assert (u * w <= u * ((1 + u) * z + eta + Rabs y)) as W3 by (apply Rmult_le_compat_l; lra).
    assert (u * z <= u * (A * h)) as W4 by (apply Rmult_le_compat_l; lra). assert (u * u * z <= u * u * (A * h)) as W5 by (apply Rmult_le_compat_l; nra).
    assert (0 <= u * u * eta) as W7 by (apply Rmult_le_pos; nra).
    assert ((q - 1 - u) * (Rabs y + 2 * eta) <= (A * q - 1 - u) * (Rabs y + 2 * eta)) as W6 by (apply Rmult_le_compat_r; nra).
    assert (Rabs v2 <= A * q * H1) as B1.
    { pose proof (Rabs_triang (v2 - (v1 + y)) (v1 + y)) as T. replace (v2 - (v1 + y) + (v1 + y)) with v2 in T by ring. fold w in T. unfold H1. nra. }
    assert (Rabs (v2 - (P0 * x + y)) <= A * q * H1 - (T0 * Rabs x + Rabs y)) as E1.
    { replace (v2 - (P0 * x + y)) with ((v2 - (v1 + y)) + ((v1 - x0 * x) + (x0 - P0) * x)) by ring.
      eapply Rle_trans; [apply Rabs_triang|]. pose proof (Rabs_triang (v1 - x0 * x) ((x0 - P0) * x)) as T. rewrite (Rabs_mult (x0 - P0)) in T.
      assert (Rabs (x0 - P0) * Rabs x <= (A * H0 - T0) * Rabs x) as K by (apply Rmult_le_compat_r; lra). unfold H1. fold h. replace ((A * H0 - T0) * Rabs x) with (A * h - T0 * Rabs x) in K by (unfold h; ring). nra. }
    destruct (IH ys' t2 v2 t x (P0 * x + y) (T0 * Rabs x + Rabs y) H1 M1 (A * q) I2 V2 It Vt Hv') as (r & yr & G3 & I3 & V3 & C3); try assumption; [nra| |].
    { fold u k XM. replace (A * q * (1 + u) ^ (2 * k)) with (A * (q * (1 + u) ^ (2 * k))) by ring. assumption. }
    exists r, yr. split; [cbn [horner]; rewrite G1; cbn [bind]; rewrite G2; exact G3|]. split; [assumption|]. split; [assumption|].
    fold u k in C3. replace (A * (q * (1 + u) ^ (2 * k))) with (A * q * (1 + u) ^ (2 * k)) by ring. assumption.
Qed.
Lemma horner_error : forall n f g, linear_addition n f -> linear_multiplication n g -> n <> 8%Z ->
  forall cs ys a x0 t x, is_intn n a -> value Linear n a = Some x0 -> is_intn n t -> value Linear n t = Some x ->
  have_values Linear n cs ys ->
  let u := roundoff n 0 in let m := length cs in let e := fun c => Rabs c + 2 * powerRZ 2 (-254) in
  (1 + u) ^ (2 * m) * polynomial (Rmax 1 (Rabs x)) (Rabs x0) (map e ys) < powerRZ 2 254 ->
  exists r y, horner f g t a cs = Val r /\ is_intn n r /\ value Linear n r = Some y /\
    Rabs (y - polynomial x x0 ys) <=
      (1 + u) ^ (2 * m) * polynomial (Rabs x) (Rabs x0) (map e ys) - polynomial (Rabs x) (Rabs x0) (map Rabs ys).
Proof.
  intros n f g Hf Hg N8 cs ys a x0 t x Ia Va It Vt Hv u m e Hs. pose proof (Rabs_pos x0).
  destruct (horner_error_gen n f g Hf Hg N8 cs ys a x0 t x x0 (Rabs x0) (Rabs x0) (Rabs x0) 1 Ia Va It Vt Hv) as (r & y & E & I & V & B); try lra.
  - unfold Rminus at 1. rewrite Rplus_opp_r, Rabs_R0. lra.
  - rewrite Rmult_1_l. exact Hs.
  - rewrite Rmult_1_l in B. exists r, y. repeat split; try assumption; apply I.
Qed.
