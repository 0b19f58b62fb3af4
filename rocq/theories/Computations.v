(** Errors of computations made of several calls (C137). *)
From Coq Require Import ZArith Reals Bool List Lia Lra.
From Flocq Require Import Core.Core.
From Verif Require Import CModel FloatModel Spec Arith CodeFacts SpecFacts ValueFacts RoundFacts WidthFacts WidthProps LogApi LogProps LinOps LinApi LinArith MiscProps RangeFacts Libm LibmSpec Wrappers WrapBin WrapPow WrapRoot WrapApi WrapSpec WrapSpec2 ErrorSpec ErrorProps ErrorApi Sums WaySpec TwoWays CompSpec.
Local Open Scope R_scope.

Lemma log_roundoff_pos : forall n, (16 <= n)%Z -> 0 < roundoff n 0 <= / 16 /\ roundoff n 0 <= log_roundoff n /\ 0 < log_roundoff n.
Proof.
  intros n Hn. pose proof (roundoff_pos n 0) as P. pose proof (roundoff_small n 0 Hn ltac:(lia)) as Q. unfold log_roundoff. set (u := roundoff n 0) in *.
  assert (u <= u / (1 - u)). { apply (Rmult_le_reg_r (1 - u)); [lra|]. replace (u / (1 - u) * (1 - u)) with u by (field; lra). nra. }
  lra.
Qed.
Lemma ln_le_minus1 : forall r, 0 < r -> ln r <= r - 1.
Proof. intros r Hr. pose proof (exp_ineq1_le (ln r)). rewrite exp_ln in H by assumption. lra. Qed.
Lemma ln_near : forall u r, 0 < u <= / 16 -> Rabs (r - 1) <= u -> 0 < r /\ Rabs (ln r) <= u / (1 - u).
Proof.
  intros u r Hu Hr. apply Rabs_le_inv in Hr. assert (0 < r) as Pr by lra. split; [assumption|].
  assert (u <= u / (1 - u)) as Q. { apply (Rmult_le_reg_r (1 - u)); [lra|]. replace (u / (1 - u) * (1 - u)) with u by (field; lra). nra. }
  pose proof (ln_le_minus1 r Pr) as A. pose proof (ln_le_minus1 (/ r) (Rinv_0_lt_compat _ Pr)) as B. rewrite ln_Rinv in B by assumption.
  assert (/ r - 1 <= u / (1 - u)) as C. { assert (/ r <= / (1 - u)) by (apply Rinv_le; lra). replace (u / (1 - u)) with (/ (1 - u) - 1) by (field; lra). lra. }
  apply Rabs_le. lra.
Qed.
Lemma exp_half_range : forall c, Rabs c <= / 2 -> / 2 <= exp c < 2.
Proof.
  intros c Hc. apply Rabs_le_inv in Hc. pose proof (exp_ineq1_le (- / 2)) as A. split.
  - apply Rle_trans with (exp (- / 2)); [lra|]. destruct (Rle_lt_or_eq_dec (- / 2) c ltac:(lra)) as [K|K]; [left; apply exp_increasing; assumption|rewrite K; lra].
  - apply Rle_lt_trans with (exp (/ 2)).
    + destruct (Rle_lt_or_eq_dec c (/ 2) ltac:(lra)) as [K|K]; [left; apply exp_increasing; assumption|rewrite K; lra].
    + pose proof exp_le_3 as E3. pose proof (exp_pos (/ 2)) as P. assert (exp 1 = exp (/ 2) * exp (/ 2)) as E by (rewrite <- exp_plus; f_equal; lra). nra.
Qed.
Lemma moderate_nonzero : forall k z, moderate k z -> z <> 0.
Proof. intros k z M ->. destruct k; unfold moderate in M; rewrite Rabs_R0 in M; [pose proof (exp_pos (-126)); lra|]. rewrite !powerRZ_bpow in M. pose proof (bpow_gt_0 radix2 (-253)). lra. Qed.

(** one rounding *)
Lemma round_step : forall k n q z c t, (16 <= n)%Z -> (0 <= q)%Z -> moderate k z -> Rabs c <= / 2 -> relative_error k n q (z * exp c) t ->
  exists y d, value k n t = Some y /\ y = z * exp d /\ Rabs (d - c) <= log_roundoff n.
Proof.
  intros k n q z c t Hn Hq M Hc E. pose proof (moderate_nonzero k z M) as Nz. pose proof (exp_pos c) as Pc. pose proof (exp_half_range c Hc) as Rc.
  assert (z * exp c <> 0) as Nc by (apply Rmult_integral_contrapositive; split; [assumption|lra]).
  destruct (moderate_exponent k z (exp c) M Rc Nc) as (e & He & Be).
  destruct (error_roundoff _ _ _ _ _ e Hn He Be E) as (y & V & B).
  destruct (log_roundoff_pos n Hn) as (Pu & _).
  assert (roundoff n q <= roundoff n 0) as Hu by (unfold roundoff; rewrite !powerRZ_bpow; apply bpow_le; lia).
  set (r := y / (z * exp c)). assert (y = z * exp c * r) as Er by (unfold r; field; split; [lra|assumption]).
  assert (Rabs (r - 1) <= roundoff n 0) as Br.
  { apply (Rmult_le_reg_r (Rabs (z * exp c))); [apply Rabs_pos_lt; assumption|]. rewrite <- Rabs_mult. replace ((r - 1) * (z * exp c)) with (y - z * exp c) by (rewrite Er; ring).
    eapply Rle_trans; [exact B|]. apply Rmult_le_compat_r; [apply Rabs_pos|assumption]. }
  destruct (ln_near _ _ Pu Br) as [Pr L]. exists y, (c + ln r). split; [assumption|]. split; [rewrite Er, exp_plus, exp_ln by assumption; ring|].
  replace (c + ln r - c) with (ln r) by ring. assumption.
Qed.

Lemma moderate_inv : forall k z, moderate k z -> moderate k (/ z).
Proof.
  intros k z M. pose proof (Rabs_pos_lt z (moderate_nonzero k z M)) as P. unfold moderate in *. rewrite Rabs_inv. destruct k.
  - assert (exp (-126) = / exp 126) as E0 by (rewrite <- exp_Ropp; f_equal; lra). rewrite E0 in *. pose proof (exp_pos 126) as E. split.
    + apply Rinv_le; [assumption|apply M].
    + rewrite <- (Rinv_inv (exp 126)). apply Rinv_le; [apply Rinv_0_lt_compat; assumption|apply M].
  - rewrite !powerRZ_bpow in *. change (-253)%Z with (- (253))%Z in *. rewrite bpow_opp in *. pose proof (bpow_gt_0 radix2 253) as E. split.
    + apply Rinv_le; [assumption|apply M].
    + rewrite <- (Rinv_inv (bpow radix2 253)). apply Rinv_le; [apply Rinv_0_lt_compat; assumption|apply M].
Qed.
Lemma moderate_sqrt : forall k z, 0 < z -> moderate k z -> moderate k (sqrt z).
Proof.
  intros k z Pz M. pose proof (sqrt_lt_R0 z Pz) as Ps. pose proof (sqrt_sqrt z ltac:(lra)) as Es. unfold moderate in *. rewrite Rabs_pos_eq in * by lra.
  assert ((1 <= sqrt z /\ sqrt z <= z) \/ (sqrt z <= 1 /\ z <= sqrt z)) as D. { destruct (Rle_or_lt 1 (sqrt z)) as [K|K]; [left|right]; split; try lra; nra. }
  destruct k.
  - assert (exp (-126) <= 1 <= exp 126) by (pose proof (exp_increasing (-126) 0 ltac:(lra)); pose proof (exp_increasing 0 126 ltac:(lra)); rewrite exp_0 in *; lra). lra.
  - rewrite !powerRZ_bpow in *. assert (bpow radix2 (-253) <= 1 <= bpow radix2 253) by (change 1 with (bpow radix2 0); split; apply bpow_le; lia). lra.
Qed.
Lemma weighted : forall l a b B, 0 <= l <= 1 -> Rabs a <= B -> Rabs b <= B -> 0 < l * exp a + (1 - l) * exp b /\ Rabs (ln (l * exp a + (1 - l) * exp b)) <= B.
Proof.
  intros l a b B Hl Ha Hb. apply Rabs_le_inv in Ha. apply Rabs_le_inv in Hb.
  assert (forall x y, x <= y -> exp x <= exp y) as Mo by (intros x y [K|K]; [left; apply exp_increasing; assumption|rewrite K; lra]).
  pose proof (Mo (- B) a ltac:(lra)). pose proof (Mo a B ltac:(lra)). pose proof (Mo (- B) b ltac:(lra)). pose proof (Mo b B ltac:(lra)). pose proof (exp_pos (- B)).
  set (s := l * exp a + (1 - l) * exp b). assert (exp (- B) <= s <= exp B) as Hs by (unfold s; split; nra). clearbody s.
  split; [lra|]. apply Rabs_le. destruct Hs as [Hs1 Hs2]. rewrite <- (ln_exp B) at 2. rewrite <- (ln_exp (- B)). split.
  - destruct Hs1 as [K|K]; [left; apply ln_increasing; assumption|rewrite K; lra].
  - destruct Hs2 as [K|K]; [left; apply ln_increasing; lra|rewrite K; lra].
Qed.
Lemma same_sign_sum : forall z z' d d' B, 0 < z * z' -> Rabs d <= B -> Rabs d' <= B -> exists c, Rabs c <= B /\ z * exp d + z' * exp d' = (z + z') * exp c.
Proof.
  intros z z' d d' B P Hd Hd'. assert (z + z' <> 0) as N by nra.
  assert (0 <= z / (z + z') <= 1) as L.
  { assert (z / (z + z') = (z * z + z * z') / ((z + z') * (z + z'))) as E by (field; assumption). assert (0 < (z + z') * (z + z')) as Q by nra. rewrite E. split.
    - apply Rmult_le_pos; [nra|]. left. apply Rinv_0_lt_compat. assumption.
    - apply (Rmult_le_reg_r ((z + z') * (z + z'))); [assumption|]. unfold Rdiv. rewrite Rmult_assoc, Rinv_l by lra. nra. }
  destruct (weighted _ d d' B L Hd Hd') as [W1 W2]. exists (ln (z / (z + z') * exp d + (1 - z / (z + z')) * exp d')). split; [assumption|]. rewrite exp_ln by assumption. field. assumption.
Qed.
Lemma powerRZ_exp : forall d j, powerRZ (exp d) j = exp (IZR j * d).
Proof.
  intros d j. destruct j as [|p|p]; simpl powerRZ.
  - rewrite Rmult_0_l, exp_0. reflexivity.
  - rewrite <- (positive_nat_Z p), <- INR_IZR_INZ. induction (Pos.to_nat p) as [|m IH]; [simpl; rewrite Rmult_0_l, exp_0; reflexivity|]. rewrite S_INR. cbn [pow]. rewrite IH, <- exp_plus. f_equal. ring.
  - rewrite <- Pos2Z.opp_pos, opp_IZR, Ropp_mult_distr_l_reverse, exp_Ropp. f_equal. rewrite <- (positive_nat_Z p), <- INR_IZR_INZ. induction (Pos.to_nat p) as [|m IH]; [simpl; rewrite Rmult_0_l, exp_0; reflexivity|]. rewrite S_INR. cbn [pow]. rewrite IH, <- exp_plus. f_equal. ring.
Qed.
Lemma INR_max : forall m m', INR (Nat.max m m') = Rmax (INR m) (INR m').
Proof. intros m m'. destruct (Nat.le_ge_cases m m') as [K|K]; [rewrite Nat.max_r, Rmax_right by (try apply le_INR; assumption)|rewrite Nat.max_l, Rmax_left by (try apply le_INR; assumption)]; reflexivity. Qed.

(** a rounding of a number that is only known up to a small relative error e *)
Lemma near_step : forall k n e z c r y t, std_width n -> n <> 8%Z -> 0 < e <= / 16 -> e / (1 - e) <= log_roundoff n -> moderate k z -> Rabs c + log_roundoff n <= / 2 ->
  r = z * exp c -> Rabs (y - r) <= e * Rabs r -> rounds_faithfully k n y t ->
  exists v d, value k n t = Some v /\ v = z * exp d /\ Rabs (d - c) <= e / (1 - e) + log_roundoff n.
Proof.
  intros k n e z c r y t Hw N8 He Hv M Hc Er Hy F. assert (16 <= n)%Z as Hn by (unfold std_width in Hw; lia).
  assert (r <> 0) as Nr by (rewrite Er; apply Rmult_integral_contrapositive; split; [apply (moderate_nonzero k z M)|pose proof (exp_pos c); lra]).
  set (q := y / r). assert (y = r * q) as Ey by (unfold q; field; assumption).
  assert (Rabs (q - 1) <= e) as Hq.
  { apply (Rmult_le_reg_r (Rabs r)); [apply Rabs_pos_lt; assumption|]. rewrite <- Rabs_mult. replace ((q - 1) * r) with (y - r) by (rewrite Ey; ring). assumption. }
  destruct (ln_near e q He Hq) as [Pq Lq]. assert (y = z * exp (c + ln q)) as Ey' by (rewrite exp_plus, exp_ln by assumption; rewrite Ey, Er; ring).
  rewrite Ey' in F. apply faithful_error in F; [|assumption..]. pose proof (Rabs_triang c (ln q)) as T.
  destruct (round_step k n 0 z (c + ln q) t Hn ltac:(lia) M ltac:(lra) F) as (v & d & V & Yv & D). exists v, d. split; [assumption|]. split; [assumption|].
  replace (d - c) with ((d - (c + ln q)) + ln q) by ring. eapply Rle_trans; [apply Rabs_triang|]. lra.
Qed.
Lemma shifted : forall e x x', 0 < e <= / 16 -> Rabs (x' - x) <= e * Rabs x -> exists c, x' = x * exp c /\ Rabs c <= e / (1 - e).
Proof.
  intros e x x' He H. destruct (Req_dec x 0) as [-> |N].
  - exists 0. rewrite Rabs_R0 in H. assert (x' = 0) as -> by (pose proof (Rabs_pos (x' - 0)); destruct (Req_dec x' 0) as [K|K]; [assumption|]; pose proof (Rabs_pos_lt x' K); rewrite Rminus_0_r in *; lra).
    split; [ring|]. rewrite Rabs_R0. apply Rmult_le_pos; [lra|]. left. apply Rinv_0_lt_compat. lra.
  - assert (Rabs (x' / x - 1) <= e) as Hq.
    { apply (Rmult_le_reg_r (Rabs x)); [apply Rabs_pos_lt; assumption|]. rewrite <- Rabs_mult. replace ((x' / x - 1) * x) with (x' - x) by (field; assumption). assumption. }
    destruct (ln_near e _ He Hq) as [P L]. exists (ln (x' / x)). split; [rewrite exp_ln by assumption; field; assumption|assumption].
Qed.
Lemma small_bpow : forall p, (4 <= p)%Z -> 0 < bpow radix2 (- p) <= / 16 /\ bpow radix2 (- p) / (1 - bpow radix2 (- p)) <= bpow radix2 (1 - p).
Proof.
  intros p Hp. pose proof (bpow_gt_0 radix2 (- p)) as P. assert (bpow radix2 (- p) <= / 16) as Q by (change (/ 16) with (bpow radix2 (-4)); apply bpow_le; lia).
  split; [lra|]. replace (1 - p)%Z with (1 + - p)%Z by lia. rewrite bpow_plus. change (bpow radix2 1) with 2. set (b := bpow radix2 (- p)) in *.
  apply (Rmult_le_reg_r (1 - b)); [lra|]. replace (b / (1 - b) * (1 - b)) with b by (field; lra). nra.
Qed.
Lemma log_roundoff_ge : forall n, (16 <= n <= 64)%Z -> bpow radix2 (-52) <= log_roundoff n.
Proof.
  intros n Hn. destruct (log_roundoff_pos n ltac:(lia)) as (_ & Q & _). eapply Rle_trans; [|exact Q]. unfold roundoff. rewrite powerRZ_bpow. apply bpow_le. lia.
Qed.
(** the errors of the conversions and of the floating-point operation together
    are below those of a rounding *)
Lemma slack_float : forall k n, std_width n -> n <> 8%Z -> exists s e, 0 <= s /\ 0 < e <= / 16 /\
  slack k <= / 16 /\ float_error k n <= e /\ (forall x x', Rabs (x' - x) <= slack k * Rabs x -> exists c, x' = x * exp c /\ Rabs c <= s) /\ s + e / (1 - e) <= log_roundoff n.
Proof.
  intros k n Hw N8. assert (n = 16 \/ n = 32 \/ n = 64)%Z as Hn by (unfold std_width in Hw; lia).
  assert (bpow radix2 (-55) + bpow radix2 (-58) <= bpow radix2 (-52)) as B1 by (rewrite <- (Rmult_1_l (bpow radix2 (-52))); change (-55)%Z with (-3 + -52)%Z; change (-58)%Z with (-6 + -52)%Z; rewrite !bpow_plus; change (bpow radix2 (-3)) with (/ 8); change (bpow radix2 (-6)) with (/ 64); pose proof (bpow_gt_0 radix2 (-52)); lra).
  pose proof (log_roundoff_ge n ltac:(lia)) as G.
  destruct (small_bpow 56 ltac:(lia)) as [A1 A2]. destruct (small_bpow 59 ltac:(lia)) as [A3 A4]. destruct (small_bpow 48 ltac:(lia)) as [A5 A6]. change (1 - 56)%Z with (-55)%Z in *. change (1 - 59)%Z with (-58)%Z in *. change (1 - 48)%Z with (-47)%Z in *. change (- (56))%Z with (-56)%Z in *. change (- (59))%Z with (-59)%Z in *. change (- (48))%Z with (-48)%Z in *.
  assert (0 <= bpow radix2 (-56) / (1 - bpow radix2 (-56))) as A7 by (apply Rmult_le_pos; [lra|left; apply Rinv_0_lt_compat; lra]).
  pose proof (bpow_ge_0 radix2 (-55)) as A8.
  destruct k.
  - exists (bpow radix2 (-56) / (1 - bpow radix2 (-56))), (bpow radix2 (-59)). split; [assumption|]. split; [lra|]. split; [exact (proj2 A1)|]. split; [apply Rle_refl|].
    split; [intros x x' H; apply (shifted (bpow radix2 (-56))); [lra|exact H]|]. lra.
  - assert (forall x x', Rabs (x' - x) <= slack Linear * Rabs x -> exists c, x' = x * exp c /\ Rabs c <= 0) as Z0.
    { intros x x' H. unfold slack in H. rewrite Rmult_0_l in H. exists 0. rewrite exp_0, Rabs_R0. split; [|lra]. pose proof (Rabs_pos (x' - x)). assert (x' - x = 0) as K by (destruct (Req_dec (x' - x) 0) as [K|K]; [assumption|pose proof (Rabs_pos_lt _ K); lra]). lra. }
    destruct (Z.eq_dec n 64) as [E|E].
    + exists 0, (bpow radix2 (-59)). subst n. split; [lra|]. split; [lra|]. split; [unfold slack; lra|]. split; [apply Rle_refl|]. split; [exact Z0|]. lra.
    + exists 0, (bpow radix2 (-48)). split; [lra|]. split; [lra|]. split; [unfold slack; lra|]. split; [unfold float_error; replace (n =? 64)%Z with false by (symmetry; apply Z.eqb_neq; assumption); apply Rle_refl|]. split; [exact Z0|].
      assert (bpow radix2 (-47) <= log_roundoff n) by (destruct (log_roundoff_pos n ltac:(lia)) as (_ & Q & _); eapply Rle_trans; [|exact Q]; unfold roundoff; rewrite powerRZ_bpow; apply bpow_le; lia). lra.
Qed.

(** the relative errors of single operations of either kind, at most 2^-p *)
Lemma any_mul_error : forall k n f a b x y, multiplies k n f -> n <> 8%Z -> is_intn n a -> is_intn n b -> value k n a = Some x -> value k n b = Some y ->
  exists t q, f a b = Val t /\ is_intn n t /\ (0 <= q)%Z /\ relative_error k n q (x * y) t.
Proof.
  intros k n f a b x y H N8 Ia Ib Va Vb. destruct k; cbn in H; [destruct (log_mul_error n f a b x y H N8 Ia Ib Va Vb) as (t & E & I & R)|destruct (lin_mul_error n f a b x y H N8 Ia Ib Va Vb) as (t & E & I & R)]; exists t; eexists; repeat (split; [eassumption|]); (split; [|eassumption]).
  - destruct (n <? 64)%Z; lia.
  - destruct (n =? 16)%Z; lia.
Qed.
Lemma any_div_error : forall k n f a b x y, divides k n f -> n <> 8%Z -> is_intn n a -> is_intn n b -> value k n a = Some x -> value k n b = Some y -> y <> 0 ->
  exists t q, f a b = Val t /\ is_intn n t /\ (0 <= q)%Z /\ relative_error k n q (x / y) t.
Proof.
  intros k n f a b x y H N8 Ia Ib Va Vb Ny. destruct k; cbn in H; [destruct (log_div_error n f a b x y H N8 Ia Ib Va Vb Ny) as (t & E & I & R)|destruct (lin_div_error n f a b x y H N8 Ia Ib Va Vb Ny) as (t & E & I & R)]; exists t; eexists; repeat (split; [eassumption|]); (split; [|eassumption]).
  - destruct (n <? 64)%Z; lia.
  - destruct (n =? 16)%Z; lia.
Qed.
Lemma any_inv_error : forall k n f a x, inverts k n f -> n <> 8%Z -> is_intn n a -> value k n a = Some x -> x <> 0 ->
  exists t q, f a = Val t /\ is_intn n t /\ (0 <= q)%Z /\ relative_error k n q (/ x) t.
Proof.
  intros k n f a x H N8 Ia Va Nx. destruct k; cbn in H.
  - destruct (inversion_lossless n f a H Ia) as (t & E & I & V). rewrite Va in V. destruct V as [[K _]|[_ V]]; [contradiction|]. exists t, 0%Z. repeat (split; [assumption|]). split; [lia|].
    intros e He Be. exists (/ x). split; [assumption|]. replace (/ x - / x) with 0 by ring. rewrite Rabs_R0. apply Rmult_le_pos; [rewrite powerRZ_bpow; apply bpow_ge_0|apply Rabs_pos].
  - destruct (lin_inv_error n f a x H N8 Ia Va Nx) as (t & E & I & R). exists t. eexists. repeat (split; [eassumption|]). split; [|eassumption]. destruct (n =? 16)%Z; lia.
Qed.
Lemma any_sqrt_error : forall k n f a x, takes_square_roots k n f -> n <> 8%Z -> is_intn n a -> value k n a = Some x -> 0 <= x ->
  exists t q, f a = Val t /\ is_intn n t /\ (0 <= q)%Z /\ relative_error k n q (sqrt x) t.
Proof.
  intros k n f a x H N8 Ia Va Px. destruct k; cbn in H; [destruct (log_sqrt_error n f a x H N8 Ia Va Px) as (t & E & I & R)|destruct (lin_sqrt_error n f a x H N8 Ia Va Px) as (t & E & I & R)]; exists t; eexists; repeat (split; [eassumption|]); (split; [|eassumption]).
  - lia.
  - destruct (n =? 16)%Z; lia.
Qed.
Lemma way_error : forall lm w o z, c99 lm -> bits w <> 8%Z -> way lm w o z -> exists t, o = Val t /\ is_intn (bits w) t /\ relative_error Linear (bits w) 0 z t.
Proof.
  intros lm w o z C N8 H. destruct (way_faithful lm w o z C H) as (t & E & F). exists t. split; [assumption|]. split; [apply (faithful_value _ _ _ _ (bits_std w) F)|]. apply faithful_error; [apply bits_std|assumption|assumption].
Qed.

Lemma bits8 : forall w, w <> W8 -> bits w <> 8%Z /\ (16 <= bits w)%Z.
Proof. intros w H. destruct w; cbn; [congruence|lia..]. Qed.
Lemma intn_faithful : forall k w z t, rounds_faithfully k (bits w) z t -> is_intn (bits w) t.
Proof. intros k w z t F. apply (faithful_value k _ z t (bits_std w) F). Qed.

(** operations that are computed with floating-point numbers: two roundings *)
Lemma float_step : forall k lm w b s t y y' z B g, c99 lm -> w <> W8 -> b <> n_multiplication -> b <> n_division -> b <> n_power ->
  is_intn (bits w) s -> is_intn (bits w) t -> value k (bits w) s = Some y -> value k (bits w) t = Some y' -> moderate k z ->
  (forall a c r B', Rabs a <= B' -> Rabs c <= B' -> is_value2 b (y * exp a) (y' * exp c) r -> exists e, Rabs e <= B + B' /\ r = z * exp e) ->
  g = log_roundoff (bits w) -> B + 2 * g <= / 2 ->
  exists u v d, api_binary k lm b w s t = Val u /\ is_intn (bits w) u /\ value k (bits w) u = Some v /\ v = z * exp d /\ Rabs d <= B + 2 * g.
Proof.
  intros k lm w b s t y y' z B g C N8 B1 B2 B3 Is It Vs Vt M Hr -> HB. destruct (bits8 w N8) as [N8' Hn].
  destruct (binary_computes lm C k b w s t y y' B1 B2 B3 Is It Vs Vt) as (u & E & x1 & x2 & r & q & H1 & H2 & H3 & H4 & H5 & _).
  destruct (slack_float k (bits w) (bits_std w) N8') as (sl & e & Ps & Pe & _ & Fe & Sh & T).
  destruct (Sh _ _ H1) as (c1 & E1 & L1). destruct (Sh _ _ H2) as (c2 & E2 & L2). rewrite E1, E2 in H3. destruct (Hr c1 c2 r sl L1 L2 H3) as (d & Ld & Er).
  assert (0 <= e / (1 - e)) as Pq by (apply Rmult_le_pos; [lra|left; apply Rinv_0_lt_compat; lra]).
  destruct (near_step k (bits w) e z d r q u (bits_std w) N8' Pe ltac:(lra) M ltac:(lra) Er) as (v & dd & V & Yv & D); [|assumption|].
  - eapply Rle_trans; [exact H4|]. apply Rmult_le_compat_r; [apply Rabs_pos|assumption].
  - exists u, v, dd. split; [assumption|]. split; [apply (intn_faithful k w q u H5)|]. split; [assumption|]. split; [assumption|].
    replace dd with ((dd - d) + d) by ring. eapply Rle_trans; [apply Rabs_triang|]. lra.
Qed.
Lemma exp_comp : forall z a b, z * exp a * exp b = z * exp (a + b).
Proof. intros. rewrite exp_plus. ring. Qed.
Lemma bound2 : forall a b A B, Rabs a <= A -> Rabs b <= B -> Rabs (a + b) <= A + B.
Proof. intros. eapply Rle_trans; [apply Rabs_triang|]. lra. Qed.
Lemma sum_call : forall k lm w s t y y' z z' d d' B g, c99 lm -> w <> W8 ->
  is_intn (bits w) s -> is_intn (bits w) t -> value k (bits w) s = Some y -> value k (bits w) t = Some y' -> y = z * exp d -> y' = z' * exp d' ->
  Rabs d <= B -> Rabs d' <= B -> g = log_roundoff (bits w) -> B + match k with Logarithmic => 2 | Linear => 1 end * g <= / 2 ->
  (0 < z * z' -> moderate k (z + z') -> exists u v e, api_binary k lm n_addition w s t = Val u /\ is_intn (bits w) u /\ value k (bits w) u = Some v /\ v = (z + z') * exp e /\ Rabs e <= B + match k with Logarithmic => 2 | Linear => 1 end * g) /\
  (z * z' < 0 -> moderate k (z - z') -> exists u v e, api_binary k lm n_subtraction w s t = Val u /\ is_intn (bits w) u /\ value k (bits w) u = Some v /\ v = (z - z') * exp e /\ Rabs e <= B + match k with Logarithmic => 2 | Linear => 1 end * g).
Proof.
  intros k lm w s t y y' z z' d d' B g C N8 Is It Vs Vt Ys Yt Ds Dt Eg HB. destruct (bits8 w N8) as [N8' Hn]. destruct k.
  - split; intros P M.
    + apply (float_step Logarithmic lm w n_addition s t y y' (z + z') B g C N8); try assumption; try discriminate.
      intros a c r B' Ha Hc Hr. cbn in Hr. rewrite Ys, Yt, !exp_comp in Hr. destruct (same_sign_sum z z' (d + a) (d' + c) (B + B') P (bound2 _ _ _ _ Ds Ha) (bound2 _ _ _ _ Dt Hc)) as (e & L & E). exists e. split; [assumption|]. rewrite Hr. exact E.
    + apply (float_step Logarithmic lm w n_subtraction s t y y' (z - z') B g C N8); try assumption; try discriminate.
      intros a c r B' Ha Hc Hr. cbn in Hr. rewrite Ys, Yt, !exp_comp in Hr. destruct (same_sign_sum z (- z') (d + a) (d' + c) (B + B') ltac:(nra) (bound2 _ _ _ _ Ds Ha) (bound2 _ _ _ _ Dt Hc)) as (e & L & E). exists e. split; [assumption|]. rewrite Hr. unfold Rminus. rewrite <- E. ring.
  - assert (linear_addition (bits w) (takum_linear_addition x86_64 w) /\ linear_subtraction (bits w) (takum_linear_subtraction x86_64 w)) as [La Ls] by (destruct w; split; constructor).
    assert (0 <= (if (bits w <? 64) then 1 else 0))%Z as Hq by (destruct (bits w <? 64)%Z; lia).
    destruct (log_roundoff_pos (bits w) Hn) as (_ & _ & Pv). rewrite <- Eg in Pv.
    split; intros P M.
    + destruct (lin_add_error _ _ s t y y' La N8' Is It Vs Vt) as (r & E & I & R).
      destruct (same_sign_sum z z' d d' B P Ds Dt) as (c & Hc & Ec). rewrite Ys, Yt, Ec in R.
      destruct (round_step Linear _ _ (z + z') c r Hn Hq M ltac:(lra) R) as (yr & dr & Vr & Yr & Dr). rewrite <- Eg in Dr.
      exists r, yr, dr. split; [exact E|]. repeat (split; [assumption|]). replace dr with ((dr - c) + c) by ring. eapply Rle_trans; [apply Rabs_triang|]. lra.
    + destruct (lin_sub_error _ _ s t y y' Ls N8' Is It Vs Vt) as (r & E & I & R).
      destruct (same_sign_sum z (- z') d d' B ltac:(nra) Ds Dt) as (c & Hc & Ec).
      replace (y - y') with ((z - z') * exp c) in R by (rewrite Ys, Yt; unfold Rminus; rewrite <- Ec; ring).
      destruct (round_step Linear _ _ (z - z') c r Hn Hq M ltac:(lra) R) as (yr & dr & Vr & Yr & Dr). rewrite <- Eg in Dr.
      exists r, yr, dr. split; [exact E|]. repeat (split; [assumption|]). replace dr with ((dr - c) + c) by ring. eapply Rle_trans; [apply Rabs_triang|]. lra.
Qed.
Lemma hypotenuse_call : forall k lm w s t y y' z z' d d' B g, c99 lm -> w <> W8 ->
  is_intn (bits w) s -> is_intn (bits w) t -> value k (bits w) s = Some y -> value k (bits w) t = Some y' -> y = z * exp d -> y' = z' * exp d' ->
  Rabs d <= B -> Rabs d' <= B -> g = log_roundoff (bits w) -> B + 2 * g <= / 2 -> z <> 0 -> z' <> 0 -> moderate k (sqrt (z * z + z' * z')) ->
  exists u v e, api_binary k lm n_hypotenuse w s t = Val u /\ is_intn (bits w) u /\ value k (bits w) u = Some v /\ v = sqrt (z * z + z' * z') * exp e /\ Rabs e <= B + 2 * g.
Proof.
  intros k lm w s t y y' z z' d d' B g C N8 Is It Vs Vt Ys Yt Ds Dt Eg HB Nz Nz' M.
  apply (float_step k lm w n_hypotenuse s t y y' (sqrt (z * z + z' * z')) B g C N8); try assumption; try discriminate.
  intros a c r B' Ha Hc Hr. cbn in Hr. rewrite Ys, Yt, !exp_comp in Hr.
  assert (0 < z * z) as P1 by nra. assert (0 < z' * z') as P2 by nra.
  pose proof (bound2 _ _ _ _ Ds Ha) as L1. pose proof (bound2 _ _ _ _ Dt Hc) as L2.
  destruct (same_sign_sum (z * z) (z' * z') ((d + a) + (d + a)) ((d' + c) + (d' + c)) ((B + B') + (B + B')) ltac:(apply Rmult_lt_0_compat; assumption) (bound2 _ _ _ _ L1 L1) (bound2 _ _ _ _ L2 L2)) as (e & L & E).
  exists (e / 2). split; [unfold Rdiv; rewrite Rabs_mult, (Rabs_pos_eq (/ 2)) by lra; lra|].
  rewrite Hr. replace (z * exp (d + a) * (z * exp (d + a)) + z' * exp (d' + c) * (z' * exp (d' + c))) with ((z * z + z' * z') * exp e) by (rewrite <- E, !(exp_plus (d + a) (d + a)), !(exp_plus (d' + c) (d' + c)); ring).
  rewrite sqrt_mult by (try lra; left; apply exp_pos). f_equal. replace e with (e / 2 + e / 2) at 1 by lra. rewrite exp_plus. apply sqrt_square. left. apply exp_pos.
Qed.
Lemma root_shift : forall j z r d, 0 < z -> is_root j z r -> is_root j (z * exp d) (r * exp (d / IZR j)).
Proof.
  intros j z r d Pz (J0 & _ & E & Pr & _). specialize (Pr Pz). pose proof (exp_pos d) as Pd. pose proof (exp_pos (d / IZR j)) as Pj.
  assert (0 < r * exp (d / IZR j)) as P by (apply Rmult_lt_0_compat; assumption). assert (0 < z * exp d) as P' by (apply Rmult_lt_0_compat; assumption).
  split; [assumption|]. split; [intros; lra|]. split; [|repeat split; intros; lra].
  rewrite powerRZ_mult, powerRZ_exp, E. f_equal. f_equal. field. apply IZR_neq. assumption.
Qed.
Lemma root_call : forall k lm w s y z r d j B g, c99 lm -> w <> W8 -> is_intn (bits w) s -> value k (bits w) s = Some y -> y = z * exp d -> 0 < z -> is_int64 j -> is_root j z r ->
  moderate k r -> Rabs d <= B -> g = log_roundoff (bits w) -> B + 2 * g <= / 2 ->
  exists u v e, api_root k lm w s j = Val u /\ is_intn (bits w) u /\ value k (bits w) u = Some v /\ v = r * exp e /\ Rabs e <= B + 2 * g.
Proof.
  intros k lm w s y z r d j B g C N8 Is Vs Ys Pz Hj Hr M Hd Eg HB. destruct (bits8 w N8) as [N8' Hn]. destruct (log_roundoff_pos (bits w) Hn) as (_ & _ & Pv). rewrite <- Eg in Pv.
  pose proof (root_shift j z r d Pz Hr) as Hr'. rewrite <- Ys in Hr'. assert (j <> 0)%Z as J0 by apply Hr.
  assert (Rabs (d / IZR j) <= B) as Dj.
  { unfold Rdiv. rewrite Rabs_mult, Rabs_inv, <- abs_IZR. assert (1 <= IZR (Z.abs j)) by (apply IZR_le; lia). assert (/ IZR (Z.abs j) <= 1) by (rewrite <- Rinv_1; apply Rinv_le; lra).
    pose proof (Rinv_0_lt_compat (IZR (Z.abs j)) ltac:(lra)). pose proof (Rabs_pos d). nra. }
  assert (0 < y) as Py by (rewrite Ys; apply Rmult_lt_0_compat; [assumption|apply exp_pos]).
  destruct k.
  - assert (log_root (bits w) (api_root Logarithmic lm w)) as Hl by (destruct w; constructor).
    assert (exists u q, api_root Logarithmic lm w s j = Val u /\ is_intn (bits w) u /\ (0 <= q)%Z /\ relative_error Logarithmic (bits w) q (r * exp (d / IZR j)) u) as (u & q & E & I & Hq & F).
    { destruct (Z.eq_dec (bits w) 64) as [K|K].
      - rewrite K in *. destruct (root_faithful _ s j Hl Is Hj) as (u & E & I & F). rewrite Vs in F. destruct F as [(q & Hq & F)|[F _]]; [|exfalso; exact (F _ Hr')]. rewrite (is_root_unique j y _ _ Hq Hr') in F. exists u, 0%Z. split; [assumption|]. split; [assumption|]. split; [lia|]. apply faithful_error; [unfold std_width; tauto|discriminate|exact F].
      - destruct (root_correct _ _ s j Hl K Is Hj) as (u & E & I & F). rewrite Vs in F. destruct F as [(q & Hq & F)|[F _]]; [|exfalso; exact (F _ Hr')]. rewrite (is_root_unique j y _ _ Hq Hr') in F. exists u, 1%Z. split; [assumption|]. split; [assumption|]. split; [lia|].
        apply rounds_error; [apply bits_std|assumption|exact F]. }
    destruct (round_step Logarithmic _ q r (d / IZR j) u Hn Hq M ltac:(lra) F) as (v & e & V & Yv & D). rewrite <- Eg in D.
    exists u, v, e. repeat (split; [assumption|]). replace e with ((e - d / IZR j) + d / IZR j) by ring. eapply Rle_trans; [apply Rabs_triang|]. lra.
  - destruct (root_computes lm C w s j y Is Hj Vs (or_introl (conj Py J0))) as (u & E & q & x & Hq & Hx & F & _). rewrite (is_root_unique j y _ _ Hq Hr') in Hx.
    destruct (small_bpow 54 ltac:(lia)) as [A1 A2]. change (1 - 54)%Z with (-53)%Z in *. change (- (54))%Z with (-54)%Z in *.
    assert (bpow radix2 (-53) <= g) as A3 by (rewrite Eg; eapply Rle_trans; [|apply log_roundoff_ge; destruct w; cbn in *; lia]; apply bpow_le; lia).
    destruct (near_step Linear (bits w) (bpow radix2 (-54)) r (d / IZR j) _ x u (bits_std w) N8' A1 ltac:(lra) M ltac:(lra) eq_refl Hx F) as (v & e & V & Yv & D). rewrite <- Eg in D.
    exists u, v, e. split; [assumption|]. split; [apply (intn_faithful Linear w x u F)|]. repeat (split; [assumption|]). replace e with ((e - d / IZR j) + d / IZR j) by ring. eapply Rle_trans; [apply Rabs_triang|]. lra.
Qed.
Definition power_count (k : kind) (w : Wrappers.width) (j : Z) (m : nat) : nat :=
  match k, w with Logarithmic, W64 => S (S (Z.abs_nat j * S m)) | _, _ => S (Z.abs_nat j * m) end.
Lemma power_call : forall k lm w s y z d j m g, c99 lm -> w <> W8 -> is_intn (bits w) s -> value k (bits w) s = Some y -> y = z * exp d -> z <> 0 -> is_int64 j -> j <> 0%Z ->
  moderate k (powerRZ z j) -> g = log_roundoff (bits w) -> Rabs d <= INR m * g -> INR (power_count k w j m) * g <= / 2 ->
  exists u v e, api_integer_power k lm w s j = Val u /\ is_intn (bits w) u /\ value k (bits w) u = Some v /\ v = powerRZ z j * exp e /\ Rabs e <= INR (power_count k w j m) * g.
Proof.
  intros k lm w s y z d j m g C N8 Is Vs Ys Nz Hj J0 M Eg Hd HB. destruct (bits8 w N8) as [N8' Hn]. destruct (log_roundoff_pos (bits w) Hn) as (_ & _ & Pv). rewrite <- Eg in Pv.
  pose proof (exp_pos d) as Pd. assert (y <> 0) as Ny by (rewrite Ys; apply Rmult_integral_contrapositive; split; [assumption|lra]).
  assert (forall c B, Rabs c <= B -> Rabs (IZR j * c) <= INR (Z.abs_nat j) * B) as Sc.
  { intros c B Hc. rewrite Rabs_mult, <- abs_IZR, <- Zabs2Nat.id_abs, <- INR_IZR_INZ. apply Rmult_le_compat_l; [apply pos_INR|assumption]. }
  assert (forall c, powerRZ (z * exp c) j = powerRZ z j * exp (IZR j * c)) as Sp by (intros c; rewrite powerRZ_mult, powerRZ_exp; reflexivity).
  pose proof (Sc d _ Hd) as Dj.
  assert (forall r q, power_count k w j m = S (Z.abs_nat j * m) -> api_integer_power k lm w s j = Val r -> is_intn (bits w) r -> (0 <= q)%Z -> relative_error k (bits w) q (powerRZ y j) r ->
    exists u v e, api_integer_power k lm w s j = Val u /\ is_intn (bits w) u /\ value k (bits w) u = Some v /\ v = powerRZ z j * exp e /\ Rabs e <= INR (power_count k w j m) * g) as Simple.
  { intros r q Ec E I Hq R. rewrite Ec, S_INR, mult_INR in *. rewrite Ys, Sp in R.
    destruct (round_step k _ q (powerRZ z j) (IZR j * d) r Hn Hq M ltac:(lra) R) as (yr & dr & Vr & Yr & Dr). rewrite <- Eg in Dr.
    exists r, yr, dr. repeat (split; [assumption|]). replace dr with ((dr - IZR j * d) + IZR j * d) by ring. eapply Rle_trans; [apply Rabs_triang|]. lra. }
  destruct k.
  - destruct w; [congruence| | |].
    + destruct (log_power_error 16 takum16_integer_power s j y ltac:(constructor) ltac:(discriminate) Is Hj Vs (or_introl Ny)) as (u & E & I & R). apply (Simple u 1%Z eq_refl E I ltac:(lia) R).
    + destruct (log_power_error 32 (takum32_integer_power x86_64) s j y ltac:(constructor) ltac:(discriminate) Is Hj Vs (or_introl Ny)) as (u & E & I & R). apply (Simple u 1%Z eq_refl E I ltac:(lia) R).
    + destruct (integer_power_computes lm C Logarithmic W64 s j y ltac:(right; reflexivity) Is Hj Vs (or_introl Ny)) as (u & E & x' & q & Hx & Hq & F & _). clear Simple. unfold power_count in *. rewrite !S_INR, mult_INR, S_INR in *.
      destruct (small_bpow 56 ltac:(lia)) as [A1 A2]. destruct (small_bpow 62 ltac:(lia)) as [A3 A4]. change (1 - 56)%Z with (-55)%Z in *. change (1 - 62)%Z with (-61)%Z in *. change (- (56))%Z with (-56)%Z in *. change (- (62))%Z with (-62)%Z in *.
      assert (bpow radix2 (-55) <= g /\ bpow radix2 (-61) <= g) as [A5 A6] by (rewrite Eg; split; (eapply Rle_trans; [|apply log_roundoff_ge; cbn; lia]; apply bpow_le; lia)).
      destruct (shifted (bpow radix2 (-56)) y x' A1 Hx) as (c & Ec & Lc). rewrite Ys, exp_comp in Ec. 
      assert (Rabs (d + c) <= (INR m + 1) * g) as Hdc by (eapply Rle_trans; [apply Rabs_triang|]; lra). pose proof (Sc _ _ Hdc) as Dj'.
      assert (powerRZ x' j = powerRZ z j * exp (IZR j * (d + c))) as Ep by (rewrite Ec; apply Sp).
      destruct (near_step Logarithmic 64 (bpow radix2 (-62)) (powerRZ z j) (IZR j * (d + c)) _ q u (bits_std W64) N8' A3 ltac:(change 64%Z with (bits W64); lra) M ltac:(change 64%Z with (bits W64); lra) Ep Hq F) as (v & e & V & Yv & D). change 64%Z with (bits W64) in D. rewrite <- Eg in D.
      exists u, v, e. split; [assumption|]. split; [apply (intn_faithful Logarithmic W64 q u F)|]. repeat (split; [assumption|]). replace e with ((e - IZR j * (d + c)) + IZR j * (d + c)) by ring. eapply Rle_trans; [apply Rabs_triang|]. lra.
  - destruct (way_error lm w _ _ C N8' (by_integer_power lm w s j y Is Hj Vs (or_introl Ny))) as (r & E & I & R). apply (Simple r 0%Z); [destruct w; reflexivity|assumption|assumption|lia|assumption].
Qed.

Lemma sum_count : forall k m m' v, INR (match k with Logarithmic => S (S (Nat.max m m')) | Linear => S (Nat.max m m') end) * v = Rmax (INR m) (INR m') * v + match k with Logarithmic => 2 | Linear => 1 end * v.
Proof. intros. destruct k; rewrite !S_INR, INR_max; ring. Qed.
Theorem computation_error : forall lm k w o z m, c99 lm -> w <> W8 -> computation lm k w o z m -> INR m * log_roundoff (bits w) <= / 2 ->
  exists t y d, o = Val t /\ is_intn (bits w) t /\ value k (bits w) t = Some y /\ y = z * exp d /\ Rabs d <= INR m * log_roundoff (bits w).
Proof.
  intros lm k w o z m C N8w H. assert (bits w <> 8%Z) as N8 by (destruct w; [congruence|discriminate..]).
  assert (16 <= bits w)%Z as Hn by (destruct w; cbn in *; lia). destruct (log_roundoff_pos (bits w) Hn) as (_ & _ & Pv). set (v := log_roundoff (bits w)) in *.
  assert (moderate k z /\ (INR m * v <= / 2 -> exists t y d, o = Val t /\ is_intn (bits w) t /\ value k (bits w) t = Some y /\ y = z * exp d /\ Rabs d <= INR m * v)) as [_ R]; [|exact R].
  induction H as [t x It Vt M|o z Hk Hw M|f o o' z z' m m' Hf H1 [M1 IH1] H2 [M2 IH2] M|f o o' z z' m m' Hf H1 [M1 IH1] H2 [M2 IH2] M|f o z m Hf H1 [M1 IH1]|f o z m Hf H1 [M1 IH1] Pz|o z m j Hj J0 H1 [M1 IH1] M|o o' z z' m m' H1 [M1 IH1] H2 [M2 IH2] P M|o o' z z' m m' H1 [M1 IH1] H2 [M2 IH2] P M|o z r m j Hj H1 [M1 IH1] Pz Hr M|o o' z z' m m' H1 [M1 IH1] H2 [M2 IH2] M].
  - split; [assumption|]. intros _. exists t, x, 0. repeat (split; [assumption || reflexivity|]). split; [rewrite exp_0; ring|]. rewrite Rabs_R0. simpl. lra.
  - split; [assumption|]. intros B. subst k. destruct (way_error lm w o z C N8 Hw) as (t & E & I & R).
    destruct (round_step Linear (bits w) 0 z 0 t Hn ltac:(lia) M ltac:(rewrite Rabs_R0; lra) ltac:(rewrite exp_0, Rmult_1_r; exact R)) as (y & d & V & Y & D). rewrite Rminus_0_r in D.
    exists t, y, d. repeat (split; [assumption|]). simpl. fold v in D. lra.
  - split; [assumption|]. rewrite S_INR, plus_INR. intros B. pose proof (pos_INR m) as Pm. pose proof (pos_INR m') as Pm'.
    assert (0 <= INR m * v) by (apply Rmult_le_pos; lra). assert (0 <= INR m' * v) by (apply Rmult_le_pos; lra).
    destruct (IH1 ltac:(lra)) as (s & y & d & Eo & Is & Vs & Ys & Ds). destruct (IH2 ltac:(lra)) as (t & y' & d' & Eo' & It & Vt & Yt & Dt).
    destruct (any_mul_error k _ f s t y y' Hf N8 Is It Vs Vt) as (r & q & E & I & Hq & R). pose proof (Rabs_triang d d') as T.
    assert (y * y' = z * z' * exp (d + d')) as Ey by (rewrite exp_plus; subst y y'; ring). rewrite Ey in R.
    destruct (round_step k _ q (z * z') (d + d') r Hn Hq M ltac:(lra) R) as (yr & dr & Vr & Yr & Dr). fold v in Dr.
    exists r, yr, dr. split; [rewrite Eo, Eo'; exact E|]. repeat (split; [assumption|]). replace dr with ((dr - (d + d')) + (d + d')) by ring. eapply Rle_trans; [apply Rabs_triang|]. lra.
  - split; [assumption|]. rewrite S_INR, plus_INR. intros B. pose proof (pos_INR m) as Pm. pose proof (pos_INR m') as Pm'.
    assert (0 <= INR m * v) by (apply Rmult_le_pos; lra). assert (0 <= INR m' * v) by (apply Rmult_le_pos; lra).
    destruct (IH1 ltac:(lra)) as (s & y & d & Eo & Is & Vs & Ys & Ds). destruct (IH2 ltac:(lra)) as (t & y' & d' & Eo' & It & Vt & Yt & Dt).
    pose proof (moderate_nonzero k z' M2) as Nz'. pose proof (exp_pos d') as Pd'.
    assert (y' <> 0) as Ny' by (subst y'; apply Rmult_integral_contrapositive; split; [assumption|lra]).
    destruct (any_div_error k _ f s t y y' Hf N8 Is It Vs Vt Ny') as (r & q & E & I & Hq & R).
    assert (Rabs (d - d') <= INR m * v + INR m' * v) as T by (unfold Rminus; eapply Rle_trans; [apply Rabs_triang|]; rewrite Rabs_Ropp; lra).
    assert (y / y' = z / z' * exp (d - d')) as Ey by (unfold Rminus; rewrite exp_plus, exp_Ropp; subst y y'; field; split; [lra|assumption]). rewrite Ey in R.
    destruct (round_step k _ q (z / z') (d - d') r Hn Hq M ltac:(lra) R) as (yr & dr & Vr & Yr & Dr). fold v in Dr.
    exists r, yr, dr. split; [rewrite Eo, Eo'; exact E|]. repeat (split; [assumption|]). replace dr with ((dr - (d - d')) + (d - d')) by ring. eapply Rle_trans; [apply Rabs_triang|]. lra.
  - pose proof (moderate_inv k z M1) as M. split; [assumption|]. rewrite S_INR. intros B. destruct (IH1 ltac:(lra)) as (s & y & d & Eo & Is & Vs & Ys & Ds).
    pose proof (moderate_nonzero k z M1) as Nz. pose proof (exp_pos d) as Pd.
    assert (y <> 0) as Ny by (subst y; apply Rmult_integral_contrapositive; split; [assumption|lra]).
    destruct (any_inv_error k _ f s y Hf N8 Is Vs Ny) as (r & q & E & I & Hq & R).
    assert (/ y = / z * exp (- d)) as Ey by (rewrite exp_Ropp; subst y; field; split; [lra|assumption]). rewrite Ey in R.
    destruct (round_step k _ q (/ z) (- d) r Hn Hq M ltac:(rewrite Rabs_Ropp; lra) R) as (yr & dr & Vr & Yr & Dr). fold v in Dr.
    exists r, yr, dr. split; [rewrite Eo; exact E|]. repeat (split; [assumption|]). replace dr with ((dr - - d) + - d) by ring. eapply Rle_trans; [apply Rabs_triang|]. rewrite Rabs_Ropp. lra.
  - pose proof (moderate_sqrt k z Pz M1) as M. split; [assumption|]. rewrite S_INR. intros B. destruct (IH1 ltac:(lra)) as (s & y & d & Eo & Is & Vs & Ys & Ds).
    pose proof (exp_pos d) as Pd. assert (0 <= y) as Py by (subst y; apply Rmult_le_pos; lra).
    destruct (any_sqrt_error k _ f s y Hf N8 Is Vs Py) as (r & q & E & I & Hq & R).
    assert (sqrt y = sqrt z * exp (d / 2)) as Ey.
    { subst y. rewrite sqrt_mult by lra. f_equal. replace d with (d / 2 + d / 2) at 1 by lra. rewrite exp_plus. apply sqrt_square. left. apply exp_pos. }
    rewrite Ey in R. assert (Rabs (d / 2) <= INR m * v) as Dh by (unfold Rdiv; rewrite Rabs_mult, (Rabs_pos_eq (/ 2)) by lra; pose proof (Rabs_pos d); lra).
    destruct (round_step k _ q (sqrt z) (d / 2) r Hn Hq M ltac:(lra) R) as (yr & dr & Vr & Yr & Dr). fold v in Dr.
    exists r, yr, dr. split; [rewrite Eo; exact E|]. repeat (split; [assumption|]). replace dr with ((dr - d / 2) + d / 2) by ring. eapply Rle_trans; [apply Rabs_triang|]. lra.
  - split; [assumption|]. change (match k, w with Logarithmic, W64 => S (S (Z.abs_nat j * S m)) | _, _ => S (Z.abs_nat j * m) end) with (power_count k w j m). intros B.
    assert (INR m * v <= / 2) as B'.
    { eapply Rle_trans; [|exact B]. apply Rmult_le_compat_r; [lra|]. apply le_INR. assert (1 <= Z.abs_nat j)%nat by lia. unfold power_count. destruct k; [destruct w|]; nia. }
    destruct (IH1 B') as (s & y & d & Eo & Is & Vs & Ys & Ds). rewrite Eo.
    apply (power_call k lm w s y z d j m v C N8w Is Vs Ys (moderate_nonzero k z M1) Hj J0 M eq_refl Ds B).
  - split; [assumption|]. intros B. rewrite (sum_count k m m' v) in B |- *. pose proof (Rmax_l (INR m) (INR m')) as L1. pose proof (Rmax_r (INR m) (INR m')) as L2. set (mm := Rmax (INR m) (INR m')) in *.
    assert (INR m * v <= mm * v) by (apply Rmult_le_compat_r; lra). assert (INR m' * v <= mm * v) by (apply Rmult_le_compat_r; lra). assert (0 <= match k with Logarithmic => 2 | Linear => 1 end * v) by (destruct k; lra).
    destruct (IH1 ltac:(lra)) as (s & y & d & Eo & Is & Vs & Ys & Ds). destruct (IH2 ltac:(lra)) as (t & y' & d' & Eo' & It & Vt & Yt & Dt). rewrite Eo, Eo'.
    apply (sum_call k lm w s t y y' z z' d d' (mm * v) v C N8w Is It Vs Vt Ys Yt ltac:(lra) ltac:(lra) eq_refl B); assumption.
  - split; [assumption|]. intros B. rewrite (sum_count k m m' v) in B |- *. pose proof (Rmax_l (INR m) (INR m')) as L1. pose proof (Rmax_r (INR m) (INR m')) as L2. set (mm := Rmax (INR m) (INR m')) in *.
    assert (INR m * v <= mm * v) by (apply Rmult_le_compat_r; lra). assert (INR m' * v <= mm * v) by (apply Rmult_le_compat_r; lra). assert (0 <= match k with Logarithmic => 2 | Linear => 1 end * v) by (destruct k; lra).
    destruct (IH1 ltac:(lra)) as (s & y & d & Eo & Is & Vs & Ys & Ds). destruct (IH2 ltac:(lra)) as (t & y' & d' & Eo' & It & Vt & Yt & Dt). rewrite Eo, Eo'.
    apply (sum_call k lm w s t y y' z z' d d' (mm * v) v C N8w Is It Vs Vt Ys Yt ltac:(lra) ltac:(lra) eq_refl B); assumption.
  - split; [assumption|]. rewrite !S_INR. intros B. destruct (IH1 ltac:(lra)) as (s & y & d & Eo & Is & Vs & Ys & Ds). rewrite Eo.
    replace ((INR m + 1 + 1) * v) with (INR m * v + 2 * v) in * by ring. apply (root_call k lm w s y z r d j (INR m * v) v C N8w Is Vs Ys Pz Hj Hr M Ds eq_refl B).
  - split; [assumption|]. rewrite !S_INR, INR_max. intros B. pose proof (Rmax_l (INR m) (INR m')) as L1. pose proof (Rmax_r (INR m) (INR m')) as L2. set (mm := Rmax (INR m) (INR m')) in *.
    assert (INR m * v <= mm * v) by (apply Rmult_le_compat_r; lra). assert (INR m' * v <= mm * v) by (apply Rmult_le_compat_r; lra).
    destruct (IH1 ltac:(lra)) as (s & y & d & Eo & Is & Vs & Ys & Ds). destruct (IH2 ltac:(lra)) as (t & y' & d' & Eo' & It & Vt & Yt & Dt). rewrite Eo, Eo'.
    replace ((mm + 1 + 1) * v) with (mm * v + 2 * v) in * by ring.
    apply (hypotenuse_call k lm w s t y y' z z' d d' (mm * v) v C N8w Is It Vs Vt Ys Yt ltac:(lra) ltac:(lra) eq_refl B (moderate_nonzero k z M1) (moderate_nonzero k z' M2) M).
Qed.

(** two computations of the same number, even with different libraries *)
Theorem computations_agree : forall lm lm' k w o o' z m m', c99 lm -> c99 lm' -> w <> W8 -> computation lm k w o z m -> computation lm' k w o' z m' ->
  INR m * log_roundoff (bits w) <= / 2 -> INR m' * log_roundoff (bits w) <= / 2 ->
  nearly_equal k (bits w) (INR (m + m')) o o'.
Proof.
  intros lm lm' k w o o' z m m' C C' N8 H H' B B'.
  destruct (computation_error lm k w o z m C N8 H B) as (t & y & d & E & _ & V & Y & D). destruct (computation_error lm' k w o' z m' C' N8 H' B') as (t' & y' & d' & E' & _ & V' & Y' & D').
  exists t, t', y, y', (d' - d). repeat (split; [assumption|]). split.
  - rewrite Y', Y, Rmult_assoc, <- exp_plus. do 2 f_equal. ring.
  - rewrite plus_INR, Rmult_plus_distr_r. unfold Rminus. eapply Rle_trans; [apply Rabs_triang|]. rewrite Rabs_Ropp. lra.
Qed.

(** identities between functions *)
Lemma few_roundings : forall w m, w <> W8 -> (m <= 7)%nat -> INR m * log_roundoff (bits w) <= / 2.
Proof.
  intros w m N8 Hm. assert (16 <= bits w)%Z as Hn by (destruct w; cbn; [congruence|lia..]). destruct (log_roundoff_pos (bits w) Hn) as (P & _ & Q).
  apply le_INR in Hm. simpl (INR 7) in Hm. apply Rle_trans with (7 * log_roundoff (bits w)); [apply Rmult_le_compat_r; lra|].
  unfold log_roundoff in *. set (u := roundoff (bits w) 0) in *. apply (Rmult_le_reg_r (1 - u)); [lra|]. replace (7 * (u / (1 - u)) * (1 - u)) with (7 * u) by (field; lra). lra.
Qed.
Lemma sum4 : forall v, INR (3 + 1) * v = 4 * v.
Proof. intros. simpl. lra. Qed.

Lemma tangent_identity : forall lm w div t x, c99 lm -> w = W16 \/ w = W32 -> linear_division (bits w) div ->
  is_intn (bits w) t -> value Linear (bits w) t = Some x -> moderate Linear (sin x) -> moderate Linear (cos x) -> moderate Linear (sin x / cos x) ->
  nearly_equal Linear (bits w) 4 (let! s := api_unary Linear lm n_sin w t in let! c := api_unary Linear lm n_cos w t in div s c) (api_unary Linear lm n_tan w t).
Proof.
  intros lm w div t x C Hw Hd It Vt M1 M2 M3. assert (w <> W8 /\ w <> W64) as [N8 N64] by (destruct Hw; subst; split; discriminate).
  destruct (computations_agree lm lm Linear w (let! s := api_unary Linear lm n_sin w t in let! c := api_unary Linear lm n_cos w t in div s c) (api_unary Linear lm n_tan w t) (sin x / cos x) 3 1 C C N8) as (a & b & y & y' & d & E1 & E2 & V1 & V2 & Y & D).
  - apply (comp_quotient lm Linear w div _ _ (sin x) (cos x) 1 1 Hd); [apply comp_call; [reflexivity| |assumption]..|assumption].
    + apply (by_function lm w n_sin t x N64 eq_refl It Vt). split; exact I.
    + apply (by_function lm w n_cos t x N64 eq_refl It Vt). split; exact I.
  - apply comp_call; [reflexivity| |assumption]. apply (by_function lm w n_tan t x N64 eq_refl It Vt). split; exact I.
  - apply few_roundings; [assumption|lia].
  - apply few_roundings; [assumption|lia].
  - rewrite sum4 in D. exists a, b, y, y', d. repeat (split; [assumption|]). assumption.
Qed.
Lemma hyperbolic_tangent_identity : forall lm w div t x, c99 lm -> w = W16 \/ w = W32 -> linear_division (bits w) div ->
  is_intn (bits w) t -> value Linear (bits w) t = Some x -> moderate Linear (sinh x) -> moderate Linear (cosh x) -> moderate Linear (sinh x / cosh x) ->
  nearly_equal Linear (bits w) 4 (let! s := api_unary Linear lm n_sinh w t in let! c := api_unary Linear lm n_cosh w t in div s c) (api_unary Linear lm n_tanh w t).
Proof.
  intros lm w div t x C Hw Hd It Vt M1 M2 M3. assert (w <> W8 /\ w <> W64) as [N8 N64] by (destruct Hw; subst; split; discriminate).
  destruct (computations_agree lm lm Linear w (let! s := api_unary Linear lm n_sinh w t in let! c := api_unary Linear lm n_cosh w t in div s c) (api_unary Linear lm n_tanh w t) (sinh x / cosh x) 3 1 C C N8) as (a & b & y & y' & d & E1 & E2 & V1 & V2 & Y & D).
  - apply (comp_quotient lm Linear w div _ _ (sinh x) (cosh x) 1 1 Hd); [apply comp_call; [reflexivity| |assumption]..|assumption].
    + apply (by_function lm w n_sinh t x N64 eq_refl It Vt). split; exact I.
    + apply (by_function lm w n_cosh t x N64 eq_refl It Vt). split; exact I.
  - apply comp_call; [reflexivity| |assumption]. apply (by_function lm w n_tanh t x N64 eq_refl It Vt). split; exact I.
  - apply few_roundings; [assumption|lia].
  - apply few_roundings; [assumption|lia].
  - rewrite sum4 in D. exists a, b, y, y', d. repeat (split; [assumption|]). assumption.
Qed.
Lemma exponential_identity : forall lm w mul s t r x y, c99 lm -> w = W16 \/ w = W32 -> linear_multiplication (bits w) mul ->
  is_intn (bits w) s -> is_intn (bits w) t -> is_intn (bits w) r ->
  value Linear (bits w) s = Some x -> value Linear (bits w) t = Some y -> value Linear (bits w) r = Some (x + y) ->
  moderate Linear (exp x) -> moderate Linear (exp y) -> moderate Linear (exp (x + y)) ->
  nearly_equal Linear (bits w) 4 (let! a := api_unary Linear lm n_exp w s in let! b := api_unary Linear lm n_exp w t in mul a b) (api_unary Linear lm n_exp w r).
Proof.
  intros lm w mul s t r x y C Hw Hm Is It Ir Vs Vt Vr M1 M2 M3. assert (w <> W8 /\ w <> W64) as [N8 N64] by (destruct Hw; subst; split; discriminate).
  destruct (computations_agree lm lm Linear w (let! a := api_unary Linear lm n_exp w s in let! b := api_unary Linear lm n_exp w t in mul a b) (api_unary Linear lm n_exp w r) (exp x * exp y) 3 1 C C N8) as (a & b & z & z' & d & E1 & E2 & V1 & V2 & Y & D).
  - apply (comp_product lm Linear w mul _ _ (exp x) (exp y) 1 1 Hm); [apply comp_call; [reflexivity| |assumption]..|rewrite <- exp_plus; assumption].
    + apply (by_function lm w n_exp s x N64 eq_refl Is Vs). split; exact I.
    + apply (by_function lm w n_exp t y N64 eq_refl It Vt). split; exact I.
  - rewrite <- exp_plus. apply comp_call; [reflexivity| |assumption]. apply (by_function lm w n_exp r (x + y) N64 eq_refl Ir Vr). split; exact I.
  - apply few_roundings; [assumption|lia].
  - apply few_roundings; [assumption|lia].
  - rewrite sum4 in D. exists a, b, z, z', d. repeat (split; [assumption|]). assumption.
Qed.
Lemma hypotenuse_identity : forall lm w mul root s t x y, c99 lm -> w = W16 \/ w = W32 ->
  linear_multiplication (bits w) mul -> linear_square_root (bits w) root ->
  is_intn (bits w) s -> is_intn (bits w) t -> value Linear (bits w) s = Some x -> value Linear (bits w) t = Some y ->
  moderate Linear (x * x) -> moderate Linear (y * y) -> moderate Linear (x * x + y * y) ->
  nearly_equal Linear (bits w) 4 (let! r := (let! a := mul s s in let! b := mul t t in api_binary Linear lm n_addition w a b) in root r) (api_binary Linear lm n_hypotenuse w s t).
Proof.
  intros lm w mul root s t x y C Hw Hm Hr Is It Vs Vt M1 M2 M3. assert (w <> W8 /\ w <> W64) as [N8 N64] by (destruct Hw; subst; split; discriminate).
  assert (x <> 0) as Nx by (intros ->; apply (moderate_nonzero _ _ M1); ring). assert (y <> 0) as Ny by (intros ->; apply (moderate_nonzero _ _ M2); ring).
  assert (0 < x * x) as Px by nra. assert (0 < y * y) as Py by nra. assert (0 < x * x + y * y) as Ps by lra.
  destruct (computations_agree lm lm Linear w (let! r := (let! a := mul s s in let! b := mul t t in api_binary Linear lm n_addition w a b) in root r) (api_binary Linear lm n_hypotenuse w s t) (sqrt (x * x + y * y)) 3 1 C C N8) as (a & b & z & z' & d & E1 & E2 & V1 & V2 & Y & D).
  - apply (comp_square_root lm Linear w root _ _ 2 Hr); [|assumption].
    apply (comp_sum lm Linear w _ _ (x * x) (y * y) 1 1); [apply comp_call; [reflexivity| |assumption]..| |assumption].
    + apply by_product; assumption.
    + apply by_product; assumption.
    + apply Rmult_lt_0_compat; assumption.
  - apply comp_call; [reflexivity| |apply moderate_sqrt; assumption]. apply (by_function_of_two lm w n_hypotenuse s t x y); [assumption|tauto|assumption..|reflexivity].
  - apply few_roundings; [assumption|lia].
  - apply few_roundings; [assumption|lia].
  - rewrite sum4 in D. exists a, b, z, z', d. repeat (split; [assumption|]). assumption.
Qed.
