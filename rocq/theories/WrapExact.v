(** Results that are takums themselves are returned exactly. *)
From Coq Require Import ZArith Reals Bool Lia Lra Psatz.
From Flocq Require Import Core.Core IEEE754.BinarySingleNaN.
From Verif Require Import CModel FloatModel Libm LibmSpec Spec CodeFacts SpecFacts ValueFacts WidthFacts WidthApi WidthProps LinFacts LinAlgebra Conversion Wrappers LinApi WrapApi WrapSpec FloatFacts RoundFacts Machine LogFacts LinDec LinOps LinArith LinProps RealBounds NearFacts LogConv NearCode WrapTotal FloatAcc RealFacts FixFacts WrapMain WrapPi WrapSpec2 WrapBin WrapPow WrapRoot.
Local Open Scope R_scope.

(** ** Coordinates of close numbers *)
Lemma lin_slope2 : forall a b, a <= b -> b - a <= 2 * ((Lin b - Lin a) / Lin a).
Proof.
  intros a b H. pose proof (Lin_slope a b) as S. pose proof (Lin_bounds a) as [_ B]. pose proof (Lin_pos a) as P.
  rewrite bpow_plus in B. change (bpow radix2 1) with 2 in B. set (h := bpow radix2 (Zfloor a)) in *.
  apply Rmult_le_reg_r with (Lin a); [assumption|]. replace (2 * ((Lin b - Lin a) / Lin a) * Lin a) with (2 * (Lin b - Lin a)) by (field; lra). nra.
Qed.
Lemma lin_coord_near : forall x y d, x <> 0 -> y <> 0 -> 0 <= d <= / 8 -> Rabs (y - x) <= d * Rabs x -> Rabs (lin_coord y - lin_coord x) <= 2 * d / (1 - d).
Proof.
  intros x y d Nx Ny Hd H. pose proof (Lin_lin_coord x Nx) as Ex. pose proof (Lin_lin_coord y Ny) as Ey. apply Rabs_pos_lt in Nx, Ny.
  assert (Rabs (Rabs y - Rabs x) <= d * Rabs x) as K by (eapply Rle_trans; [apply Rabs_triang_inv2|assumption]). apply Rabs_le_inv in K.
  set (a := lin_coord x) in *. set (b := lin_coord y) in *. rewrite <- Ex, <- Ey in *.
  assert (d <= d / (1 - d)) as D1. { apply Rmult_le_reg_r with (1 - d); [lra|]. unfold Rdiv. rewrite Rmult_assoc, Rinv_l by lra. nra. }
  replace (2 * d / (1 - d)) with (2 * (d / (1 - d))) by (unfold Rdiv; ring).
  destruct (Rle_or_lt a b) as [Q|Q].
  - rewrite Rabs_pos_eq by lra. eapply Rle_trans; [apply lin_slope2; assumption|]. apply Rmult_le_compat_l; [lra|]. eapply Rle_trans; [|exact D1].
    apply Rmult_le_reg_r with (Lin a); [assumption|]. unfold Rdiv. rewrite Rmult_assoc, Rinv_l by lra. lra.
  - rewrite Rabs_left by lra. replace (- (b - a)) with (a - b) by ring. eapply Rle_trans; [apply lin_slope2; lra|]. apply Rmult_le_compat_l; [lra|].
    apply Rmult_le_reg_r with (Lin b); [assumption|]. unfold Rdiv. rewrite Rmult_assoc, Rinv_l by lra.
    apply Rmult_le_reg_r with (1 - d); [lra|]. replace (d * / (1 - d) * Lin b * (1 - d)) with (d * Lin b) by (field; lra). nra.
Qed.
Lemma log_coord_near : forall x y d, x <> 0 -> y <> 0 -> 0 <= d <= / 8 -> Rabs (y - x) <= d * Rabs x -> Rabs (log_coord y - log_coord x) <= 2 * d / (1 - d).
Proof.
  intros x y d Nx Ny Hd H. unfold log_coord. apply Rabs_pos_lt in Nx, Ny.
  assert (Rabs (Rabs y - Rabs x) <= d * Rabs x) as K by (eapply Rle_trans; [apply Rabs_triang_inv2|assumption]). apply Rabs_le_inv in K.
  set (a := Rabs x) in *. set (b := Rabs y) in *.
  assert (d <= d / (1 - d)) as D1. { apply Rmult_le_reg_r with (1 - d); [lra|]. unfold Rdiv. rewrite Rmult_assoc, Rinv_l by lra. nra. }
  replace (2 * d / (1 - d)) with (2 * (d / (1 - d))) by (unfold Rdiv; ring).
  replace (2 * ln b - 2 * ln a) with (2 * ln (b / a)) by (unfold Rdiv; rewrite ln_mult, ln_Rinv by (try apply Rinv_0_lt_compat; assumption); ring).
  rewrite Rabs_mult, (Rabs_pos_eq 2) by lra. apply Rmult_le_compat_l; [lra|].
  assert (0 < b / a) as P by (apply Rmult_lt_0_compat; [assumption|apply Rinv_0_lt_compat; assumption]).
  assert (1 - d <= b / a <= 1 + d) as B.
  { split; (apply Rmult_le_reg_r with a; [assumption|]; unfold Rdiv; rewrite Rmult_assoc, Rinv_l by lra; lra). }
  apply Rabs_le. split.
  - pose proof (ln_ge_sub (b / a) P) as G. assert (/ (b / a) <= / (1 - d)) as I by (apply Rinv_le_contravar; lra).
    replace (- (d / (1 - d))) with (1 - / (1 - d)) by (field; lra). lra.
  - pose proof (ln_lt_sub (b / a) P). lra.
Qed.
Lemma coord_near : forall k x y d, x <> 0 -> y <> 0 -> 0 <= d <= / 8 -> Rabs (y - x) <= d * Rabs x -> Rabs (coord k y - coord k x) <= 2 * d / (1 - d).
Proof. intros [] x y d; [apply log_coord_near|apply lin_coord_near]. Qed.

Lemma coord_of_value : forall k n t v, (8 <= n <= 64)%Z -> is_real_takum n t -> value k n t = Some v -> v <> 0 /\ coord k v = l_ n t /\ Rlt_bool v 0 = (t <? 0)%Z.
Proof.
  intros k n t v Hn R V.
  assert (exists p, 0 < p /\ v = sg (t <? 0)%Z * p /\ coord k v = l_ n t) as (p & P & E & C).
  { destruct k.
    - rewrite value_log_real in V by (assumption || lia). injection V as <-. exists (exp (l_ n t / 2)). pose proof (exp_pos (l_ n t / 2)). split; [assumption|]. split; [reflexivity|].
      cbn [coord]. unfold log_coord. rewrite Rabs_mult, sg_abs, Rmult_1_l, Rabs_pos_eq, ln_exp by lra. field.
    - rewrite lin_value in V by (assumption || lia). injection V as <-. exists (Lin (l_ n t)). pose proof (Lin_pos (l_ n t)). split; [assumption|]. split; [reflexivity|].
      cbn [coord]. unfold sg. destruct (t <? 0)%Z; [rewrite <- (lin_coord_opp (-1 * _))|]; rewrite <- (lin_coord_Lin (l_ n t)) at 2; f_equal; ring. }
  split; [rewrite E; unfold sg; destruct (t <? 0)%Z; lra|]. split; [assumption|]. rewrite E. unfold sg. destruct (t <? 0)%Z; [apply Rlt_bool_true|apply Rlt_bool_false]; lra.
Qed.

(** ** A takum of up to 32 bits is found from an approximation of its value *)
Lemma near_exact : forall k n d y t v t', std_width n -> (n <= 32)%Z -> 0 <= d <= bpow radix2 (-48) ->
  rounds_nearly k n (code_error k n) y t -> Rabs (y - v) <= d * Rabs v -> is_intn n t' -> value k n t' = Some v -> t = t'.
Proof.
  intros k n d y t v t' Sw Hn Hd [Rf Rn] Hy It' V. pose proof (std_range n Sw) as Hr.
  assert (bpow radix2 (-48) <= / 1024) as Q by (replace (/ 1024) with (bpow radix2 (-10)) by (simpl; lra); apply bpow_le; lia).
  destruct (takum_cases n t' It') as [-> | [-> | R']].
  - rewrite value_0 in V. injection V as <-. rewrite Rabs_R0, Rmult_0_r, Rminus_0_r in Hy. assert (y = 0) as E by (apply Rabs_eq_R0; pose proof (Rabs_pos y); lra).
    destruct Rf as [[_ H]|[H _]]; [assumption|contradiction].
  - rewrite value_nar in V by lia. discriminate.
  - destruct (coord_of_value k n t' v Hr R' V) as (Nv & Cv & Sv). pose proof (Rabs_pos_lt v Nv) as Pv.
    assert (0 < y * v) as Ps.
    { destruct (Rlt_or_le 0 v) as [P|P]; [rewrite (Rabs_pos_eq v) in Hy by lra|rewrite (Rabs_left1 v) in Hy by lra]; apply Rabs_le_inv in Hy; nra. }
    assert (y <> 0) as Ny by (intros ->; lra). destruct (Rn Ny) as (L & NL & BL).
    rewrite (sign_mul y v Ps), Sv in NL. apply (near_self n ltac:(lia) t' L R') in NL; [assumption|]. rewrite <- Cv.
    pose proof (coord_near k v y d Nv Ny ltac:(lra) Hy) as Dc.
    assert (2 * d / (1 - d) <= 4 * d) as Dd. { apply Rmult_le_reg_r with (1 - d); [lra|]. unfold Rdiv. rewrite Rmult_assoc, Rinv_l by lra. nra. }
    set (q := bpow radix2 (- n)). assert (0 < q) as Pq by apply bpow_gt_0. assert (bpow radix2 (3 - n) = 8 * q) as E3 by (unfold q; replace (3 - n)%Z with (3 + - n)%Z by lia; rewrite bpow_plus; reflexivity).
    assert (bpow radix2 (-48) <= q * / 1024) as Q1 by (unfold q; replace (/ 1024) with (bpow radix2 (-10)) by (simpl; lra); rewrite <- bpow_plus; apply bpow_le; lia).
    assert (0 <= code_error k n <= q * / 1024) as Q2.
    { split; [apply code_error_rng|]. unfold q. replace (/ 1024) with (bpow radix2 (-10)) by (simpl; lra). rewrite <- bpow_plus. unfold code_error. apply Rle_trans with (bpow radix2 (match k with Linear => if (n =? 8)%Z then -23 else if (n =? 16)%Z then -51 else -64 | Logarithmic => if (n =? 64)%Z then -62 else -59 end)); [destruct k; apply Rle_refl|].
      apply bpow_le. destruct Sw as [-> | [-> | [-> | ->]]]; destruct k; cbn; lia. }
    rewrite E3. set (c := coord k v) in *. set (b := coord k y) in *.
    assert (Rabs b <= Rabs c + Rabs (b - c)) as T by (replace b with (c + (b - c)) at 1 by ring; apply Rabs_triang).
    assert (Rabs (L - c) <= Rabs (L - b) + Rabs (b - c)) as T2 by (replace (L - c) with ((L - b) + (b - c)) by ring; apply Rabs_triang).
    assert (code_error k n * (Rabs b + 1) <= q * / 1024 * (Rabs c + 2)) as T3 by (apply Rmult_le_compat; [apply Q2|pose proof (Rabs_pos b); lra|apply Q2|lra]).
    pose proof (Rmult_le_pos q (Rabs c) ltac:(lra) (Rabs_pos c)). lra.
Qed.

(** a linear takum of 64 bits is found from an approximation with 62 bits *)
Lemma near_exact64 : forall y t v t', rounds_nearly Linear 64 (code_error Linear 64) y t -> Rabs (y - v) <= bpow radix2 (-62) * Rabs v ->
  is_intn 64 t' -> value Linear 64 t' = Some v -> t = t'.
Proof.
  intros y t v t' [Rf Rn] Hy It' V. set (q := bpow radix2 (-64)). assert (bpow radix2 (-62) = 4 * q) as E62 by (unfold q; change (-62)%Z with (2 + -64)%Z; rewrite bpow_plus; reflexivity).
  assert (0 < q <= / 1024 * / 1024) as Q by (split; [apply bpow_gt_0|]; unfold q; replace (/ 1024 * / 1024) with (bpow radix2 (-20)) by (simpl; lra); apply bpow_le; lia). rewrite E62 in Hy.
  destruct (takum_cases 64 t' It') as [-> | [-> | R']].
  - rewrite value_0 in V. injection V as <-. rewrite Rabs_R0, Rmult_0_r, Rminus_0_r in Hy. assert (y = 0) as E by (apply Rabs_eq_R0; pose proof (Rabs_pos y); lra).
    destruct Rf as [[_ H]|[H _]]; [assumption|contradiction].
  - rewrite value_nar in V by lia. discriminate.
  - destruct (coord_of_value Linear 64 t' v ltac:(lia) R' V) as (Nv & Cv & Sv). pose proof (Rabs_pos_lt v Nv) as Pv.
    assert (0 < y * v) as Ps.
    { destruct (Rlt_or_le 0 v) as [P|P]; [rewrite (Rabs_pos_eq v) in Hy by lra|rewrite (Rabs_left1 v) in Hy by lra]; apply Rabs_le_inv in Hy; nra. }
    assert (y <> 0) as Ny by (intros ->; lra). destruct (Rn Ny) as (L & NL & BL). change (code_error Linear 64) with q in BL.
    rewrite (sign_mul y v Ps), Sv in NL.
    pose proof (coord_near Linear v y (4 * q) Nv Ny ltac:(lra) Hy) as Dc.
    assert (2 * (4 * q) / (1 - 4 * q) <= 9 * q) as Dd. { apply Rmult_le_reg_r with (1 - 4 * q); [lra|]. unfold Rdiv. rewrite Rmult_assoc, Rinv_l by lra. nra. }
    set (b := coord Linear y) in *.
    assert (Rabs b <= Rabs (l_ 64 t') + Rabs (b - l_ 64 t')) as T by (replace b with (l_ 64 t' + (b - l_ 64 t')) at 1 by ring; apply Rabs_triang).
    assert (Rabs (L - l_ 64 t') <= Rabs (L - b) + Rabs (b - l_ 64 t')) as T2 by (replace (L - l_ 64 t') with ((L - b) + (b - l_ 64 t')) by ring; apply Rabs_triang).
    rewrite Cv in Dc. set (c := l_ 64 t') in *.
    assert (q * (Rabs b + 1) <= q * (Rabs c + 1 + / 1024)) as T3 by (apply Rmult_le_compat_l; lra).
    destruct (Rle_or_lt 1 (Rabs c)) as [B|B].
    + apply (near_self 64 ltac:(lia) t' L R') in NL; [assumption|]. fold c. change (3 - 64)%Z with (-61)%Z.
      assert (bpow radix2 (-61) = 8 * q) as E61 by (unfold q; change (-61)%Z with (3 + -64)%Z; rewrite bpow_plus; reflexivity). rewrite E61.
      pose proof (Rmult_le_compat_l q 1 (Rabs c) ltac:(lra) B). lra.
    + apply (near_self0 64 ltac:(lia) t' L R') in NL; [assumption|]. fold c. change (4 - 64)%Z with (-60)%Z.
      assert (bpow radix2 (-60) = 16 * q) as E60 by (unfold q; change (-60)%Z with (4 + -64)%Z; rewrite bpow_plus; reflexivity). rewrite E60.
      assert (q * Rabs c <= q * 1) by (apply Rmult_le_compat_l; lra). lra.
Qed.

(** ** Functions of one argument *)
Lemma no_dist : forall a b e, Rabs (a - b) <= e -> e <= 0 -> a = b.
Proof. intros a b e H He. pose proof (Rabs_pos (a - b)). assert (a - b = 0) by (apply Rabs_eq_R0; lra). lra. Qed.

Theorem unary_exact : forall k lm u w t x t', c99 lm -> w <> W64 -> (k = Linear /\ argument_error u = 0) \/ x = 0 ->
  is_intn (bits w) t -> value k (bits w) t = Some x -> regular k (bits w) u x ->
  is_intn (bits w) t' -> value k (bits w) t' = Some (real_fun u x) -> api_unary k lm u w t = Val t'.
Proof.
  intros k lm u w t x t' C Nw He It Hx Rg It' Hv. destruct (unary_computes k lm u w t x C It Hx Rg) as (r & E & x' & y & Dx & _ & Dy & Ry).
  assert (x' = x) as ->. { eapply no_dist; [exact Dx|]. unfold spread. destruct He as [[-> ->]| ->]; [cbn [conversion_error]; lra|rewrite Rabs_R0; lra]. }
  rewrite E. f_equal. destruct (tolerance_rng k (bits w) u) as [_ T].
  eapply (near_exact k (bits w) (tolerance k (bits w) u)); try eassumption; [destruct w; unfold std_width; simpl; tauto|destruct w; simpl; try lia; contradiction].
Qed.

(** ** Functions of two arguments *)
Lemma cos_1 : forall u, - (2 * PI) < u < 2 * PI -> cos u = 1 -> u = 0.
Proof.
  intros u H E. pose proof (cos_2a_sin (u / 2)) as K. replace (2 * (u / 2)) with u in K by field. assert (sin (u / 2) = 0) as S by nra.
  destruct (Rtotal_order u 0) as [Q|[Q|Q]]; [|assumption|].
  - exfalso. pose proof (sin_gt_0 (- (u / 2)) ltac:(lra) ltac:(lra)) as P. rewrite sin_neg in P. lra.
  - exfalso. pose proof (sin_gt_0 (u / 2) ltac:(lra) ltac:(lra)) as P. lra.
Qed.
Lemma angle_unique : forall y x a b, is_angle y x a -> is_angle y x b -> a = b.
Proof.
  intros y x a b (Ra & (Ca & Sa) & Za) (Rb & (Cb & Sb) & Zb). set (d := sqrt (x * x + y * y)) in *.
  destruct (Req_dec d 0) as [E|N]; [rewrite E, !Rmult_0_l in *; rewrite Za, Zb; auto|].
  assert (cos a = cos b) as Ec by (apply Rmult_eq_reg_l with d; lra). assert (sin a = sin b) as Es by (apply Rmult_eq_reg_l with d; lra).
  assert (a - b = 0); [|lra]. apply cos_1; [lra|]. rewrite cos_minus, Ec, Es. pose proof (sin2_cos2 b) as K. unfold Rsqr in K. lra.
Qed.
Lemma power_unique : forall x y a b, is_power x y a -> is_power x y b -> a = b.
Proof.
  intros x y a b [[Px ->]|[(Nx & j & Ej & ->)|(Ox & _ & ->)]] [[Px' ->]|[(Nx' & i & Ei & ->)|(Ox' & _ & ->)]]; try lra.
  rewrite Ei in Ej. apply eq_IZR in Ej. subst. reflexivity.
Qed.
Lemma value2_unique : forall b x y u v, is_value2 b x y u -> is_value2 b x y v -> u = v.
Proof.
  intros b x y u v. destruct b; cbn [is_value2]; intros H H';
    first [congruence|eapply power_unique; eassumption|eapply angle_unique; eassumption|destruct H, H'; congruence|idtac].
  apply Rmult_eq_reg_r with PI; [eapply angle_unique; eassumption|]. apply PI_neq0.
Qed.

Lemma binary_name_eq_dec : forall a b : binary_name, {a = b} + {a <> b}.
Proof. decide equality. Qed.
Theorem binary_exact : forall lm, c99 lm -> forall b w s t x y r t', w <> W64 -> b <> n_multiplication -> b <> n_division ->
  is_intn (bits w) s -> is_intn (bits w) t -> value Linear (bits w) s = Some x -> value Linear (bits w) t = Some y -> is_value2 b x y r ->
  is_intn (bits w) t' -> value Linear (bits w) t' = Some r -> api_binary Linear lm b w s t = Val t'.
Proof.
  intros lm C b w s t x y r t' Nw H1 H2 Is It Hx Hy Hr It' Hv.
  assert (exists z, api_binary Linear lm b w s t = Val z /\ computes2 Linear (bits w) b x y z) as (z & E & x' & y' & r' & v & Dx & Dy & Hr' & Dz & Rz).
  { destruct (binary_name_eq_dec b n_power) as [-> | Nb]; [|apply binary_computes; assumption].
    apply power_computes; try assumption. destruct Hr as [[Px _]|[(Nx & j & Ej & _)|(Ox & Py & _)]]; [left; assumption| |right; left; split; assumption].
    right. right. split; [assumption|]. split; [exists j; assumption|left; reflexivity]. }
  cbn [slack] in *. apply no_dist in Dx; [|lra]. apply no_dist in Dy; [|lra]. subst x' y'. rewrite (value2_unique b x y r' r Hr' Hr) in Dz. rewrite E. f_equal.
  eapply (near_exact Linear (bits w) (float_error Linear (bits w))); try eassumption; [destruct w; unfold std_width; simpl; tauto|destruct w; simpl; try lia; contradiction|].
  destruct (tolerance_rng Linear (bits w) n_exp) as [T _]. assumption.
Qed.

Theorem integer_power_exact : forall lm, c99 lm -> forall w t j x t', is_intn (bits w) t -> is_int64 j -> value Linear (bits w) t = Some x -> x <> 0 \/ (0 < j)%Z ->
  is_intn (bits w) t' -> value Linear (bits w) t' = Some (powerRZ x j) -> api_integer_power Linear lm w t j = Val t'.
Proof.
  intros lm C w t j x t' It Hj Hx H0 It' Hv. destruct (integer_power_computes lm C Linear w t j x (or_introl eq_refl) It Hj Hx H0) as (r & E & x' & z & Dx & Dz & Rz).
  cbn [slack] in Dx. apply no_dist in Dx; [|lra]. subst x'. rewrite E. f_equal.
  destruct w; [| | |eapply near_exact64; eassumption].
  all: eapply (near_exact Linear _ (bpow radix2 (-62))); try eassumption; [unfold std_width; simpl; tauto|simpl; lia|split; [apply bpow_ge_0|apply bpow_le; lia]].
Qed.

Theorem root_exact : forall lm, c99 lm -> forall w t j x r t', w <> W64 -> is_intn (bits w) t -> is_int64 j -> value Linear (bits w) t = Some x ->
  0 < x \/ j = 1%Z \/ j = (-1)%Z -> is_root j x r ->
  is_intn (bits w) t' -> value Linear (bits w) t' = Some r -> api_root Linear lm w t j = Val t'.
Proof.
  intros lm C w t j x r t' Nw It Hj Hx Ho Hr It' Hv.
  destruct (root_computes lm C w t j x It Hj Hx) as (u & E & r' & z & Hr' & Dz & Rz).
  { pose proof Hr as (Nj & Nr & Pr & _ & _ & Zr). destruct (Rtotal_order x 0) as [Q|[Q|Q]]; [right; right; split; [assumption|]; destruct Ho as [Ho|Ho]; [lra|assumption]|right; left|left; split; assumption].
    split; [assumption|]. destruct (Z.lt_total j 0) as [K|[K|K]]; [exfalso; apply (Nr K); apply Zr; assumption|contradiction|assumption]. }
  rewrite (LogProps.is_root_unique j x r' r Hr' Hr) in Dz. rewrite E. f_equal.
  eapply (near_exact Linear (bits w) (bpow radix2 (-54))); try eassumption; [destruct w; unfold std_width; simpl; tauto|destruct w; simpl; try lia; contradiction|].
  split; [apply bpow_ge_0|apply bpow_le; lia].
Qed.
