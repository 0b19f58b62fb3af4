(** Functions that return one of the two takums next to the exact value. *)
From Coq Require Import ZArith Reals Bool Lia Lra Psatz.
From Flocq Require Import Core.Core IEEE754.BinarySingleNaN.
From Verif Require Import CModel FloatModel Libm LibmSpec Spec CodeFacts SpecFacts ValueFacts WidthFacts WidthApi WidthProps LinFacts LinAlgebra Conversion Wrappers LinApi WrapApi WrapSpec FloatFacts RoundFacts Machine LogFacts LinDec LinOps LinArith LinProps RealBounds NearFacts LogConv NearCode WrapTotal FloatAcc RealFacts FixFacts WrapMain WrapPi WrapSpec2 WrapBin WrapPow WrapRoot WrapExact MiscProps LinArithRefute WrapSign RangeSpec.
Local Open Scope R_scope.

(** ** From an approximation of a number to a faithful rounding of it *)
Lemma same_sign : forall y v d, 0 <= d < 1 -> v <> 0 -> Rabs (y - v) <= d * Rabs v -> 0 < y * v.
Proof.
  intros y v d Hd Nv Hy. pose proof (Rabs_pos_lt v Nv) as Pv.
  destruct (Rlt_or_le 0 v) as [P|P]; [rewrite (Rabs_pos_eq v) in Hy by lra|rewrite (Rabs_left1 v) in Hy by lra; assert (v < 0) by (destruct P; [assumption|contradiction])]; apply Rabs_le_inv in Hy.
  - assert (0 < y) by nra. apply Rmult_lt_0_compat; assumption.
  - assert (y < 0) by nra. nra.
Qed.
Lemma near_faith : forall k n d y t v, std_width n -> (n <= 32)%Z -> 0 <= d <= bpow radix2 (-48) ->
  rounds_nearly k n (code_error k n) y t -> Rabs (y - v) <= d * Rabs v -> rounds_faithfully k n v t.
Proof.
  intros k n d y t v Sw Hn Hd [Rf Rn] Hy. pose proof (std_range n Sw) as Hr.
  assert (bpow radix2 (-48) <= / 1024) as Q by (replace (/ 1024) with (bpow radix2 (-10)) by (simpl; lra); apply bpow_le; lia).
  destruct (Req_dec v 0) as [-> | Nv].
  - rewrite Rabs_R0, Rmult_0_r, Rminus_0_r in Hy. assert (y = 0) as -> by (apply Rabs_eq_R0; pose proof (Rabs_pos y); lra). exact Rf.
  - right. split; [assumption|]. pose proof (same_sign y v d ltac:(lra) Nv Hy) as Ps.
    assert (y <> 0) as Ny by (intros ->; lra). destruct (Rn Ny) as (L & NL & BL). rewrite (sign_mul y v Ps) in NL.
    apply (near_faithful n ltac:(lia) _ (coord k v) L t); [|assumption].
    pose proof (coord_near k v y d Nv Ny ltac:(lra) Hy) as Dc.
    assert (2 * d / (1 - d) <= 4 * d) as Dd. { apply Rmult_le_reg_r with (1 - d); [lra|]. unfold Rdiv. rewrite Rmult_assoc, Rinv_l by lra. nra. }
    set (q := bpow radix2 (- n)). assert (0 < q) as Pq by apply bpow_gt_0. assert (bpow radix2 (3 - n) = 8 * q) as E3 by (unfold q; replace (3 - n)%Z with (3 + - n)%Z by lia; rewrite bpow_plus; reflexivity).
    assert (bpow radix2 (-48) <= q * / 1024) as Q1 by (unfold q; replace (/ 1024) with (bpow radix2 (-10)) by (simpl; lra); rewrite <- bpow_plus; apply bpow_le; lia).
    assert (0 <= code_error k n <= q * / 1024) as Q2.
    { split; [apply code_error_rng|]. unfold q. replace (/ 1024) with (bpow radix2 (-10)) by (simpl; lra). rewrite <- bpow_plus. unfold code_error. apply Rle_trans with (bpow radix2 (match k with Linear => if (n =? 8)%Z then -23 else if (n =? 16)%Z then -51 else -64 | Logarithmic => if (n =? 64)%Z then -62 else -59 end)); [destruct k; apply Rle_refl|].
      apply bpow_le. destruct Sw as [-> | [-> | [-> | ->]]]; destruct k; cbn; lia. }
    rewrite E3. set (c := coord k v) in *. set (b := coord k y) in *.
    assert (Rabs b <= Rabs c + Rabs (b - c)) as T by (replace b with (c + (b - c)) at 1 by ring; apply Rabs_triang).
    assert (Rabs (L - c) <= Rabs (L - b) + Rabs (b - c)) as T2 by (replace (L - c) with ((L - b) + (b - c)) by ring; apply Rabs_triang).
    assert (code_error k n * (Rabs b + 1) <= q * / 1024 * (Rabs c + 2)) as T3 by (apply Rmult_le_compat; [apply Q2|pose proof (Rabs_pos b); lra|apply Q2|lra]).
    pose proof (Rmult_le_pos q (Rabs c) ltac:(lra) (Rabs_pos c)). lra.
Qed.

(** within half of the smallest distance of two takums *)
Lemma near_faithful0 : forall n s L L' t, (6 <= n <= 64)%Z -> Rabs (L' - L) < bpow radix2 (4 - n) -> nearest n s L' t -> faithful n s L t.
Proof.
  intros n s L L' t Hn He (Ht & Hs & Hb). split; [assumption|]. split; [assumption|]. intros t' Ht' Hs'. destruct (Hb t' Ht' Hs') as [Hd _].
  assert (l_ n t <> l_ n t' -> 2 * bpow radix2 (4 - n) <= Rabs (l_ n t - l_ n t')) as G.
  { intros N. replace (2 * bpow radix2 (4 - n)) with (bpow radix2 (5 - n)) by (replace (5 - n)%Z with (1 + (4 - n))%Z by lia; rewrite bpow_plus; reflexivity).
    rewrite !l_sg_cpm in N |- * by (assumption || apply Ht || apply Ht' || lia). rewrite (NearFacts.has_sign_ltb s t Hs), (NearFacts.has_sign_ltb s t' Hs') in N |- * by (apply Ht || apply Ht').
    rewrite <- Rmult_minus_distr_l, Rabs_mult, sg_abs, Rmult_1_l.
    pose proof (real_low_pos n t ltac:(lia) Ht) as B. pose proof (real_low_pos n t' ltac:(lia) Ht') as B'.
    destruct (Z.lt_trichotomy (low n t') (low n t)) as [K|[K|K]]; [|rewrite K in N; exfalso; apply N; reflexivity|].
    - pose proof (cpm_gap0 n Hn _ _ (conj (Z.lt_le_incl _ _ (proj1 B')) K) ltac:(lia)). rewrite Rabs_pos_eq; pose proof (bpow_gt_0 radix2 (5 - n)); lra.
    - pose proof (cpm_gap0 n Hn _ _ (conj (Z.lt_le_incl _ _ (proj1 B)) K) ltac:(lia)). rewrite Rabs_left1; pose proof (bpow_gt_0 radix2 (5 - n)); lra. }
  apply Rabs_def2 in He as [He1 He2]. pose proof (bpow_gt_0 radix2 (4 - n)) as P.
  split; intros [H1 H2]; specialize (G ltac:(lra)).
  - rewrite (Rabs_left1 (l_ n t - l_ n t')) in G by lra. assert (Rabs (l_ n t' - L') < Rabs (l_ n t - L')); [|lra]. rewrite (Rabs_left1 (l_ n t - L')) by lra. apply Rabs_def1; lra.
  - rewrite (Rabs_pos_eq (l_ n t - l_ n t')) in G by lra. assert (Rabs (l_ n t' - L') < Rabs (l_ n t - L')); [|lra]. rewrite (Rabs_pos_eq (l_ n t - L')) by lra. apply Rabs_def1; lra.
Qed.
Lemma near_faith64 : forall y t v, rounds_nearly Linear 64 (code_error Linear 64) y t -> Rabs (y - v) <= bpow radix2 (-62) * Rabs v -> rounds_faithfully Linear 64 v t.
Proof.
  intros y t v [Rf Rn] Hy. set (q := bpow radix2 (-64)). assert (bpow radix2 (-62) = 4 * q) as E62 by (unfold q; change (-62)%Z with (2 + -64)%Z; rewrite bpow_plus; reflexivity).
  assert (0 < q <= / 1024 * / 1024) as Q by (split; [apply bpow_gt_0|]; unfold q; replace (/ 1024 * / 1024) with (bpow radix2 (-20)) by (simpl; lra); apply bpow_le; lia). rewrite E62 in Hy.
  destruct (Req_dec v 0) as [-> | Nv].
  - rewrite Rabs_R0, Rmult_0_r, Rminus_0_r in Hy. assert (y = 0) as -> by (apply Rabs_eq_R0; pose proof (Rabs_pos y); lra). exact Rf.
  - right. split; [assumption|]. pose proof (same_sign y v (4 * q) ltac:(lra) Nv Hy) as Ps.
    assert (y <> 0) as Ny by (intros ->; lra). destruct (Rn Ny) as (L & NL & BL). change (code_error Linear 64) with q in BL. rewrite (sign_mul y v Ps) in NL.
    pose proof (coord_near Linear v y (4 * q) Nv Ny ltac:(lra) Hy) as Dc.
    assert (2 * (4 * q) / (1 - 4 * q) <= 9 * q) as Dd. { apply Rmult_le_reg_r with (1 - 4 * q); [lra|]. unfold Rdiv. rewrite Rmult_assoc, Rinv_l by lra. nra. }
    set (b := coord Linear y) in *. set (c := coord Linear v) in *.
    assert (Rabs b <= Rabs c + Rabs (b - c)) as T by (replace b with (c + (b - c)) at 1 by ring; apply Rabs_triang).
    assert (Rabs (L - c) <= Rabs (L - b) + Rabs (b - c)) as T2 by (replace (L - c) with ((L - b) + (b - c)) by ring; apply Rabs_triang).
    assert (q * (Rabs b + 1) <= q * (Rabs c + 1 + / 1024)) as T3 by (apply Rmult_le_compat_l; lra).
    destruct (Rle_or_lt 1 (Rabs c)) as [B|B].
    + apply (near_faithful 64 ltac:(lia) _ c L t); [|assumption]. change (3 - 64)%Z with (-61)%Z.
      assert (bpow radix2 (-61) = 8 * q) as E61 by (unfold q; change (-61)%Z with (3 + -64)%Z; rewrite bpow_plus; reflexivity). rewrite E61.
      pose proof (Rmult_le_compat_l q 1 (Rabs c) ltac:(lra) B). lra.
    + apply (near_faithful0 64 _ c L t ltac:(lia)); [|assumption]. change (4 - 64)%Z with (-60)%Z.
      assert (bpow radix2 (-60) = 16 * q) as E60 by (unfold q; change (-60)%Z with (4 + -64)%Z; rewrite bpow_plus; reflexivity). rewrite E60.
      assert (q * Rabs c <= q * 1) by (apply Rmult_le_compat_l; lra). lra.
Qed.

(** ** The functions *)
Lemma narrow_bits : forall w, w <> W64 -> std_width (bits w) /\ (bits w <= 32)%Z.
Proof. intros w N. split; [destruct w; unfold std_width; simpl; tauto|destruct w; simpl; try lia; contradiction]. Qed.

Theorem unary_faithful_near : forall k lm u w t x, c99 lm -> w <> W64 -> is_intn (bits w) t -> value k (bits w) t = Some x -> regular k (bits w) u x ->
  exists r x', api_unary k lm u w t = Val r /\ Rabs (x' - x) <= spread k u * Rabs x /\ defined u x' /\ rounds_faithfully k (bits w) (real_fun u x') r.
Proof.
  intros k lm u w t x C Nw It Hx Rg. destruct (unary_computes k lm u w t x C It Hx Rg) as (r & E & x' & y & Dx & Dd & Dy & Ry). destruct (narrow_bits w Nw) as [Sw Lw].
  exists r, x'. split; [assumption|]. split; [assumption|]. split; [assumption|]. destruct (tolerance_rng k (bits w) u) as [_ T].
  apply (near_faith k (bits w) (tolerance k (bits w) u) y); assumption.
Qed.
Theorem unary_faithful : forall lm u w t x, c99 lm -> w <> W64 -> argument_error u = 0 -> is_intn (bits w) t -> value Linear (bits w) t = Some x -> regular Linear (bits w) u x ->
  exists r, api_unary Linear lm u w t = Val r /\ rounds_faithfully Linear (bits w) (real_fun u x) r.
Proof.
  intros lm u w t x C Nw Ha It Hx Rg. destruct (unary_faithful_near Linear lm u w t x C Nw It Hx Rg) as (r & x' & E & Dx & _ & Rf).
  apply no_dist in Dx; [|unfold spread; rewrite Ha; cbn [conversion_error]; lra]. subst x'. exists r. split; assumption.
Qed.

Theorem binary_faithful : forall lm, c99 lm -> forall b w s t x y r, w <> W64 -> b <> n_multiplication -> b <> n_division ->
  is_intn (bits w) s -> is_intn (bits w) t -> value Linear (bits w) s = Some x -> value Linear (bits w) t = Some y -> is_value2 b x y r ->
  exists z, api_binary Linear lm b w s t = Val z /\ rounds_faithfully Linear (bits w) r z.
Proof.
  intros lm C b w s t x y r Nw H1 H2 Is It Hx Hy Hr.
  assert (exists z, api_binary Linear lm b w s t = Val z /\ computes2 Linear (bits w) b x y z) as (z & E & x' & y' & r' & v & Dx & Dy & Hr' & Dz & Rz).
  { destruct (binary_name_eq_dec b n_power) as [-> | Nb]; [|apply binary_computes; assumption].
    apply power_computes; try assumption. destruct Hr as [[Px _]|[(Nx & j & Ej & _)|(Ox & Py & _)]]; [left; assumption| |right; left; split; assumption].
    right. right. split; [assumption|]. split; [exists j; assumption|left; reflexivity]. }
  cbn [slack] in *. apply no_dist in Dx; [|lra]. apply no_dist in Dy; [|lra]. subst x' y'. rewrite (value2_unique b x y r' r Hr' Hr) in Dz. destruct (narrow_bits w Nw) as [Sw Lw].
  exists z. split; [assumption|]. apply (near_faith Linear (bits w) (float_error Linear (bits w)) v); try assumption.
  destruct (tolerance_rng Linear (bits w) n_exp) as [T _]. assumption.
Qed.

Theorem integer_power_faithful : forall lm, c99 lm -> forall w t j x, is_intn (bits w) t -> is_int64 j -> value Linear (bits w) t = Some x -> x <> 0 \/ (0 < j)%Z ->
  exists r, api_integer_power Linear lm w t j = Val r /\ rounds_faithfully Linear (bits w) (powerRZ x j) r.
Proof.
  intros lm C w t j x It Hj Hx H0. destruct (integer_power_computes lm C Linear w t j x (or_introl eq_refl) It Hj Hx H0) as (r & E & x' & z & Dx & Dz & Rz).
  cbn [slack] in Dx. apply no_dist in Dx; [|lra]. subst x'. exists r. split; [assumption|].
  destruct w; [| | |eapply near_faith64; eassumption].
  all: eapply (near_faith Linear _ (bpow radix2 (-62))); try eassumption; [unfold std_width; simpl; tauto|simpl; lia|split; [apply bpow_ge_0|apply bpow_le; lia]].
Qed.

Theorem root_faithful : forall lm, c99 lm -> forall w t j x r, w <> W64 -> is_intn (bits w) t -> is_int64 j -> value Linear (bits w) t = Some x ->
  0 < x \/ j = 1%Z \/ j = (-1)%Z -> is_root j x r ->
  exists z, api_root Linear lm w t j = Val z /\ rounds_faithfully Linear (bits w) r z.
Proof.
  intros lm C w t j x r Nw It Hj Hx Ho Hr.
  destruct (root_computes lm C w t j x It Hj Hx) as (u & E & r' & z & Hr' & Dz & Rz).
  { pose proof Hr as (Nj & Nr & Pr & _ & _ & Zr). destruct (Rtotal_order x 0) as [Q|[Q|Q]]; [right; right; split; [assumption|]; destruct Ho as [Ho|Ho]; [lra|assumption]|right; left|left; split; assumption].
    split; [assumption|]. destruct (Z.lt_total j 0) as [K|[K|K]]; [exfalso; apply (Nr K); apply Zr; assumption|contradiction|assumption]. }
  rewrite (LogProps.is_root_unique j x r' r Hr' Hr) in Dz. exists u. split; [assumption|]. destruct (narrow_bits w Nw) as [Sw Lw].
  eapply (near_faith Linear (bits w) (bpow radix2 (-54))); try eassumption.
  split; [apply bpow_ge_0|apply bpow_le; lia].
Qed.
