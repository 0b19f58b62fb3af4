(** Multiplication and division, inversion, and square root and square of linear
    takums undo each other up to an error (C112). *)
From Coq Require Import ZArith Reals Bool Lia Lra.
From Flocq Require Import Core.Core.
From Verif Require Import CModel FloatModel Spec CodeFacts SpecFacts ValueFacts RoundFacts WidthFacts LinApi ErrorSpec ErrorProps ErrorApi Sums.
Local Open Scope R_scope.

Definition prec_gain (n : Z) : Z := if (n =? 16)%Z then 1%Z else 0%Z.
Lemma factor : forall n z m c t, (16 <= n)%Z -> relative_error Linear n (prec_gain n) z t -> moderate Linear m -> z = m * c -> / 2 <= c < 2 ->
  exists v d, value Linear n t = Some v /\ v = z * (1 + d) /\ Rabs d <= roundoff n (prec_gain n).
Proof.
  intros n z m c t Hn R M Ez Hc. assert (m <> 0) as Nm. { intros ->. simpl in M. rewrite Rabs_R0 in M. pose proof (bpow_gt_0 radix2 (-253)) as K. rewrite <- powerRZ_bpow in K. simpl in K. lra. }
  assert (m * c <> 0) as Nz by (apply Rmult_integral_contrapositive_currified; [assumption|lra]).
  destruct (moderate_exponent Linear m c M Hc Nz) as (e & He & Be). rewrite <- Ez in *.
  destruct (error_roundoff _ _ _ _ _ e Hn He Be R) as (v & V & Q). exists v, ((v - z) / z). split; [assumption|]. split; [field; assumption|].
  unfold Rdiv. rewrite Rabs_mult, Rabs_Rinv by assumption. apply Rabs_pos_lt in Nz. apply (Rmult_le_reg_r (Rabs z)); [assumption|]. rewrite Rmult_assoc, Rinv_l, Rmult_1_r by lra. assumption.
Qed.
Lemma moderate_nz : forall m, moderate Linear m -> m <> 0.
Proof. intros m M ->. unfold moderate in M. rewrite Rabs_R0, !powerRZ_bpow in M. pose proof (bpow_gt_0 radix2 (-253)). lra. Qed.
Lemma gain_range : forall n, (16 <= n)%Z -> 0 < roundoff n (prec_gain n) <= / 16.
Proof. intros n Hn. split; [apply roundoff_pos|]. apply roundoff_small; [assumption|]. unfold prec_gain. destruct (n =? 16)%Z; lia. Qed.
Lemma to_bound : forall x d B, Rabs d <= B -> Rabs (x * (1 + d) - x) <= B * Rabs x.
Proof. intros x d B H. replace (x * (1 + d) - x) with (d * x) by ring. rewrite Rabs_mult. apply Rmult_le_compat_r; [apply Rabs_pos|assumption]. Qed.

Lemma mul_div : forall n f g a b x y, linear_multiplication n f -> linear_division n g -> n <> 8%Z -> is_intn n a -> is_intn n b ->
  value Linear n a = Some x -> value Linear n b = Some y -> moderate Linear x -> moderate Linear (x * y) ->
  exists p r v, f a b = Val p /\ g p b = Val r /\ value Linear n r = Some v /\
    Rabs (v - x) <= ((1 + roundoff n (if (n =? 16)%Z then 1 else 0)) ^ 2 - 1) * Rabs x.
Proof.
  intros n f g a b x y Hf Hg N8 Ia Ib Va Vb Mx Mp. assert (16 <= n)%Z as Hn by (destruct Hf; lia). change (if (n =? 16)%Z then 1%Z else 0%Z) with (prec_gain n). pose proof (gain_range n Hn) as Hu.
  destruct (lin_mul_error n f a b x y Hf N8 Ia Ib Va Vb) as (p & Ep & Ip & Rp).
  destruct (factor n (x * y) (x * y) 1 p Hn Rp Mp ltac:(ring) ltac:(lra)) as (w & d & Vw & Ew & Hd). pose proof (moderate_nz _ Mp) as Np. assert (y <> 0) as Ny by (intros ->; lra).
  destruct (lin_div_error n g p b w y Hg N8 Ip Ib Vw Vb Ny) as (r & Er & Ir & Rr). set (u := roundoff n (prec_gain n)) in *. pose proof (Rabs_le_inv _ _ Hd) as Hd'.
  destruct (factor n (w / y) x (1 + d) r Hn Rr Mx ltac:(rewrite Ew; field; assumption) ltac:(lra)) as (v & d' & Vv & Ev & Hd2). apply Rabs_le_inv in Hd2. fold u in Hd2.
  exists p, r, v. split; [assumption|]. split; [assumption|]. split; [assumption|].
  rewrite Ev, Ew. replace (x * y * (1 + d) / y * (1 + d')) with (x * (1 + (d + d' + d * d'))) by (field; assumption). apply to_bound. apply Rabs_le. clearbody u. nra.
Qed.
Lemma div_mul : forall n f g a b x y, linear_multiplication n f -> linear_division n g -> n <> 8%Z -> is_intn n a -> is_intn n b ->
  value Linear n a = Some x -> value Linear n b = Some y -> moderate Linear x -> y <> 0 -> moderate Linear (x / y) ->
  exists p r v, g a b = Val p /\ f p b = Val r /\ value Linear n r = Some v /\
    Rabs (v - x) <= ((1 + roundoff n (if (n =? 16)%Z then 1 else 0)) ^ 2 - 1) * Rabs x.
Proof.
  intros n f g a b x y Hf Hg N8 Ia Ib Va Vb Mx Ny Mp. assert (16 <= n)%Z as Hn by (destruct Hf; lia). change (if (n =? 16)%Z then 1%Z else 0%Z) with (prec_gain n). pose proof (gain_range n Hn) as Hu.
  destruct (lin_div_error n g a b x y Hg N8 Ia Ib Va Vb Ny) as (p & Ep & Ip & Rp).
  destruct (factor n (x / y) (x / y) 1 p Hn Rp Mp ltac:(ring) ltac:(lra)) as (w & d & Vw & Ew & Hd).
  destruct (lin_mul_error n f p b w y Hf N8 Ip Ib Vw Vb) as (r & Er & Ir & Rr). set (u := roundoff n (prec_gain n)) in *. pose proof (Rabs_le_inv _ _ Hd) as Hd'.
  destruct (factor n (w * y) x (1 + d) r Hn Rr Mx ltac:(rewrite Ew; field; assumption) ltac:(lra)) as (v & d' & Vv & Ev & Hd2). apply Rabs_le_inv in Hd2. fold u in Hd2.
  exists p, r, v. split; [assumption|]. split; [assumption|]. split; [assumption|].
  rewrite Ev, Ew. replace (x / y * (1 + d) * y * (1 + d')) with (x * (1 + (d + d' + d * d'))) by (field; assumption). apply to_bound. apply Rabs_le. clearbody u. nra.
Qed.
Lemma inv_inv : forall n f a x, linear_inversion n f -> n <> 8%Z -> is_intn n a -> value Linear n a = Some x -> moderate Linear x ->
  exists p r v, f a = Val p /\ f p = Val r /\ value Linear n r = Some v /\
    Rabs (v - x) <= ((1 + roundoff n (if (n =? 16)%Z then 1 else 0)) / (1 - roundoff n (if (n =? 16)%Z then 1 else 0)) - 1) * Rabs x.
Proof.
  intros n f a x Hf N8 Ia Va Mx. assert (16 <= n)%Z as Hn by (destruct Hf; lia). change (if (n =? 16)%Z then 1%Z else 0%Z) with (prec_gain n). pose proof (gain_range n Hn) as Hu.
  pose proof (moderate_nz _ Mx) as Nx.
  assert (moderate Linear (/ x)) as Mi.
  { unfold moderate in *. rewrite !powerRZ_bpow in *. rewrite Rabs_Rinv by assumption. change (-253)%Z with (- (253))%Z in *. rewrite bpow_opp in *. pose proof (bpow_gt_0 radix2 253) as P. pose proof (Rabs_pos_lt _ Nx).
    split; [apply Rinv_le_contravar; lra|]. rewrite <- (Rinv_involutive (bpow radix2 253)) by lra. apply Rinv_le_contravar; [apply Rinv_0_lt_compat; lra|lra]. }
  destruct (lin_inv_error n f a x Hf N8 Ia Va Nx) as (p & Ep & Ip & Rp).
  destruct (factor n (/ x) (/ x) 1 p Hn Rp Mi ltac:(ring) ltac:(lra)) as (w & d & Vw & Ew & Hd). set (u := roundoff n (prec_gain n)) in *. pose proof (Rabs_le_inv _ _ Hd) as Hd'.
  assert (w <> 0) as Nw by (rewrite Ew; apply Rmult_integral_contrapositive_currified; [apply Rinv_neq_0_compat; assumption|lra]).
  destruct (lin_inv_error n f p w Hf N8 Ip Vw Nw) as (r & Er & Ir & Rr).
  assert (/ 2 <= / (1 + d) < 2) as Hc. { split; [apply Rinv_le_contravar; lra|]. replace 2 with (/ (/ 2)) by lra. apply Rinv_lt_contravar; lra. }
  destruct (factor n (/ w) x (/ (1 + d)) r Hn Rr Mx ltac:(rewrite Ew; field; split; lra) Hc) as (v & d' & Vv & Ev & Hd2). apply Rabs_le_inv in Hd2. fold u in Hd2.
  exists p, r, v. split; [assumption|]. split; [assumption|]. split; [assumption|].
  rewrite Ev, Ew. replace (/ (/ x * (1 + d)) * (1 + d')) with (x * (1 + ((1 + d') / (1 + d) - 1))) by (field; split; lra). apply to_bound. clearbody u.
  assert (0 < / (1 + d) <= / (1 - u)) as I1 by (split; [apply Rinv_0_lt_compat; lra|apply Rinv_le_contravar; lra]).
  assert (/ (1 + u) <= / (1 + d)) as I2 by (apply Rinv_le_contravar; lra).
  assert ((1 - u) / (1 + u) + (1 + u) / (1 - u) >= 2) as I3.
  { replace ((1 - u) / (1 + u) + (1 + u) / (1 - u)) with (2 + 4 * u * u * (/ (1 + u) * / (1 - u))) by (field; split; lra). assert (0 <= / (1 + u) * / (1 - u)) by (apply Rmult_le_pos; left; apply Rinv_0_lt_compat; lra). nra. }
  unfold Rdiv in *. apply Rabs_le. assert (0 < / (1 + u)) by (apply Rinv_0_lt_compat; lra). split.
  - assert ((1 - u) * / (1 + u) <= (1 + d') * / (1 + d)) by (apply Rmult_le_compat; lra). lra.
  - assert ((1 + d') * / (1 + d) <= (1 + u) * / (1 - u)) by (apply Rmult_le_compat; lra). lra.
Qed.
Lemma sqrt_square : forall n f g a x, linear_square_root n f -> linear_multiplication n g -> n <> 8%Z -> is_intn n a -> value Linear n a = Some x -> 0 <= x -> moderate Linear x ->
  exists p r v, f a = Val p /\ g p p = Val r /\ value Linear n r = Some v /\
    Rabs (v - x) <= ((1 + roundoff n (if (n =? 16)%Z then 1 else 0)) ^ 3 - 1) * Rabs x.
Proof.
  intros n f g a x Hf Hg N8 Ia Va Px Mx. assert (16 <= n)%Z as Hn by (destruct Hf; lia). change (if (n =? 16)%Z then 1%Z else 0%Z) with (prec_gain n). pose proof (gain_range n Hn) as Hu.
  pose proof (moderate_nz _ Mx) as Nx.
  assert (moderate Linear (sqrt x)) as Mi.
  { unfold moderate in *. rewrite !powerRZ_bpow in *. rewrite Rabs_pos_eq in * by (assumption || apply sqrt_pos). split.
    - destruct (Rle_or_lt 1 x) as [K|K].
      + apply Rle_trans with 1; [change 1 with (bpow radix2 0); apply bpow_le; lia|]. rewrite <- sqrt_1. apply sqrt_le_1_alt. assumption.
      + eapply Rle_trans; [apply Mx|]. rewrite <- (sqrt_sqrt x Px) at 1. pose proof (sqrt_pos x). assert (sqrt x <= 1) by (rewrite <- sqrt_1; apply sqrt_le_1_alt; lra). nra.
    - destruct (Rle_or_lt 1 x) as [K|K].
      + eapply Rle_trans; [|apply Mx]. rewrite <- (sqrt_sqrt x Px) at 2. assert (1 <= sqrt x) by (rewrite <- sqrt_1; apply sqrt_le_1_alt; lra). nra.
      + apply Rle_trans with 1; [|change 1 with (bpow radix2 0); apply bpow_le; lia]. rewrite <- sqrt_1. apply sqrt_le_1_alt. lra. }
  destruct (lin_sqrt_error n f a x Hf N8 Ia Va Px) as (p & Ep & Ip & Rp).
  destruct (factor n (sqrt x) (sqrt x) 1 p Hn Rp Mi ltac:(ring) ltac:(lra)) as (w & d & Vw & Ew & Hd). set (u := roundoff n (prec_gain n)) in *. pose proof (Rabs_le_inv _ _ Hd) as Hd'.
  destruct (lin_mul_error n g p p w w Hg N8 Ip Ip Vw Vw) as (r & Er & Ir & Rr).
  assert (w * w = x * ((1 + d) * (1 + d))) as Ex. { rewrite Ew. replace (sqrt x * (1 + d) * (sqrt x * (1 + d))) with ((sqrt x * sqrt x) * ((1 + d) * (1 + d))) by ring. rewrite sqrt_sqrt by assumption. reflexivity. }
  destruct (factor n (w * w) x ((1 + d) * (1 + d)) r Hn Rr Mx Ex ltac:(nra)) as (v & d' & Vv & Ev & Hd2). apply Rabs_le_inv in Hd2. fold u in Hd2.
  exists p, r, v. split; [assumption|]. split; [assumption|]. split; [assumption|].
  rewrite Ev, Ex. replace (x * ((1 + d) * (1 + d)) * (1 + d')) with (x * (1 + ((1 + d) * (1 + d) * (1 + d') - 1))) by ring. apply to_bound. clearbody u.
  assert ((1 - u) * (1 - u) <= (1 + d) * (1 + d) <= (1 + u) * (1 + u)) as B by (split; nra).
  assert ((1 - u) * (1 - u) * (1 - u) <= (1 + d) * (1 + d) * (1 + d')) by (apply Rmult_le_compat; nra).
  assert ((1 + d) * (1 + d) * (1 + d') <= (1 + u) * (1 + u) * (1 + u)) by (apply Rmult_le_compat; nra).
  apply Rabs_le. replace ((1 + u) ^ 3) with ((1 + u) * (1 + u) * (1 + u)) by ring. split; nra.
Qed.
