(** The middle of two linear takums (C115, C116). *)
From Coq Require Import ZArith Reals Bool Lia Lra.
From Flocq Require Import Core.Core.
From Verif Require Import CModel FloatModel Spec CodeFacts ValueFacts RoundFacts LogApi LinApi LinArith LinArithRefute LinAlgebra MiscProps WidthFacts WidthProps RangeFacts Wrappers ErrorSpec ErrorProps Sums InverseFun InverseRefute ListSpec Lists.
Local Open Scope R_scope.

Lemma order_le : forall n a b x y, std_width n -> is_intn n a -> is_intn n b -> value Linear n a = Some x -> value Linear n b = Some y -> x <= y -> (a <= b)%Z.
Proof.
  intros n a b x y Sw Ia Ib Va Vb L. apply Z.nlt_ge. intros K. apply (proj1 (order_numeric Linear n b a y x Sw Ib Ia Vb Va)) in K. lra.
Qed.
Lemma middle_between : forall n add sub div two a b x y, linear_addition n add -> linear_subtraction n sub -> linear_division n div -> n <> 8%Z ->
  is_intn n two -> value Linear n two = Some 2 ->
  is_intn n a -> is_intn n b -> value Linear n a = Some x -> value Linear n b = Some y ->
  x = y \/ powerRZ 2 (-252) <= y - x <= powerRZ 2 252 ->
  exists m, middle add sub div two a b = Val m /\ (a <= m <= b)%Z.
Proof.
  intros n add sub div two a b x y HA HS HD N8 I2 V2 Ia Ib Va Vb R. assert (std_width n) as Sw by (destruct HA; unfold std_width; tauto).
  assert (16 <= n)%Z as Hn by (unfold std_width in Sw; lia).
  destruct (sub_faithful n sub HS b a Ib Ia) as (d & Ed & Id & Fd). rewrite Va, Vb in Fd.
  assert (exists v q, value Linear n d = Some v /\ v / 2 = q /\ 0 <= q <= 9 / 16 * (y - x) /\ (q = 0 \/ bpow radix2 (-254) <= Rabs q < bpow radix2 254)) as (v & q & Vd & Eq & Hq & Rq).
  { destruct R as [->|R].
    - destruct (faithful_value _ _ _ _ Sw Fd) as (_ & v & V & _ & _ & S3). exists v, 0. split; [assumption|]. rewrite S3 by lra. split; [lra|]. split; [lra|left; reflexivity].
    - rewrite !powerRZ_bpow in R. replace (-252)%Z with (2 + -254)%Z in R by lia. rewrite bpow_plus in R. change (bpow radix2 2) with 4 in R. pose proof (bpow_gt_0 radix2 (-254)) as P.
      assert (bpow radix2 254 = 4 * bpow radix2 252) as E4 by (replace 254%Z with (2 + 252)%Z by lia; rewrite bpow_plus; reflexivity).
      destruct (rel_step n (y - x) d Sw N8 Fd) as (v & V & Q). { rewrite Rabs_pos_eq by lra. lra. }
      rewrite powerRZ_bpow, (Rabs_pos_eq (y - x)) in Q by lra. assert (bpow radix2 (- (n - 12)) <= / 16) as U by (change (/ 16) with (bpow radix2 (-4)); apply bpow_le; lia).
      assert (Rabs (v - (y - x)) <= / 16 * (y - x)) as Q' by (eapply Rle_trans; [exact Q|]; apply Rmult_le_compat_r; lra). apply Rabs_le_inv in Q'.
      exists v, (v / 2). split; [assumption|]. split; [reflexivity|]. split; [lra|]. right. rewrite Rabs_pos_eq by lra. lra. }
  destruct (div_lin_faithful n div HD d two Id I2) as (h & Eh & Ih & Fh). rewrite Vd, V2 in Fh. destruct Fh as [[K _]|[_ Fh]]; [lra|]. rewrite Eq in Fh.
  assert (exists u, value Linear n h = Some u /\ 0 <= u <= y - x) as (u & Vh & Hu).
  { destruct Rq as [Zq|Rq].
    - destruct (faithful_value _ _ _ _ Sw Fh) as (_ & u & V & _ & _ & S3). exists u. split; [assumption|]. rewrite (S3 Zq). lra.
    - destruct (rel_step n q h Sw N8 Fh Rq) as (u & V & Q). exists u. split; [assumption|]. rewrite powerRZ_bpow, (Rabs_pos_eq q) in Q by lra.
      assert (bpow radix2 (- (n - 12)) <= / 16) as U by (change (/ 16) with (bpow radix2 (-4)); apply bpow_le; lia).
      assert (Rabs (u - q) <= / 16 * q) as Q' by (eapply Rle_trans; [exact Q|]; apply Rmult_le_compat_r; lra). apply Rabs_le_inv in Q'. lra. }
  destruct (add_faithful n add HA a h Ia Ih) as (m & Em & Im & Fm). rewrite Va, Vh in Fm. destruct (faithful_value _ _ _ _ Sw Fm) as (_ & z & Vz & _).
  pose proof (faithful_ge Linear n _ m z a x Sw Fm Vz Ia Va ltac:(lra)) as G1. pose proof (faithful_le Linear n _ m z b y Sw Fm Vz Ib Vb ltac:(lra)) as G2.
  exists m. split; [unfold middle; rewrite Ed; cbn [bind]; rewrite Eh; exact Em|]. split; eapply order_le; eassumption.
Qed.
(** the smallest two positive takums of 16 bits: their difference is rounded up
    to the smallest *)
Lemma middle_outside : value Linear 16 0x4800 = Some 2 /\
  ~ (forall a b, is_intn 16 a -> is_intn 16 b -> (0 < a <= b)%Z ->
       exists m, middle (takum_linear_addition x86_64 W16) (takum_linear_subtraction x86_64 W16) (takum_linear_division x86_64 W16) 0x4800 a b = Val m /\ (a <= m <= b)%Z).
Proof.
  split; [exact (proj1 InverseRefute.mean_not_exact)|]. intros H. destruct (H 1%Z 2%Z) as (m & E & L); [split; vm_compute; (discriminate || reflexivity)| split; vm_compute; (discriminate || reflexivity)|lia|].
  assert (middle (takum_linear_addition x86_64 W16) (takum_linear_subtraction x86_64 W16) (takum_linear_division x86_64 W16) 0x4800 1 2 = Val 17%Z) as E' by (vm_compute; reflexivity).
  assert (m = 17%Z) by congruence. lia.
Qed.
