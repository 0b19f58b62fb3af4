(** Inverse operations on linear takums that do not give back the argument (C113). *)
From Coq Require Import ZArith Reals Lia Lra.
From Flocq Require Import Core.Core.
From Verif Require Import CModel FloatModel Spec ValueFacts Arith Wrappers LinApi LinArithRefute WidthFacts.

(** the takum 0x4383, 1.4389..., is not the rounded inverse of its rounded
    inverse *)
Lemma inverse_not_exact : ~ (forall a x, is_intn 16 a -> value Linear 16 a = Some x -> x <> 0%R ->
  bind (takum_linear_inversion x86_64 W16 a) (takum_linear_inversion x86_64 W16) = Val a).
Proof.
  intros H. assert (exists x, value Linear 16 17283 = Some x /\ x <> 0%R) as (x & V & N).
  { eexists. split; [apply value_const; split; vm_compute; (discriminate || reflexivity)|]. apply Rmult_integral_contrapositive_currified; [apply not_0_IZR; vm_compute; discriminate|]. pose proof (bpow_gt_0 radix2 (ve 16 17283)). apply Rgt_not_eq. assumption. }
  specialize (H 17283%Z x ltac:(unfold is_intn; simpl; lia) V N). revert H. vm_compute. discriminate.
Qed.
Lemma quotient_not_exact : ~ (forall a b x y, is_intn 16 a -> is_intn 16 b -> value Linear 16 a = Some x -> value Linear 16 b = Some y -> y <> 0%R ->
  bind (takum_linear_multiplication x86_64 W16 a b) (fun p => takum_linear_division x86_64 W16 p b) = Val a).
Proof.
  intros H. assert (exists x, value Linear 16 16677 = Some x) as (x & V) by (eexists; apply value_const; split; vm_compute; (discriminate || reflexivity)).
  assert (exists x, value Linear 16 0x4601 = Some x /\ x <> 0%R) as (y & V' & N).
  { eexists. split; [apply value_const; split; vm_compute; (discriminate || reflexivity)|]. apply Rmult_integral_contrapositive_currified; [apply not_0_IZR; vm_compute; discriminate|]. pose proof (bpow_gt_0 radix2 (ve 16 0x4601)). apply Rgt_not_eq. assumption. }
  specialize (H 16677%Z 0x4601%Z x y ltac:(unfold is_intn; simpl; lia) ltac:(unfold is_intn; simpl; lia) V V' N). revert H. vm_compute. discriminate.
Qed.
(** 2 - 15/2^11, one of the takums below 2 whose double has fewer fraction bits;
    0x4800 is the takum 2 *)
Lemma mean_not_exact : value Linear 16 0x4800 = Some 2%R /\
  ~ (forall a x, is_intn 16 a -> value Linear 16 a = Some x -> (1 <= x <= 2)%R ->
  bind (takum_linear_addition x86_64 W16 a a) (fun p => takum_linear_division x86_64 W16 p 0x4800) = Val a).
Proof.
  assert (value Linear 16 0x4800 = Some 2%R) as V2.
  { rewrite value_const by (split; vm_compute; (discriminate || reflexivity)). change (vm 16 0x4800) with (2 ^ 59)%Z. change (ve 16 0x4800) with (-58)%Z. rewrite RoundFacts.IZR_pow2 by lia. rewrite <- bpow_plus. reflexivity. }
  split; [exact V2|]. intros H. destruct (value Linear 16 0x47f1) as [x|] eqn:V.
  2:{ rewrite value_const in V by (split; vm_compute; (discriminate || reflexivity)). discriminate. }
  assert (1 <= x <= 2)%R as B.
  { rewrite value_const in V by (split; vm_compute; (discriminate || reflexivity)). assert (x = IZR (vm 16 0x47f1) * bpow radix2 (ve 16 0x47f1))%R as -> by congruence.
    change (ve 16 0x47f1) with (-59)%Z. replace (vm 16 0x47f1) with (4081 * 2 ^ 48)%Z by (vm_compute; reflexivity). rewrite mult_IZR, RoundFacts.IZR_pow2, Rmult_assoc, <- bpow_plus by lia. change (bpow radix2 (48 + -59)) with (/ 2048)%R. lra. }
  specialize (H 0x47f1%Z x ltac:(unfold is_intn; simpl; lia) V B). revert H. vm_compute. discriminate.
Qed.
