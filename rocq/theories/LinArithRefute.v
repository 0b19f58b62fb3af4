(** Operations on linear takums that are not correctly rounded. *)
From Coq Require Import ZArith Reals Bool Lia Lra List.
From Flocq Require Import Core.Core IEEE754.BinarySingleNaN.
From Verif Require Import CModel FloatModel WidthConv Codec Spec FloatSpec CodeFacts SpecFacts ValueFacts RoundFacts
  WidthFacts WidthProps FloatFacts DecodeFacts EncodeFacts PhiFacts Codec8Facts Machine Libm Conversion Wrappers LinApi LinFacts
  LinDec LogProps MiscProps LogFacts PowFacts LinProps LinOps LinGap LinArith.
Local Open Scope R_scope.

(** Lin of a dyadic number *)
Lemma Lin_div : forall S d, (0 <= d)%Z ->
  Lin (IZR S / IZR (2 ^ d)) = IZR (2 ^ d + S mod 2 ^ d) * bpow radix2 (S / 2 ^ d - d).
Proof.
  intros S d Hd. assert (0 < 2 ^ d)%Z as P by (apply Z.pow_pos_nonneg; lia).
  unfold Lin. rewrite Raux.Zfloor_div by lia.
  assert (IZR S = IZR (S / 2 ^ d) * IZR (2 ^ d) + IZR (S mod 2 ^ d)) as E.
  { rewrite <- mult_IZR, <- plus_IZR. f_equal. rewrite Z.mul_comm. apply Z.div_mod. lia. }
  unfold Zminus. rewrite plus_IZR, bpow_plus, bpow_opp, <- (IZR_pow2 d) by lia.
  apply IZR_lt in P. rewrite E at 1. field. lra.
Qed.

Definition vm (n t : Z) : Z := (2 ^ 59 + Xn n t mod 2 ^ 59)%Z.
Definition ve (n t : Z) : Z := (Xn n t / 2 ^ 59 - 59)%Z.
Lemma value_const : forall n t, (6 <= n <= 64)%Z -> (0 < t < 2 ^ (n - 1))%Z ->
  value Linear n t = Some (IZR (vm n t) * bpow radix2 (ve n t)).
Proof.
  intros n t Hn Ht. assert (is_real_takum n t) as Hr by (apply (asm_real n false t); lia).
  rewrite lin_value by assumption. f_equal. rewrite l_sg_cpm by assumption.
  replace (t <? 0)%Z with false by lia. unfold sg. rewrite !Rmult_1_l.
  replace (low n t) with t by (unfold low; rewrite Z.mod_small; lia).
  unfold cpm. apply (Lin_div (Xn n t) 59). lia.
Qed.

(** the point half-way between two takums *)
Definition hm (n t t' : Z) : Z := (2 ^ 60 + (Xn n t + Xn n t') mod 2 ^ 60)%Z.
Definition he (n t t' : Z) : Z := ((Xn n t + Xn n t') / 2 ^ 60 - 60)%Z.
Lemma half_const : forall n t t', Lin ((cpm n t + cpm n t') / 2) = IZR (hm n t t') * bpow radix2 (he n t t').
Proof.
  intros n t t'. unfold hm, he. rewrite <- (Lin_div (Xn n t + Xn n t') 60) by lia. f_equal. unfold cpm. rewrite plus_IZR.
  change (2 ^ 60)%Z with (2 * 2 ^ 59)%Z. rewrite mult_IZR. field. apply not_0_IZR. lia.
Qed.

Lemma not_rounds_half : forall n t t' z, (6 <= n <= 64)%Z -> (0 < t < 2 ^ (n - 1))%Z -> (0 < t' < 2 ^ (n - 1))%Z -> 0 < z ->
  ((t' < t)%Z /\ z < IZR (hm n t t') * bpow radix2 (he n t t')) \/ ((t < t')%Z /\ IZR (hm n t t') * bpow radix2 (he n t t') < z) ->
  ~ rounds Linear n z t.
Proof.
  intros n t t' z Hn Ht Ht' Hz H K. destruct K as [[K _]|[_ K]]; [lra|]. rewrite Rlt_bool_false in K by lra.
  cbn [coord] in K. destruct K as (_ & _ & K).
  assert (forall u, (0 < u < 2 ^ (n - 1))%Z -> is_real_takum n u /\ l_ n u = cpm n u) as L.
  { intros u Hu. assert (is_real_takum n u) as Hr by (apply (asm_real n false u); lia). split; [assumption|].
    rewrite l_sg_cpm by assumption. replace (u <? 0)%Z with false by lia. unfold sg. rewrite Rmult_1_l.
    unfold low. rewrite Z.mod_small by lia. reflexivity. }
  destruct (L t Ht) as [_ Lt]. destruct (L t' Ht') as [Hr' Lt'].
  destruct (K t' Hr' ltac:(cbn; lia)) as [K1 _]. rewrite Lt, Lt' in K1. rewrite <- half_const in H.
  destruct H as [[O H]|[O H]].
  - assert (lin_coord z < (cpm n t + cpm n t') / 2) as C.
    { destruct (Rlt_or_le (lin_coord z) ((cpm n t + cpm n t') / 2)) as [|G]; [assumption|].
      apply lin_coord_ge_iff in G; [|lra]. rewrite Rabs_pos_eq in G by lra. lra. }
    assert (cpm n t' < cpm n t) by (apply cpm_lt_iff; lia).
    rewrite (Rabs_pos_eq (cpm n t - _)) in K1 by lra. revert K1. apply Rlt_not_le. apply Rabs_def1; lra.
  - assert ((cpm n t + cpm n t') / 2 < lin_coord z) as C.
    { destruct (Rlt_or_le ((cpm n t + cpm n t') / 2) (lin_coord z)) as [|G]; [assumption|].
      apply lin_coord_le_iff in G; [|lra]. rewrite Rabs_pos_eq in G by lra. lra. }
    assert (cpm n t < cpm n t') by (apply cpm_lt_iff; lia).
    rewrite (Rabs_left1 (cpm n t - _)) in K1 by lra. revert K1. apply Rlt_not_le. apply Rabs_def1; lra.
Qed.

Lemma dy_lt : forall a e b e' k, (k <= e)%Z -> (k <= e')%Z -> (a * 2 ^ (e - k) < b * 2 ^ (e' - k))%Z ->
  IZR a * bpow radix2 e < IZR b * bpow radix2 e'.
Proof.
  intros a e b e' k He He' H. apply IZR_lt in H. rewrite !mult_IZR, !IZR_pow2 in H by lia.
  replace e with ((e - k) + k)%Z by lia. replace e' with ((e' - k) + k)%Z by lia.
  rewrite !(bpow_plus radix2 _ k), <- !Rmult_assoc. apply Rmult_lt_compat_r; [apply bpow_gt_0|]. exact H.
Qed.

(** a pair of operands for which the result is wrong *)
Definition wrong2 (f : Z -> Z -> outcome Z) n (z : R -> R -> R) : Prop :=
  exists a b t x y, is_intn n a /\ is_intn n b /\ value Linear n a = Some x /\ value Linear n b = Some y /\
    f a b = Val t /\ ~ rounds Linear n (z x y) t.
Definition wrong1 (f : Z -> outcome Z) n (z : R -> R) : Prop :=
  exists a t x, is_intn n a /\ value Linear n a = Some x /\ 0 < x /\ f a = Val t /\ ~ rounds Linear n (z x) t.

Lemma const_pos : forall n t, 0 < IZR (vm n t) * bpow radix2 (ve n t).
Proof.
  intros n t. apply Rmult_lt_0_compat; [|apply bpow_gt_0]. apply IZR_lt. unfold vm.
  pose proof (Z.mod_pos_bound (Xn n t) (2 ^ 59) ltac:(lia)). lia.
Qed.
Lemma half_pos : forall n t t', 0 < IZR (hm n t t') * bpow radix2 (he n t t').
Proof. intros n t t'. rewrite <- half_const. apply Lin_pos. Qed.

(** the comparisons below are done with integers; k is a small exponent *)
Lemma wrong_add : forall f n a b t t' k, (6 <= n <= 64)%Z -> (0 < a < 2 ^ (n - 1))%Z -> (0 < b < 2 ^ (n - 1))%Z ->
  (0 < t < 2 ^ (n - 1))%Z -> (0 < t' < 2 ^ (n - 1))%Z -> f a b = Val t ->
  (k <= ve n a)%Z -> (k <= ve n b)%Z -> (k <= he n t t')%Z -> (t < t')%Z ->
  (hm n t t' * 2 ^ (he n t t' - k) < vm n a * 2 ^ (ve n a - k) + vm n b * 2 ^ (ve n b - k))%Z ->
  wrong2 f n Rplus.
Proof.
  intros f n a b t t' k Hn Ha Hb Ht Ht' E K1 K2 K3 O C.
  exists a, b, t. do 2 eexists. split; [unfold is_intn; lia|]. split; [unfold is_intn; lia|].
  split; [apply (value_const n a); assumption|]. split; [apply (value_const n b); assumption|]. split; [exact E|].
  apply (not_rounds_half n t t'); auto.
  - pose proof (const_pos n a). pose proof (const_pos n b). lra.
  - right. split; [assumption|]. apply IZR_lt in C. rewrite plus_IZR, !mult_IZR, !IZR_pow2 in C by lia.
    assert (forall e, (k <= e)%Z -> bpow radix2 e = bpow radix2 (e - k) * bpow radix2 k) as S
      by (intros; rewrite <- bpow_plus; f_equal; lia).
    rewrite (S (ve n a)), (S (ve n b)), (S (he n t t')) by assumption. pose proof (bpow_gt_0 radix2 k). nra.
Qed.

Lemma wrong_mul : forall f n a b t t' k, (6 <= n <= 64)%Z -> (0 < a < 2 ^ (n - 1))%Z -> (0 < b < 2 ^ (n - 1))%Z ->
  (0 < t < 2 ^ (n - 1))%Z -> (0 < t' < 2 ^ (n - 1))%Z -> f a b = Val t ->
  (k <= ve n a + ve n b)%Z -> (k <= he n t t')%Z -> (t < t')%Z ->
  (hm n t t' * 2 ^ (he n t t' - k) < vm n a * vm n b * 2 ^ (ve n a + ve n b - k))%Z ->
  wrong2 f n Rmult.
Proof.
  intros f n a b t t' k Hn Ha Hb Ht Ht' E K1 K3 O C.
  exists a, b, t. do 2 eexists. split; [unfold is_intn; lia|]. split; [unfold is_intn; lia|].
  split; [apply (value_const n a); assumption|]. split; [apply (value_const n b); assumption|]. split; [exact E|].
  replace (IZR (vm n a) * bpow radix2 (ve n a) * (IZR (vm n b) * bpow radix2 (ve n b)))
    with (IZR (vm n a * vm n b) * bpow radix2 (ve n a + ve n b)) by (rewrite mult_IZR, bpow_plus; ring).
  apply (not_rounds_half n t t'); auto.
  - rewrite mult_IZR, bpow_plus. pose proof (const_pos n a). pose proof (const_pos n b). nra.
  - right. split; [assumption|]. apply (dy_lt _ _ _ _ k); assumption.
Qed.

Lemma wrong_div : forall f n a b t t' k, (6 <= n <= 64)%Z -> (0 < a < 2 ^ (n - 1))%Z -> (0 < b < 2 ^ (n - 1))%Z ->
  (0 < t < 2 ^ (n - 1))%Z -> (0 < t' < 2 ^ (n - 1))%Z -> f a b = Val t ->
  (k <= ve n a)%Z -> (k <= he n t t' + ve n b)%Z -> (t < t')%Z ->
  (hm n t t' * vm n b * 2 ^ (he n t t' + ve n b - k) < vm n a * 2 ^ (ve n a - k))%Z ->
  wrong2 f n Rdiv.
Proof.
  intros f n a b t t' k Hn Ha Hb Ht Ht' E K1 K3 O C.
  exists a, b, t. do 2 eexists. split; [unfold is_intn; lia|]. split; [unfold is_intn; lia|].
  split; [apply (value_const n a); assumption|]. split; [apply (value_const n b); assumption|]. split; [exact E|].
  pose proof (const_pos n a) as Pa. pose proof (const_pos n b) as Pb.
  apply (not_rounds_half n t t'); auto.
  - apply Rdiv_lt_0_compat; assumption.
  - right. split; [assumption|]. apply (dy_lt _ _ _ _ k) in C; auto.
    rewrite mult_IZR, bpow_plus in C. apply Rmult_lt_reg_r with (1 := Pb). unfold Rdiv. rewrite (Rmult_assoc _ (/ _)), Rinv_l, Rmult_1_r by lra. nra.
Qed.

Lemma wrong_inv : forall f n b t t' k, (6 <= n <= 64)%Z -> (0 < b < 2 ^ (n - 1))%Z ->
  (0 < t < 2 ^ (n - 1))%Z -> (0 < t' < 2 ^ (n - 1))%Z -> f b = Val t ->
  (k <= 0)%Z -> (k <= he n t t' + ve n b)%Z -> (t < t')%Z ->
  (hm n t t' * vm n b * 2 ^ (he n t t' + ve n b - k) < 1 * 2 ^ (0 - k))%Z ->
  wrong1 f n Rinv.
Proof.
  intros f n b t t' k Hn Hb Ht Ht' E K1 K3 O C. pose proof (const_pos n b) as Pb.
  exists b, t. eexists. split; [unfold is_intn; lia|]. split; [apply (value_const n b); assumption|]. split; [exact Pb|]. split; [exact E|].
  apply (not_rounds_half n t t'); auto.
  - apply Rinv_0_lt_compat; assumption.
  - right. split; [assumption|]. apply (dy_lt _ _ _ _ k) in C; auto.
    rewrite mult_IZR, bpow_plus in C. change (bpow radix2 0) with 1 in C. rewrite !Rmult_1_r in C.
    apply Rmult_lt_reg_r with (1 := Pb). rewrite Rinv_l by lra. nra.
Qed.

Lemma wrong_sqrt : forall f n a t t' k, (6 <= n <= 64)%Z -> (0 < a < 2 ^ (n - 1))%Z ->
  (0 < t < 2 ^ (n - 1))%Z -> (0 < t' < 2 ^ (n - 1))%Z -> f a = Val t ->
  (k <= ve n a)%Z -> (k <= he n t t' + he n t t')%Z ->
  ((t' < t)%Z /\ (vm n a * 2 ^ (ve n a - k) < hm n t t' * hm n t t' * 2 ^ (he n t t' + he n t t' - k))%Z \/
   (t < t')%Z /\ (hm n t t' * hm n t t' * 2 ^ (he n t t' + he n t t' - k) < vm n a * 2 ^ (ve n a - k))%Z) ->
  wrong1 f n sqrt.
Proof.
  intros f n a t t' k Hn Ha Ht Ht' E K1 K3 C. pose proof (const_pos n a) as Pa.
  exists a, t. eexists. split; [unfold is_intn; lia|]. split; [apply (value_const n a); assumption|]. split; [exact Pa|]. split; [exact E|].
  pose proof (half_pos n t t') as Ph.
  assert (IZR (hm n t t' * hm n t t') * bpow radix2 (he n t t' + he n t t') = Rsqr (IZR (hm n t t') * bpow radix2 (he n t t'))) as Es
    by (rewrite mult_IZR, bpow_plus; unfold Rsqr; ring).
  apply (not_rounds_half n t t'); auto.
  - apply sqrt_lt_R0; assumption.
  - destruct C as [[O C]|[O C]]; [left|right]; (split; [assumption|]); apply (dy_lt _ _ _ _ k) in C; auto; rewrite Es in C.
    + rewrite <- (sqrt_Rsqr (IZR (hm n t t') * bpow radix2 (he n t t'))) by lra. apply sqrt_lt_1_alt. lra.
    + rewrite <- (sqrt_Rsqr (IZR (hm n t t') * bpow radix2 (he n t t'))) by lra. apply sqrt_lt_1_alt. split; [apply Rle_0_sqr|assumption].
Qed.

Local Ltac side := lazymatch goal with
  | |- _ = Val _ => vm_compute; reflexivity
  | |- (_ < _)%Z => vm_compute; reflexivity
  | |- (_ < _ < _)%Z => split; vm_compute; reflexivity
  | |- (_ <= _)%Z => vm_compute; discriminate
  | |- (_ <= _ <= _)%Z => split; vm_compute; discriminate
  end.

Lemma mul32_refuted : wrong2 (takum_linear_multiplication x86_64 W32) 32 Rmult.
Proof. apply (wrong_mul _ 32 (0x40000000 + 0x363c5ad) (0x40000000 + 0x47e625) (0x40000000 + 0x3ca22d0) (0x40000000 + 0x3ca22d1) (-200)); side. Qed.
Lemma div32_refuted : wrong2 (takum_linear_division x86_64 W32) 32 Rdiv.
Proof. apply (wrong_div _ 32 (0x40000000 + 0x5e0d483) (0x40000000 + 0x3988ec7) (0x40000000 + 0x1931684) (0x40000000 + 0x1931685) (-200)); side. Qed.
Lemma inv32_refuted : wrong1 (takum_linear_inversion x86_64 W32) 32 Rinv.
Proof. apply (wrong_inv _ 32 0x47ffffff 0x38000000 0x38000001 (-200)); side. Qed.
Lemma sqrt32_refuted : wrong1 (takum_linear_square_root x86_64 W32) 32 sqrt.
Proof. apply (wrong_sqrt _ 32 0x40000003 0x40000002 0x40000001 (-200)); try (left; split); side. Qed.
Lemma add64_refuted : wrong2 (takum_linear_addition x86_64 W64) 64 Rplus.
Proof. apply (wrong_add _ 64 (2 ^ 62) (2 ^ 60 + 3 * 2 ^ 54 + 2 ^ 44) (2 ^ 62) (2 ^ 62 + 1) (-200)); side. Qed.
