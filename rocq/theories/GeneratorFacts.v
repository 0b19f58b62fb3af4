(** The pseudo random number generators of the test harness (for C138). *)
From Coq Require Import ZArith Znumtheory List Bool Lia.
From Verif Require Import CModel Spec Wrappers WrapApi WidthFacts TestHarness Lfsr.
Import ListNotations.
Local Open Scope Z_scope.

(** one step on the unsigned bits *)
Definition feed (a b c d bits : Z) : Z :=
  Z.lxor (Z.lxor (Z.lxor (Z.shiftr bits a) (Z.shiftr bits b)) (Z.shiftr bits c)) (Z.shiftr bits d).
Definition step (n a b c d bits : Z) : Z := Z.lxor (Z.shiftl (Z.land (feed a b c d bits) 1) (n - 1)) (Z.shiftr bits 1).

Lemma lxor_swap : forall a b c d, Z.lxor (Z.lxor a b) (Z.lxor c d) = Z.lxor (Z.lxor a c) (Z.lxor b d).
Proof. intros a b c d. rewrite !Z.lxor_assoc. f_equal. rewrite <- !Z.lxor_assoc. f_equal. apply Z.lxor_comm. Qed.
Lemma land_lxor_1 : forall a b, Z.land (Z.lxor a b) 1 = Z.lxor (Z.land a 1) (Z.land b 1).
Proof. intros a b. apply Z.bits_inj'. intros i Hi. rewrite Z.land_spec, !Z.lxor_spec, !Z.land_spec. destruct (Z.testbit a i), (Z.testbit b i), (Z.testbit 1 i); reflexivity. Qed.
Lemma step_additive : forall n a b c d, additive (step n a b c d).
Proof.
  intros n a b c d x y. unfold step.
  assert (feed a b c d (Z.lxor x y) = Z.lxor (feed a b c d x) (feed a b c d y)) as E.
  { unfold feed. rewrite !Z.shiftr_lxor. apply Z.bits_inj'. intros i Hi. rewrite !Z.lxor_spec.
    destruct (Z.testbit (Z.shiftr x a) i), (Z.testbit (Z.shiftr x b) i), (Z.testbit (Z.shiftr x c) i), (Z.testbit (Z.shiftr x d) i),
      (Z.testbit (Z.shiftr y a) i), (Z.testbit (Z.shiftr y b) i), (Z.testbit (Z.shiftr y c) i), (Z.testbit (Z.shiftr y d) i); reflexivity. }
  rewrite E, land_lxor_1, Z.shiftl_lxor, Z.shiftr_lxor. apply lxor_swap.
Qed.
Lemma land_1_range : forall a, 0 <= Z.land a 1 <= 1.
Proof. intros a. change 1 with (Z.ones 1). rewrite Z.land_ones by lia. pose proof (Z.mod_pos_bound a (2 ^ 1) ltac:(lia)). change (Z.ones 1) with 1. change (2 ^ 1) with 2 in *. lia. Qed.
Lemma step_lor : forall n f l, 1 <= n -> 0 <= f <= 1 -> 0 <= l < 2 ^ (n - 1) -> Z.lor (f * 2 ^ (n - 1)) l = Z.lxor (Z.shiftl f (n - 1)) l /\ 0 <= Z.lxor (Z.shiftl f (n - 1)) l < 2 ^ n.
Proof.
  intros n f l Hn Hf Hl. assert (Z.land (Z.shiftl f (n - 1)) l = 0) as E.
  { apply Z.bits_inj'. intros i Hi. rewrite Z.land_spec, Z.bits_0. destruct (Z_lt_le_dec i (n - 1)) as [K|K].
    - rewrite Z.shiftl_spec_low by lia. reflexivity.
    - rewrite <- (Z.mod_small l (2 ^ (n - 1))) by lia. rewrite Z.mod_pow2_bits_high by lia. apply andb_false_r. }
  assert (2 ^ n = 2 * 2 ^ (n - 1)) as P by (rewrite <- Z.pow_succ_r by lia; f_equal; lia).
  split.
  - rewrite <- Z.shiftl_mul_pow2 by lia. rewrite <- Z.lxor_lor by assumption. reflexivity.
  - rewrite <- Z.add_nocarry_lxor by assumption. rewrite Z.shiftl_mul_pow2 by lia. nia.
Qed.
Lemma half_range : forall n b, 1 <= n -> 0 <= b < 2 ^ n -> 0 <= b / 2 ^ 1 < 2 ^ (n - 1).
Proof.
  intros n b Hn Hb. assert (2 ^ n = 2 * 2 ^ (n - 1)) as P by (rewrite <- Z.pow_succ_r by lia; f_equal; lia).
  change (2 ^ 1) with 2. split; [apply Z.div_pos; lia|apply Z.div_lt_upper_bound; lia].
Qed.
Lemma step_closed : forall m a b c d, (1 <= m)%nat -> closed m (step (Z.of_nat m) a b c d).
Proof.
  intros m a b c d Hm v Hv. unfold step. apply step_lor; [lia|apply land_1_range|]. rewrite Z.shiftr_div_pow2 by lia. apply half_range; lia.
Qed.

Definition taps (w : Wrappers.width) : Z -> Z :=
  match w with
  | W8 => step 8 0 2 3 4
  | W16 => step 16 0 1 3 12
  | W32 => step 32 0 10 30 31
  | W64 => step 64 0 1 3 4
  end.
Definition size (w : Wrappers.width) : nat := match w with W8 => 8 | W16 => 16 | W32 => 32 | W64 => 64 end.
Lemma size_bits : forall w, Z.of_nat (size w) = bits w.
Proof. destruct w; reflexivity. Qed.
Lemma taps_additive : forall w, additive (taps w).
Proof. destruct w; apply step_additive. Qed.
Lemma taps_closed : forall w, closed (size w) (taps w).
Proof. destruct w; [exact (step_closed 8 _ _ _ _ ltac:(lia))|exact (step_closed 16 _ _ _ _ ltac:(lia))|exact (step_closed 32 _ _ _ _ ltac:(lia))|exact (step_closed 64 _ _ _ _ ltac:(lia))]. Qed.

(** the four functions *)
Lemma next_taps : forall w r v, is_intn (bits w) v -> v <> 0 -> random_next r v w = Val (to_s (bits w) (taps w (to_u (bits w) v))).
Proof.
  intros w r v Hv Nv. assert (to_u (bits w) v <> 0) as Nz.
  { intros E. apply Nv. rewrite <- (to_s_to_u (bits w) v) by (assumption || (destruct w; cbn; lia)). rewrite E. destruct w; reflexivity. }
  apply Z.eqb_neq in Nz.
  assert (forall n a b c d (x : Z), 1 <= n -> 0 <= x < 2 ^ n -> to_u n (Z.lor (Z.land (feed a b c d x) 1 * 2 ^ (n - 1)) (Z.shiftr x 1)) = step n a b c d x) as S.
  { intros n a b c d x Hn Hx. pose proof (half_range n x Hn Hx) as Hh. rewrite <- Z.shiftr_div_pow2 in Hh by lia.
    destruct (step_lor n (Z.land (feed a b c d x) 1) (Z.shiftr x 1) Hn (land_1_range _) Hh) as [E R]. rewrite E. apply to_u_small. exact R. }
  assert (forall n, 1 <= n -> forall x, to_u n (Z.land x 1) = Z.land x 1) as T.
  { intros n Hn x. apply to_u_small. pose proof (land_1_range x). assert (2 ^ 1 <= 2 ^ n) by (apply Z.pow_le_mono_r; lia). lia. }
  assert (forall n, 1 <= n -> forall x, to_u n (Z.land x 1 * 2 ^ (n - 1)) = Z.land x 1 * 2 ^ (n - 1)) as T2.
  { intros n Hn x. apply to_u_small. pose proof (land_1_range x). assert (2 ^ n = 2 * 2 ^ (n - 1)) as P by (rewrite <- Z.pow_succ_r by lia; f_equal; lia). assert (0 < 2 ^ (n - 1)) by (apply Z.pow_pos_nonneg; lia). nia. }
  assert (forall n, 1 <= n -> 0 <= to_u n v < 2 ^ n) as R by (intros n Hn; apply Z.mod_pos_bound; apply Z.pow_pos_nonneg; lia).
  destruct w; cbn [bits taps random_next] in *.
  - unfold random_int8_next. assert (to_s 8 v = v) as -> by (apply (to_s_eq 8 v 0); [lia|assumption|ring]). rewrite Nz. specialize (R 8 ltac:(lia)). set (x := to_u 8 v) in *. clearbody x.
    unfold shr_promoted, shr_u, shl_promoted, shl_int, guard, bind. change (8 <? 32) with true. cbn [Z.leb Z.ltb Z.compare Pos.compare Pos.compare_cont andb Z.max].
    rewrite <- !Z.shiftr_div_pow2 by lia. fold (feed 0 2 3 4 x). rewrite T by lia. pose proof (land_1_range (feed 0 2 3 4 x)) as L. rewrite (proj2 (Z.leb_le 0 _)) by lia. rewrite (proj2 (Z.ltb_lt _ (2 ^ 31))) by (change (2 ^ 7) with 128; change (2 ^ 31) with 2147483648; lia).
    cbn [andb]. f_equal. f_equal. apply (S 8); lia.
  - unfold random_int16_next. assert (to_s 16 v = v) as -> by (apply (to_s_eq 16 v 0); [lia|assumption|ring]). rewrite Nz. specialize (R 16 ltac:(lia)). set (x := to_u 16 v) in *. clearbody x.
    unfold shr_promoted, shr_u, shl_promoted, shl_int, guard, bind. change (16 <? 32) with true. change (16 - 1) with 15. cbn [Z.leb Z.ltb Z.compare Pos.compare Pos.compare_cont andb Z.max].
    rewrite <- !Z.shiftr_div_pow2 by lia. fold (feed 0 1 3 12 x). rewrite T by lia. pose proof (land_1_range (feed 0 1 3 12 x)) as L. rewrite (proj2 (Z.leb_le 0 _)) by lia. rewrite (proj2 (Z.ltb_lt _ (2 ^ 31))) by (change (2 ^ 15) with 32768; change (2 ^ 31) with 2147483648; lia).
    cbn [andb]. f_equal. f_equal. apply (S 16); lia.
  - unfold random_int32_next. assert (to_s 32 v = v) as -> by (apply (to_s_eq 32 v 0); [lia|assumption|ring]). rewrite Nz. specialize (R 32 ltac:(lia)). set (x := to_u 32 v) in *. clearbody x.
    unfold shr_promoted, shr_u, shl_promoted, shl_u, guard, bind. change (32 <? 32) with false. change (32 - 1) with 31. cbn [Z.leb Z.ltb Z.compare Pos.compare Pos.compare_cont andb Z.max].
    rewrite <- !Z.shiftr_div_pow2 by lia. fold (feed 0 10 30 31 x). rewrite T by lia. change 31 with (32 - 1) at 2. rewrite T2 by lia.
    f_equal. f_equal. apply (S 32); lia.
  - unfold random_int64_next. rewrite Nz. specialize (R 64 ltac:(lia)). set (x := to_u 64 v) in *. clearbody x.
    unfold shr_promoted, shr_u, shl_promoted, shl_u, guard, bind. change (64 <? 32) with false. change (64 - 1) with 63. cbn [Z.leb Z.ltb Z.compare Pos.compare Pos.compare_cont andb Z.max].
    rewrite <- !Z.shiftr_div_pow2 by lia. fold (feed 0 1 3 4 x). rewrite T by lia. change 63 with (64 - 1). rewrite T2 by lia.
    f_equal. f_equal. apply (S 64); lia.
Qed.
Lemma next_zero : forall w r, random_next r 0 w = (if to_u (bits w) r =? 0 then Val 0 else random_next r (to_s (bits w) r) w).
Proof.
  intros w r. destruct (Z.eqb_spec (to_u (bits w) r) 0) as [E|E].
  - destruct w; cbn [bits] in *; unfold random_next, random_int8_next, random_int16_next, random_int32_next, random_int64_next.
    + change (to_u 8 (to_s 8 0) =? 0) with true. cbv iota. rewrite E. vm_compute. reflexivity.
    + change (to_u 16 (to_s 16 0) =? 0) with true. cbv iota. rewrite E. vm_compute. reflexivity.
    + change (to_u 32 (to_s 32 0) =? 0) with true. cbv iota. rewrite E. vm_compute. reflexivity.
    + change (to_u 64 0 =? 0) with true. cbv iota. rewrite E. vm_compute. reflexivity.
  - assert (forall n z, 1 <= n -> to_s n (to_s n z) = to_s n z) as I by (intros n z Hn; apply (to_s_eq n _ 0); [assumption|apply to_s_intn; assumption|ring]).
    destruct w; cbn [bits] in *; unfold random_next, random_int8_next, random_int16_next, random_int32_next, random_int64_next.
    + rewrite (I 8 r), (to_u_to_s 8 r) by lia. rewrite (proj2 (Z.eqb_neq _ _) E). reflexivity.
    + rewrite (I 16 r), (to_u_to_s 16 r) by lia. rewrite (proj2 (Z.eqb_neq _ _) E). reflexivity.
    + rewrite (I 32 r), (to_u_to_s 32 r) by lia. rewrite (proj2 (Z.eqb_neq _ _) E). reflexivity.
    + rewrite (to_u_to_s 64 r) by lia. rewrite (proj2 (Z.eqb_neq _ _) E). reflexivity.
Qed.

(** ** The orbits *)
Definition period (w : Wrappers.width) : positive :=
  match w with W8 => 255 | W16 => 65535 | W32 => 4294967295 | W64 => 18446744073709551615 end.
Definition primes (w : Wrappers.width) : list Z :=
  match w with
  | W8 => [3; 5; 17] | W16 => [3; 5; 17; 257] | W32 => [3; 5; 17; 257; 65537] | W64 => [3; 5; 17; 257; 641; 65537; 6700417]
  end.
Lemma p3 : prime 3. Proof. exact prime_3. Qed.
Lemma p5 : prime 5. Proof. apply (prime_check 5 2); reflexivity. Qed.
Lemma p17 : prime 17. Proof. apply (prime_check 17 4); reflexivity. Qed.
Lemma p257 : prime 257. Proof. apply (prime_check 257 16); reflexivity. Qed.
Lemma p641 : prime 641. Proof. apply (prime_check 641 25); reflexivity. Qed.
Lemma p65537 : prime 65537. Proof. apply (prime_check 65537 256); vm_compute; reflexivity. Qed.
Lemma p6700417 : prime 6700417. Proof. apply (prime_check 6700417 2600); vm_compute; reflexivity. Qed.
Lemma period_factors : forall w, prime_factors (Z.pos (period w)) (primes w).
Proof.
  pose proof p3. pose proof p5. pose proof p17. pose proof p257. pose proof p641. pose proof p65537. pose proof p6700417.
  destruct w; cbn [prime_factors primes period].
  - split; [assumption|]. exists 85. split; [reflexivity|]. split; [assumption|]. exists 17. split; [reflexivity|]. split; [assumption|]. exists 1. split; reflexivity.
  - split; [assumption|]. exists 21845. split; [reflexivity|]. split; [assumption|]. exists 4369. split; [reflexivity|]. split; [assumption|]. exists 257. split; [reflexivity|]. split; [assumption|]. exists 1. split; reflexivity.
  - split; [assumption|]. exists 1431655765. split; [reflexivity|]. split; [assumption|]. exists 286331153. split; [reflexivity|]. split; [assumption|]. exists 16843009. split; [reflexivity|]. split; [assumption|]. exists 65537. split; [reflexivity|]. split; [assumption|]. exists 1. split; reflexivity.
  - split; [assumption|]. exists 6148914691236517205. split; [reflexivity|]. split; [assumption|]. exists 1229782938247303441. split; [reflexivity|]. split; [assumption|]. exists 72340172838076673. split; [reflexivity|]. split; [assumption|]. exists 281479271743489. split; [reflexivity|]. split; [assumption|]. exists 439125228929. split; [reflexivity|]. split; [assumption|]. exists 6700417. split; [reflexivity|]. split; [assumption|]. exists 1. split; reflexivity.
Qed.
Lemma taps_period : forall w, power (columns (taps w) 0 (size w)) (period w) = identity (size w).
Proof. destruct w; vm_compute; reflexivity. Qed.
Lemma taps_order : forall w, Forall (fun p => power (plus_identity (size w) (power (columns (taps w) 0 (size w)) (Z.to_pos (Z.pos (period w) / p)))) (period w) = identity (size w)) (primes w).
Proof. destruct w; cbn [primes]; repeat (apply Forall_cons; [vm_compute; reflexivity|]); apply Forall_nil. Qed.
