(** Properties C99 and C100: exact differences, results that do not overshoot
    takums, and the octant of the angle.  Theorems only; proofs are in
    Sterbenz.v and Octant.v. *)
From Coq Require Import ZArith Reals Bool Lra Lia.
From Flocq Require Import Core.Core.
From Verif Require Import CModel FloatModel Libm LibmSpec LibmIdeal Spec Wrappers WrapApi WrapSpec WrapSpec2 RangeSpec ValueFacts SpecFacts WidthFacts WidthApi LinApi LinArithRefute MiscProps Sterbenz Octant.
Local Open Scope R_scope.

(** C99: the difference of two linear takums of which neither is more than
    twice the other is exact, unless it is too small for any takum *)
Theorem C99_close_subtraction_exact :
  forall n f a b x y, linear_subtraction n f -> is_intn n a -> is_intn n b ->
    value Linear n a = Some x -> value Linear n b = Some y ->
    within_factor_two x y -> x - y = 0 \/ powerRZ 2 (-255) < Rabs (x - y) ->
    exists c, f a b = Val c /\ is_intn n c /\ value Linear n c = Some (x - y).
Proof. exact close_subtraction. Qed.
Print Assumptions C99_close_subtraction_exact.
Theorem C99_close_addition_exact :
  forall n f a b x y, linear_addition n f -> is_intn n a -> is_intn n b ->
    value Linear n a = Some x -> value Linear n b = Some y ->
    within_factor_two x (- y) -> x + y = 0 \/ powerRZ 2 (-255) < Rabs (x + y) ->
    exists c, f a b = Val c /\ is_intn n c /\ value Linear n c = Some (x + y).
Proof. exact close_addition. Qed.
Print Assumptions C99_close_addition_exact.
Example C99_case : linear_subtraction 16 (takum_linear_subtraction x86_64 W16) /\ is_intn 16 0x4800 /\ is_intn 16 0x4001 /\
  (exists x y, value Linear 16 0x4800 = Some x /\ value Linear 16 0x4001 = Some y /\ within_factor_two x y /\ powerRZ 2 (-255) < Rabs (x - y)) /\
  takum_linear_subtraction x86_64 W16 0x47ff 0x4003 = Val 0x3ff8%Z /\
  takum_linear_subtraction x86_64 W16 0x4001 0x4000 = Val 0x2400%Z /\
  (* the bound is sharp: 2 and 1 are the smallest takums *)
  takum_linear_subtraction x86_64 W16 2 1 = Val 1%Z.
Proof.
  split; [constructor|]. split; [split; vm_compute; [discriminate|reflexivity]|]. split; [split; vm_compute; [discriminate|reflexivity]|]. split.
  - rewrite !value_const by (split; vm_compute; (discriminate || reflexivity)). do 2 eexists. split; [reflexivity|]. split; [reflexivity|].
    change (vm 16 0x4800) with (2 ^ 59)%Z. change (vm 16 0x4001) with (2 ^ 59 + 2 ^ 48)%Z. change (ve 16 0x4800) with (-58)%Z. change (ve 16 0x4001) with (-59)%Z.
    replace (bpow radix2 (-58)) with (2 * bpow radix2 (-59)) by (change (-58)%Z with (1 + -59)%Z; rewrite bpow_plus; reflexivity).
    pose proof (bpow_gt_0 radix2 (-59)) as P. assert (powerRZ 2 (-255) = bpow radix2 (-255)) as -> by (symmetry; exact (bpow_powerRZ radix2 (-255))).
    assert (bpow radix2 (-255) < bpow radix2 (-59)) as L by (apply bpow_lt; lia). set (e := bpow radix2 (-59)) in *. clearbody e. set (q := bpow radix2 (-255)) in *. clearbody q.
    change (IZR (2 ^ 59)) with (IZR 576460752303423488). change (IZR (2 ^ 59 + 2 ^ 48)) with (IZR 576742227280134144).
    split; [left; lra|]. rewrite Rabs_pos_eq by lra. lra.
  - vm_compute. auto.
Qed.

(** C100: results of functions of two arguments, of integer powers and roots
    are on the same side of every takum as the exact values *)
Theorem C100_linear_binary_no_overshoot :
  forall lm b w s t x y r a v, c99 lm -> w <> W64 -> b <> n_multiplication -> b <> n_division ->
    is_intn (bits w) s -> is_intn (bits w) t ->
    value Linear (bits w) s = Some x -> value Linear (bits w) t = Some y -> is_value2 b x y r ->
    is_intn (bits w) a -> value Linear (bits w) a = Some v ->
    exists z u, api_binary Linear lm b w s t = Val z /\ value Linear (bits w) z = Some u /\
                (r <= v -> u <= v) /\ (v <= r -> v <= u).
Proof. exact binary_between. Qed.
Print Assumptions C100_linear_binary_no_overshoot.
Theorem C100_linear_integer_power_no_overshoot :
  forall lm w t j x a v, c99 lm -> is_intn (bits w) t -> is_int64 j ->
    value Linear (bits w) t = Some x -> x <> 0 \/ (0 < j)%Z ->
    is_intn (bits w) a -> value Linear (bits w) a = Some v ->
    exists z u, api_integer_power Linear lm w t j = Val z /\ value Linear (bits w) z = Some u /\
                (powerRZ x j <= v -> u <= v) /\ (v <= powerRZ x j -> v <= u).
Proof. exact power_between. Qed.
Print Assumptions C100_linear_integer_power_no_overshoot.
Theorem C100_linear_root_no_overshoot :
  forall lm w t j x r a v, c99 lm -> w <> W64 -> is_intn (bits w) t -> is_int64 j ->
    value Linear (bits w) t = Some x -> 0 < x \/ j = 1%Z \/ j = (-1)%Z -> is_root j x r ->
    is_intn (bits w) a -> value Linear (bits w) a = Some v ->
    exists z u, api_root Linear lm w t j = Val z /\ value Linear (bits w) z = Some u /\
                (r <= v -> u <= v) /\ (v <= r -> v <= u).
Proof. exact root_between. Qed.
Print Assumptions C100_linear_root_no_overshoot.
(** in particular the angle of a point is in the octant of the point *)
Theorem C100_linear_arctan2_over_pi_octant :
  forall lm w s t y x, c99 lm -> w <> W64 -> is_intn (bits w) s -> is_intn (bits w) t ->
    value Linear (bits w) s = Some y -> value Linear (bits w) t = Some x ->
    exists r v, api_binary Linear lm n_arctan2_over_pi w s t = Val r /\ value Linear (bits w) r = Some v /\ octant y x v.
Proof. exact arctan2_octant. Qed.
Print Assumptions C100_linear_arctan2_over_pi_octant.
Example C100_case : c99 ideal /\ is_intn 16 (2 ^ 14) /\ value Linear 16 (2 ^ 14) = Some 1 /\ is_value2 n_hypotenuse 1 1 (sqrt (1 * 1 + 1 * 1)) /\
  is_int64 3 /\ octant 1 1 (/ 4) /\ ~ octant 1 1 (- / 4) /\ ~ octant 1 1 (/ 3).
Proof.
  split; [exact ideal_c99|]. destruct (value_one_k Linear 16 ltac:(unfold std_width; tauto)) as [V I]. split; [exact I|]. split; [exact V|]. split; [reflexivity|].
  split; [split; vm_compute; discriminate || reflexivity|]. unfold octant. rewrite !(Rabs_pos_eq 1), !(Rabs_pos_eq (/ 4)) by lra. split; [|split].
  - repeat split; intros; lra.
  - intros (_ & K & _). lra.
  - intros (_ & _ & _ & K & _). rewrite Rabs_pos_eq in K; lra.
Qed.
