(** The test harness, test/util.c: the pseudo random numbers, the choice of the
    test cases, the comparison and the loop.  No proofs in this file.

    Simplifications: enum takum_type is the pair of a kind and a width; what
    evaluate_reference_function (util.c:421-508) returns is given with the test
    block (reference) instead of being computed from a function on long double;
    the texts printed to stderr and stdout are left out.  rand() is an oracle:
    its i-th call returns [rnd i]. *)
From Coq Require Import ZArith List Bool.
From Verif Require Import CModel Spec Wrappers WrapApi.
Import ListNotations.
Local Open Scope Z_scope.

(** test/util.c:37-80 random_int8_next; r is what rand() returns if it is called *)
Definition random_int8_next (r previous_state : Z) : outcome Z :=
  let bits := to_u 8 previous_state in
  let bits := if bits =? 0 then to_u 8 r else bits in
  let! a := shr_promoted 8 bits 0 in let! b := shr_promoted 8 bits 2 in
  let! c := shr_promoted 8 bits 3 in let! d := shr_promoted 8 bits 4 in
  let feedback_bit := to_u 8 (Z.land (Z.lxor (Z.lxor (Z.lxor a b) c) d) 1) in
  let! h := shl_promoted 8 feedback_bit 7 in let! l := shr_promoted 8 bits 1 in
  Val (to_s 8 (to_u 8 (Z.lor h l))).

(** test/util.c:82-125 random_int16_next *)
Definition random_int16_next (r previous_state : Z) : outcome Z :=
  let bits := to_u 16 previous_state in
  let bits := if bits =? 0 then to_u 16 r else bits in
  let! a := shr_promoted 16 bits 0 in let! b := shr_promoted 16 bits 1 in
  let! c := shr_promoted 16 bits 3 in let! d := shr_promoted 16 bits 12 in
  let feedback_bit := to_u 16 (Z.land (Z.lxor (Z.lxor (Z.lxor a b) c) d) 1) in
  let! h := shl_promoted 16 feedback_bit (16 - 1) in let! l := shr_promoted 16 bits 1 in
  Val (to_s 16 (to_u 16 (Z.lor h l))).

(** test/util.c:127-170 random_int32_next *)
Definition random_int32_next (r previous_state : Z) : outcome Z :=
  let bits := to_u 32 previous_state in
  let bits := if bits =? 0 then to_u 32 r else bits in
  let! a := shr_promoted 32 bits 0 in let! b := shr_promoted 32 bits 10 in
  let! c := shr_promoted 32 bits 30 in let! d := shr_promoted 32 bits 31 in
  let feedback_bit := to_u 32 (Z.land (Z.lxor (Z.lxor (Z.lxor a b) c) d) 1) in
  let! h := shl_promoted 32 feedback_bit (32 - 1) in let! l := shr_promoted 32 bits 1 in
  Val (to_s 32 (to_u 32 (Z.lor h l))).

(** test/util.c:172-215 random_int64_next *)
Definition random_int64_next (r previous_state : Z) : outcome Z :=
  let bits := to_u 64 previous_state in
  let bits := if bits =? 0 then to_u 64 r else bits in
  let! a := shr_promoted 64 bits 0 in let! b := shr_promoted 64 bits 1 in
  let! c := shr_promoted 64 bits 3 in let! d := shr_promoted 64 bits 4 in
  let feedback_bit := to_u 64 (Z.land (Z.lxor (Z.lxor (Z.lxor a b) c) d) 1) in
  let! h := shl_promoted 64 feedback_bit (64 - 1) in let! l := shr_promoted 64 bits 1 in
  Val (to_s 64 (to_u 64 (Z.lor h l))).

(** test/util.c:217-240 random_next *)
Definition random_next (r previous_state : Z) (w : Wrappers.width) : outcome Z :=
  match w with
  | W8 => random_int8_next r (to_s 8 previous_state)
  | W16 => random_int16_next r (to_s 16 previous_state)
  | W32 => random_int32_next r (to_s 32 previous_state)
  | W64 => random_int64_next r previous_state
  end.

(** rand() is called exactly for the state zero (the test [state.bits == 0] in
    the functions above): the number of calls that a step takes from the oracle *)
Definition rand_calls (previous_state : Z) (w : Wrappers.width) : nat :=
  if to_u (bits w) previous_state =? 0 then 1%nat else 0%nat.

(** test/util.c:338-419 takum_type_parameters: nar, positive_maximum and count.
    (takum.h: TAKUMn_NAR and TAKUMn_POSITIVE_MAXIMUM are INTn_MIN and INTn_MAX.) *)
Definition parameters_nar (w : Wrappers.width) : Z := - 2 ^ (bits w - 1).
Definition parameters_positive_maximum (w : Wrappers.width) : Z := 2 ^ (bits w - 1) - 1.
Definition parameters_count (w : Wrappers.width) : Z :=
  match w with W8 => 255 + 1 | W16 => 65535 + 1 | W32 => 4294967295 + 1 | W64 => 2 ^ 64 - 1 end.

(** test/util.h:51-133 struct unit_test_block.  The functions are given for every
    kind and width; None stands for NULL. *)
Inductive unit_test_block :=
| ROUNDTRIP (f : kind -> Wrappers.width -> option (Z -> outcome Z))
| TAKUM_INT64_TAKUM (reference f : kind -> Wrappers.width -> Z -> Z -> outcome Z) (integer_test_cases : list Z)
| TAKUM_TAKUM (reference f : kind -> Wrappers.width -> Z -> outcome Z)
| TAKUM_TAKUM_TAKUM (reference f : kind -> Wrappers.width -> Z -> Z -> outcome Z)
| TAKUM_UINT8 (reference f : kind -> Wrappers.width -> Z -> outcome Z).

(** test/util.c:806-814: deviation by 1; int64_t, so that both sums may overflow *)
Definition deviates (output reference_output : Z) : outcome Z :=
  if output =? reference_output then Val 0 else
  let! r1 := s_arith 64 (reference_output + 1) in
  if output =? r1 then Val 0 else
  let! r2 := s_arith 64 (reference_output - 1) in
  if output =? r2 then Val 0 else Val 1.

(** test/util.c:510-925 check_unary_binary_case: 1 if the test failed *)
Definition check_unary_binary_case (utb : unit_test_block) (a b : Z) (k : kind) (w : Wrappers.width) : outcome Z :=
  match utb with
  | ROUNDTRIP f =>
      match f k w with
      | Some f => let! output := f (to_s (bits w) a) in Val (b2z (negb (output =? a)))
      | None => Val 0
      end
  | TAKUM_INT64_TAKUM reference f _ =>
      let! r := reference k w a b in let! output := f k w (to_s (bits w) a) b in deviates output r
  | TAKUM_TAKUM reference f =>
      let! r := reference k w a in let! output := f k w (to_s (bits w) a) in deviates output r
  | TAKUM_TAKUM_TAKUM reference f =>
      let! r := reference k w a b in
      let! output := f k w (to_s (bits w) a) (to_s (bits w) b) in deviates output r
  | TAKUM_UINT8 reference f =>
      let! r := reference k w a in let! output := f k w (to_s (bits w) a) in
      Val (b2z (negb (output =? r)))
  end.

(** test/util.c:927-935 safe_uint64_multiplication; division by zero is undefined *)
Definition safe_uint64_multiplication (a b : Z) : outcome Z :=
  if b =? 0 then UB
  else if (2 ^ 64 - 1) / b <=? a then Val (2 ^ 64 - 1) else Val (to_u 64 (a * b)).

(** test/util.c:18-35 enum sampler_mode, struct sampler *)
Inductive sampler_mode := TAKUM_FULL | TAKUM_RANDOM | TAKUM_TAKUM_FULL | TAKUM_TAKUM_RANDOM | TAKUM_INT64_FULL | TAKUM_INT64_RANDOM.
Record sampler := Sampler { mode : sampler_mode; value_x : Z; value_y : Z; current_count : Z; target_count : Z }.

(** test/util.c:937-1063 sampler_init *)
Definition sampler_init (utb : unit_test_block) (w : Wrappers.width) (maximum_sample_count : Z) : outcome sampler :=
  match utb with
  | ROUNDTRIP _ | TAKUM_TAKUM _ _ | TAKUM_UINT8 _ _ =>
      let full_count := parameters_count w in
      if full_count <=? maximum_sample_count
      then Val (Sampler TAKUM_FULL (parameters_nar w) (parameters_nar w) 1 full_count)
      else Val (Sampler TAKUM_RANDOM 0 (parameters_nar w) 1 maximum_sample_count)
  | TAKUM_INT64_TAKUM _ _ cases =>
      let! full_count := safe_uint64_multiplication (parameters_count w) (Z.of_nat (length cases)) in
      let! first := lookup cases 0 in
      if full_count <=? maximum_sample_count
      then Val (Sampler TAKUM_INT64_FULL (parameters_nar w) first 1 full_count)
      else Val (Sampler TAKUM_INT64_RANDOM 0 first 1 maximum_sample_count)
  | TAKUM_TAKUM_TAKUM _ _ =>
      let! full_count := safe_uint64_multiplication (parameters_count w) (parameters_count w) in
      if full_count <=? maximum_sample_count
      then Val (Sampler TAKUM_TAKUM_FULL (parameters_nar w) (parameters_nar w) 1 full_count)
      else Val (Sampler TAKUM_TAKUM_RANDOM 0 0 1 maximum_sample_count)
  end.

(** What sampler_next does: it returns 1 (Done), or 0 with a new state and a
    number of further calls of rand(), or it calls exit(1). *)
Inductive next_result := Done | More (s : sampler) (calls : nat) | Exit.

(** test/util.c:1130-1137, 1177-1184: the loop that looks for the current test case *)
Fixpoint find_case (cases : list Z) (y : Z) : nat :=
  match cases with
  | [] => 0%nat
  | c :: cases => if y =? c then 0%nat else S (find_case cases y)
  end.
Definition integer_test_cases_of (utb : unit_test_block) : list Z :=
  match utb with TAKUM_INT64_TAKUM _ _ cases => cases | _ => [] end.

(** test/util.c:1065-1221 sampler_next; rnd i is what the next but i-th call of
    rand() returns *)
Definition sampler_next (utb : unit_test_block) (w : Wrappers.width) (rnd : nat -> Z) (s : sampler) : outcome next_result :=
  let more x y calls :=
    Val (More (Sampler (mode s) x y (to_u 64 (current_count s + 1)) (target_count s)) calls) in
  let cases := integer_test_cases_of utb in
  let i := find_case cases (value_y s) in
  match mode s with
  | TAKUM_FULL =>
      if value_x s =? parameters_positive_maximum w then Val Done
      else let! x := s_arith 64 (value_x s + 1) in more x (value_y s) 0%nat
  | TAKUM_RANDOM =>
      if target_count s <=? current_count s then Val Done
      else let! x := random_next (rnd 0%nat) (value_x s) w in more x (value_y s) (rand_calls (value_x s) w)
  | TAKUM_TAKUM_FULL =>
      if value_y s =? parameters_positive_maximum w then
        if value_x s =? parameters_positive_maximum w then Val Done
        else let! x := s_arith 64 (value_x s + 1) in more x (parameters_nar w) 0%nat
      else let! y := s_arith 64 (value_y s + 1) in more (value_x s) y 0%nat
  | TAKUM_TAKUM_RANDOM =>
      if target_count s <=? current_count s then Val Done
      else
        let! x := random_next (rnd 0%nat) (value_x s) w in
        let calls := rand_calls (value_x s) w in
        let! y := random_next (rnd calls) (value_y s) w in
        more x y (calls + rand_calls (value_y s) w)%nat
  | TAKUM_INT64_FULL =>
      if (i =? length cases)%nat then Val Exit
      else if (i =? length cases - 1)%nat then
        if value_x s =? parameters_positive_maximum w then Val Done
        else
          let! y := lookup cases 0 in
          let! x := s_arith 64 (value_x s + 1) in more x y 0%nat
      else let! y := lookup cases (Z.of_nat i + 1) in more (value_x s) y 0%nat
  | TAKUM_INT64_RANDOM =>
      if target_count s <=? current_count s then Val Done
      else if (i =? length cases)%nat then Val Exit
      else if (i =? length cases - 1)%nat then
        let! y := lookup cases 0 in
        let! x := random_next (rnd 0%nat) (value_x s) w in more x y (rand_calls (value_x s) w)
      else let! y := lookup cases (Z.of_nat i + 1) in more (value_x s) y 0%nat
  end.

(** test/util.c:1243-1247, the loop of run_unit_test_on_type: [test_loop … s rnd l e]:
    from the state s the loop checks the cases l, with the results of
    check_unary_binary_case, and ends with e.  A loop that never ends has no l. *)
Inductive loop_end := Finished | Exited | Undefined.
Inductive test_loop (utb : unit_test_block) (k : kind) (w : Wrappers.width) : sampler -> (nat -> Z) -> list (Z * Z * Z) -> loop_end -> Prop :=
| loop_check_undefined : forall s rnd, check_unary_binary_case utb (value_x s) (value_y s) k w = UB ->
    test_loop utb k w s rnd [] Undefined
| loop_next_undefined : forall s rnd c, check_unary_binary_case utb (value_x s) (value_y s) k w = Val c ->
    sampler_next utb w rnd s = UB -> test_loop utb k w s rnd [(value_x s, value_y s, c)] Undefined
| loop_exit : forall s rnd c, check_unary_binary_case utb (value_x s) (value_y s) k w = Val c ->
    sampler_next utb w rnd s = Val Exit -> test_loop utb k w s rnd [(value_x s, value_y s, c)] Exited
| loop_done : forall s rnd c, check_unary_binary_case utb (value_x s) (value_y s) k w = Val c ->
    sampler_next utb w rnd s = Val Done -> test_loop utb k w s rnd [(value_x s, value_y s, c)] Finished
| loop_more : forall s rnd c s' calls l e, check_unary_binary_case utb (value_x s) (value_y s) k w = Val c ->
    sampler_next utb w rnd s = Val (More s' calls) ->
    test_loop utb k w s' (fun i => rnd (calls + i)%nat) l e ->
    test_loop utb k w s rnd ((value_x s, value_y s, c) :: l) e.

(** test/util.c:1223-1254 run_unit_test_on_type: the checked cases, the two numbers
    of the line "passed/target unit tests passed" and the returned value.  The
    counter of failures has the type size_t (64 bits). *)
Definition failures (l : list (Z * Z * Z)) : Z := fold_right (fun c n => snd c + n) 0 l.
Definition run_unit_test_on_type (utb : unit_test_block) (k : kind) (w : Wrappers.width) (maximum_sample_count : Z)
    (rnd : nat -> Z) (l : list (Z * Z * Z)) (passed target result : Z) : Prop :=
  exists s, sampler_init utb w maximum_sample_count = Val s /\ test_loop utb k w s rnd l Finished /\
    passed = to_u 64 (target_count s - to_u 64 (failures l)) /\ target = target_count s /\
    result = b2z (0 <? to_u 64 (failures l)).

(** test/util.c:1256-1274 run_unit_test_block: the sum of eight calls, evaluated in
    an order that C does not specify, so that every call may find the generator of
    rand() in any state *)
Definition maximum_sample_count : Z := 2 ^ 22.
Definition run_unit_test_block (utb : unit_test_block) (result : Z) : Prop :=
  exists (rnd : kind -> Wrappers.width -> nat -> Z) (l : kind -> Wrappers.width -> list (Z * Z * Z)) (passed target ret : kind -> Wrappers.width -> Z),
    (forall k w, run_unit_test_on_type utb k w maximum_sample_count (rnd k w) (l k w) (passed k w) (target k w) (ret k w)) /\
    result = ret Logarithmic W8 + ret Logarithmic W16 + ret Logarithmic W32 + ret Logarithmic W64 +
             ret Linear W8 + ret Linear W16 + ret Linear W32 + ret Linear W64.
