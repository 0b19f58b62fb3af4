(** Properties C138 - C145: the test harness (test/util.c).  Theorems only; proofs
    are in HarnessResults.v and the files it imports. *)
From Coq Require Import ZArith List Lia.
From Verif Require Import CModel Spec Wrappers WrapApi TestHarness HarnessSpec SamplerFacts HarnessResults.
Import ListNotations.
Local Open Scope Z_scope.

(** C138: from every state but zero a generator runs through all states but zero
    before it comes back, without calling rand() *)
Theorem C138_full_period :
  forall w rnd v, is_intn (bits w) v -> v <> 0 ->
  (forall i, exists u, random_run w rnd i v = Val u /\ is_intn (bits w) u /\ u <> 0) /\
  (forall i, Z.of_nat i = 2 ^ bits w - 1 -> random_run w rnd i v = Val v) /\
  (forall i j, Z.of_nat i < 2 ^ bits w - 1 -> Z.of_nat j < 2 ^ bits w - 1 -> random_run w rnd i v = random_run w rnd j v -> i = j) /\
  (forall u, is_intn (bits w) u -> u <> 0 -> exists i, Z.of_nat i < 2 ^ bits w - 1 /\ random_run w rnd i v = Val u).
Proof. exact full_period. Qed.
Print Assumptions C138_full_period.
(** the state zero is left with the lower bits of a rand() *)
Theorem C138_zero_state :
  forall w r, (r mod 2 ^ bits w = 0 -> random_next r 0 w = Val 0) /\
  (r mod 2 ^ bits w <> 0 -> exists v, is_intn (bits w) v /\ v <> 0 /\ v mod 2 ^ bits w = r mod 2 ^ bits w /\ forall r', random_next r 0 w = random_next r' v w).
Proof. exact zero_state. Qed.
Print Assumptions C138_zero_state.
Example C138_case : random_run W8 (fun _ => 0) 3 1 = Val 32 /\ random_run W16 (fun _ => 0) 2 1 = Val 16384 /\
  random_run W64 (fun _ => 0) 1 1 = Val (- 2 ^ 63) /\ random_next 1804289383 0 W32 = Val (-1245338957).
Proof. repeat split; vm_compute; reflexivity. Qed.

(** C139: every unit test ends, after the announced number of cases *)
Theorem C139_terminates :
  forall utb k w max rnd, well_formed utb -> checks_defined utb k w -> 1 <= max <= 2 ^ 63 ->
  exists l passed target result, run_unit_test_on_type utb k w max rnd l passed target result /\
    target = Z.min (test_cases utb w) max /\ Z.of_nat (length l) = target /\
    (forall a b c, In (a, b, c) l -> test_case utb w a b) /\
    (forall s l' e, sampler_init utb w max = Val s -> test_loop utb k w s rnd l' e -> l' = l /\ e = Finished).
Proof. exact terminates. Qed.
Print Assumptions C139_terminates.
(** and if there are at most max cases it has checked each of them exactly once *)
Theorem C139_exhaustive :
  forall utb k w max rnd l passed target result, well_formed utb -> 1 <= max <= 2 ^ 63 -> test_cases utb w <= max ->
  run_unit_test_on_type utb k w max rnd l passed target result ->
  NoDup (map fst l) /\ (forall a b, In (a, b) (map fst l) <-> test_case utb w a b).
Proof. exact exhaustive. Qed.
Print Assumptions C139_exhaustive.
(** the blocks of test/integer_power.c and test/root.c (lines 18-20 and 19-21) *)
Example C139_case : forall reference f, let utb := TAKUM_INT64_TAKUM reference f [-100; -10; -1; 0; 1; 10; 100] in
  well_formed utb /\ test_cases utb W16 <= maximum_sample_count /\ test_case utb W16 (-32768) 10 /\ 1 <= maximum_sample_count <= 2 ^ 63 /\
  test_cases (TAKUM_TAKUM_TAKUM reference f) W8 <= maximum_sample_count < test_cases (TAKUM_TAKUM_TAKUM reference f) W16.
Proof.
  intros reference f utb. unfold maximum_sample_count. split; [|split; [discriminate|split; [split; [unfold is_intn; cbn; lia|cbn; auto 10]|split; [lia|split; [discriminate|reflexivity]]]]].
  split; [discriminate|]. repeat (constructor; [cbn; lia|]). constructor.
Qed.

(** C140: no test is made twice, if the first rand() is not a multiple of the
    number of takums and there are not more pairs than takums *)
Theorem C140_distinct :
  forall utb k w max rnd l passed target result, well_formed utb -> 1 <= max <= 2 ^ 63 ->
  (forall reference f, utb = TAKUM_TAKUM_TAKUM reference f -> max <= 2 ^ bits w) ->
  rnd 0%nat mod 2 ^ bits w <> 0 -> run_unit_test_on_type utb k w max rnd l passed target result -> NoDup (map fst l).
Proof. exact distinct. Qed.
Print Assumptions C140_distinct.
Example C140_case : exists l passed target result, let z := fun (_ : kind) (_ : Wrappers.width) (_ _ : Z) => Val 0 in
  run_unit_test_on_type (TAKUM_TAKUM_TAKUM z z) Linear W32 maximum_sample_count (fun _ => 1804289383) l passed target result /\
  maximum_sample_count <= 2 ^ bits W32 /\ 1804289383 mod 2 ^ bits W32 <> 0 /\ Z.of_nat (length l) = 4194304.
Proof.
  destruct (terminates (TAKUM_TAKUM_TAKUM (fun _ _ _ _ => Val 0) (fun _ _ _ _ => Val 0)) Linear W32 maximum_sample_count (fun _ => 1804289383) I) as (l & p & t & r & R & Et & El & _).
  - intros a b _. cbn. discriminate.
  - unfold maximum_sample_count. lia.
  - exists l, p, t, r. split; [exact R|]. split; [unfold maximum_sample_count; cbn; lia|]. split; [discriminate|]. rewrite El. exact Et.
Qed.

(** C141 (false of the code): the pairs of 16 bit takums of a unit test differ *)
Theorem C141_pairs_repeat :
  forall reference f k w max rnd l passed target result, 1 <= max <= 2 ^ 63 -> max < 2 ^ bits w * 2 ^ bits w ->
  rnd 0%nat mod 2 ^ bits w <> 0 -> rnd 1%nat mod 2 ^ bits w <> 0 ->
  run_unit_test_on_type (TAKUM_TAKUM_TAKUM reference f) k w max rnd l passed target result ->
  forall j p, Z.of_nat p = 2 ^ bits w - 1 -> (1 <= j)%nat -> (j + p < length l)%nat -> nth_error (map fst l) (j + p) = nth_error (map fst l) j.
Proof. exact pairs_repeat. Qed.
Print Assumptions C141_pairs_repeat.
Theorem C141_pairs_distinct_refuted :
  exists reference f k rnd l passed target result,
  run_unit_test_on_type (TAKUM_TAKUM_TAKUM reference f) k W16 maximum_sample_count rnd l passed target result /\ ~ NoDup (map fst l).
Proof. exact pairs_repeat_refuted. Qed.
Print Assumptions C141_pairs_distinct_refuted.
(** nor do single takums, if rand() returns a multiple of 2^32 *)
Theorem C141_takums_distinct_refuted :
  exists reference f k rnd l passed target result,
  run_unit_test_on_type (TAKUM_TAKUM reference f) k W32 maximum_sample_count rnd l passed target result /\ ~ NoDup (map fst l).
Proof. exact distinct_refuted. Qed.
Print Assumptions C141_takums_distinct_refuted.

(** C142: the verdict of a unit test *)
Theorem C142_verdict :
  forall utb k w max rnd l passed target result, well_formed utb -> 1 <= max <= 2 ^ 63 -> run_unit_test_on_type utb k w max rnd l passed target result ->
  (forall a b c, In (a, b, c) l -> c = 0 /\ accepted utb k w a b \/ c = 1 /\ ~ accepted utb k w a b) /\
  target = Z.of_nat (length l) /\ passed = Z.of_nat (length (filter (fun c => snd c =? 0) l)) /\
  (result = 0 <-> forall a b, In (a, b) (map fst l) -> accepted utb k w a b) /\ (result = 0 \/ result = 1).
Proof. exact verdict. Qed.
Print Assumptions C142_verdict.
Theorem C142_exhaustive_verdict :
  forall utb k w max rnd l passed target result, well_formed utb -> 1 <= max <= 2 ^ 63 -> test_cases utb w <= max ->
  run_unit_test_on_type utb k w max rnd l passed target result -> (result = 0 <-> forall a b, test_case utb w a b -> accepted utb k w a b).
Proof. exact exhaustive_verdict. Qed.
Print Assumptions C142_exhaustive_verdict.
Theorem C142_block_verdict :
  forall utb result, well_formed utb -> run_unit_test_block utb result ->
  0 <= result <= 8 /\
  (result = 0 -> forall k w a b, test_cases utb w <= maximum_sample_count -> test_case utb w a b -> accepted utb k w a b) /\
  ((forall k w a b, test_case utb w a b -> accepted utb k w a b) -> result = 0).
Proof. exact block_verdict. Qed.
Print Assumptions C142_block_verdict.
(** a check is defined for takums of at most 32 bits and for round trips and
    predicates of all widths, if the called functions are *)
Theorem C142_checks_defined :
  forall utb k w, (w <> W64 \/ (exists f, utb = ROUNDTRIP f) \/ exists r f, utb = TAKUM_UINT8 r f) ->
  (forall f g, utb = ROUNDTRIP f -> f k w = Some g -> forall a, is_intn (bits w) a -> exists o, g a = Val o) ->
  (forall r f c, utb = TAKUM_INT64_TAKUM r f c -> forall a b, is_intn (bits w) a -> In b c -> exists o e, f k w a b = Val o /\ r k w a b = Val e /\ is_intn (bits w) e) ->
  (forall r f, utb = TAKUM_TAKUM r f -> forall a, is_intn (bits w) a -> exists o e, f k w a = Val o /\ r k w a = Val e /\ is_intn (bits w) e) ->
  (forall r f, utb = TAKUM_TAKUM_TAKUM r f -> forall a b, is_intn (bits w) a -> is_intn (bits w) b -> exists o e, f k w a b = Val o /\ r k w a b = Val e /\ is_intn (bits w) e) ->
  (forall r f, utb = TAKUM_UINT8 r f -> forall a, is_intn (bits w) a -> exists o e, f k w a = Val o /\ r k w a = Val e) ->
  checks_defined utb k w.
Proof. exact comparison_defined. Qed.
Print Assumptions C142_checks_defined.
(** a function that is wrong for one takum of 8 bits only *)
Example C142_case : exists l passed target, let f := fun (_ : kind) (_ : Wrappers.width) a => Val (if a =? 77 then 0 else a) in
  run_unit_test_on_type (TAKUM_TAKUM (fun _ _ a => Val a) f) Logarithmic W8 maximum_sample_count (fun _ => 1) l passed target 1.
Proof.
  set (f := fun (_ : kind) (_ : Wrappers.width) a => Val (if a =? 77 then 0 else a)). set (utb := TAKUM_TAKUM (fun _ _ a => Val a) f).
  assert (1 <= maximum_sample_count <= 2 ^ 63) as Hm by (unfold maximum_sample_count; lia).
  destruct (terminates utb Logarithmic W8 maximum_sample_count (fun _ => 1) I) as (l & p & t & r & R & _).
  - apply C142_checks_defined; try discriminate.
    + left. discriminate.
    + intros r f' E a Ha. unfold utb in E. injection E as <- <-. eexists. eexists. split; [reflexivity|]. split; [reflexivity|]. exact Ha.
  - exact Hm.
  - exists l, p, t. cbv zeta. fold f. fold utb. destruct (verdict utb _ _ _ _ _ _ _ _ I Hm R) as (_ & _ & _ & _ & [E|E]); [|subst r; exact R].
    exfalso. assert (test_cases utb W8 <= maximum_sample_count) as Hc by discriminate.
    apply (exhaustive_verdict utb _ _ _ _ _ _ _ _ I Hm Hc R) with (a := 77) (b := nar 8) in E.
    + destruct E as (o & e & E1 & E2 & K). unfold f in E1. cbn in E1. injection E1 as <-. injection E2 as <-. cbn in K. lia.
    + split; [unfold is_intn; cbn; lia|reflexivity].
Qed.

(** C143 (false of the code): a passed unit test of a function shows where it
    returns NaR *)
Theorem C143_nar_tested_refuted :
  exists (reference f : kind -> Wrappers.width -> Z -> outcome Z),
  (forall k w a, is_intn (bits w) a -> reference k w a = Val (nar (bits w)) /\ exists t, f k w a = Val t /\ is_real_takum (bits w) t) /\
  run_unit_test_block (TAKUM_TAKUM reference f) 0.
Proof. exact nar_missed. Qed.
Print Assumptions C143_nar_tested_refuted.

(** C144 (false of the code): the comparison with the expected result is defined *)
Theorem C144_comparison_refuted :
  ~ (forall reference f k a b, is_intn 64 a -> (forall a, is_intn 64 a -> exists r, reference k W64 a = Val r /\ is_intn 64 r) -> (forall a, is_intn 64 a -> exists r, f k W64 a = Val r /\ is_intn 64 r) ->
  check_unary_binary_case (TAKUM_TAKUM reference f) a b k W64 <> UB).
Proof. exact comparison_refuted. Qed.
Print Assumptions C144_comparison_refuted.
(** it is undefined whenever NaR of 64 bits is expected and something else than NaR
    or its successor is returned *)
Theorem C144_nar_undefined :
  forall reference f k a b o, is_intn 64 a -> reference k W64 a = Val (nar 64) -> f k W64 a = Val o -> nar 64 + 1 < o ->
  check_unary_binary_case (TAKUM_TAKUM reference f) a b k W64 = UB.
Proof. exact comparison_undefined. Qed.
Print Assumptions C144_nar_undefined.

(** C145 (false of the code): every unit test with defined checks ends *)
Theorem C145_termination_refuted :
  ~ (forall utb k w rnd, checks_defined utb k w -> exists l passed target result, run_unit_test_on_type utb k w maximum_sample_count rnd l passed target result).
Proof. exact termination_refuted. Qed.
Print Assumptions C145_termination_refuted.
Theorem C145_duplicate_integers :
  forall reference f k rnd c l passed target result,
  ~ run_unit_test_on_type (TAKUM_INT64_TAKUM reference f [c; c]) k W8 maximum_sample_count rnd l passed target result.
Proof. exact duplicate_integers. Qed.
Print Assumptions C145_duplicate_integers.
Theorem C145_no_integers :
  forall reference f w max, sampler_init (TAKUM_INT64_TAKUM reference f []) w max = UB.
Proof. exact no_integers. Qed.
Print Assumptions C145_no_integers.
