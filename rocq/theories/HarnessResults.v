(** The theorems about the test harness (C138-C144), stated in PropHarness.v. *)
From Coq Require Import ZArith List Bool Lia.
From Verif Require Import CModel Spec Wrappers WrapApi WidthFacts TestHarness HarnessSpec Lfsr GeneratorFacts SamplerFacts SamplerModes HarnessProofs.
Import ListNotations.
Local Open Scope Z_scope.

(** ** Termination and coverage *)
Lemma sampling_loop : forall utb k w rnd max s T, sampling utb w rnd max s T -> checks_defined utb k w ->
  exists l, test_loop utb k w s rnd l Finished /\ map fst l = map (point utb w s rnd) (seq 0 (S T)).
Proof.
  intros utb k w rnd max s T H Hd. destruct (walk_loop utb k w s rnd T) with (d := T) (j := 0%nat) as (l & L & M).
  - intros j Hj. apply Hd. apply (sampling_cases _ _ _ _ _ _ H). assumption.
  - apply (sampling_more _ _ _ _ _ _ H).
  - apply (sampling_done _ _ _ _ _ _ H).
  - reflexivity.
  - exists l. split; assumption.
Qed.
(** what any run that ends has checked *)
Lemma walk_prefix : forall utb k w s0 rnd0 T, (forall j, (j < T)%nat -> continues utb w (walk utb w s0 rnd0 j)) ->
  sampler_next utb w (snd (walk utb w s0 rnd0 T)) (fst (walk utb w s0 rnd0 T)) = Val Done ->
  forall s rnd l e, test_loop utb k w s rnd l e -> forall j, (j <= T)%nat -> (s, rnd) = walk utb w s0 rnd0 j -> 
    e <> Exited /\ (e = Finished -> map fst l = map (point utb w s0 rnd0) (seq j (S (T - j)))).
Proof.
  intros utb k w s0 rnd0 T Hm Hd s rnd l e L. induction L as [s rnd C|s rnd c C N|s rnd c C N|s rnd c C N|s rnd c s' calls l e C N L IH]; intros j Hj E.
  - split; discriminate.
  - split; discriminate.
  - exfalso. destruct (Nat.eq_dec j T) as [-> |K].
    + rewrite <- E in Hd. cbn in Hd. congruence.
    + destruct (Hm j ltac:(lia)) as (s' & calls & N'). rewrite <- E in N'. cbn in N'. congruence.
  - split; [discriminate|]. intros _. destruct (Nat.eq_dec j T) as [-> |K].
    + rewrite Nat.sub_diag. cbn. unfold point. rewrite <- E. reflexivity.
    + destruct (Hm j ltac:(lia)) as (s' & calls & N'). rewrite <- E in N'. cbn in N'. congruence.
  - destruct (Nat.eq_dec j T) as [-> |K]; [rewrite <- E in Hd; cbn in Hd; congruence|].
    destruct (IH (S j) ltac:(lia)) as [I1 I2]; [rewrite walk_S, <- E; cbn [fst snd]; rewrite N; reflexivity|].
    split; [exact I1|]. intros F. specialize (I2 F). replace (T - j)%nat with (S (T - S j)) by lia. cbn [seq map]. cbn [seq map] in I2. rewrite I2. f_equal. unfold point. rewrite <- E. reflexivity.
Qed.
Lemma run_samples : forall utb k w rnd max l passed target result s T, sampling utb w rnd max s T -> run_unit_test_on_type utb k w max rnd l passed target result ->
  map fst l = map (point utb w s rnd) (seq 0 (S T)) /\ test_loop utb k w s rnd l Finished /\ target = Z.of_nat T + 1 /\
  passed = to_u 64 (target - to_u 64 (failures l)) /\ result = b2z (0 <? to_u 64 (failures l)).
Proof.
  intros utb k w rnd max l passed target result s T H (s' & Hi & L & Hp & Ht & Hr). rewrite (sampling_init _ _ _ _ _ _ H) in Hi. injection Hi as <-.
  rewrite (sampling_target _ _ _ _ _ _ H) in *. subst target. split; [|repeat split; assumption].
  destruct (walk_prefix utb k w s rnd T (sampling_more _ _ _ _ _ _ H) (sampling_done _ _ _ _ _ _ H) s rnd l Finished L 0%nat ltac:(lia) eq_refl) as [_ F]. rewrite Nat.sub_0_r in F. apply F. reflexivity.
Qed.

Theorem terminates : forall utb k w max rnd, well_formed utb -> checks_defined utb k w -> 1 <= max <= 2 ^ 63 ->
  exists l passed target result, run_unit_test_on_type utb k w max rnd l passed target result /\
    target = Z.min (test_cases utb w) max /\ Z.of_nat (length l) = target /\
    (forall a b c, In (a, b, c) l -> test_case utb w a b) /\
    (forall s l' e, sampler_init utb w max = Val s -> test_loop utb k w s rnd l' e -> l' = l /\ e = Finished).
Proof.
  intros utb k w max rnd Hw Hd Hm. destruct (sampling_exists utb w rnd max Hw Hm) as (s & T & H). destruct (sampling_loop utb k w rnd max s T H Hd) as (l & L & M).
  exists l, (to_u 64 (target_count s - to_u 64 (failures l))), (target_count s), (b2z (0 <? to_u 64 (failures l))).
  assert (length l = S T) as Len by (rewrite <- (map_length fst), M, map_length, seq_length; reflexivity).
  pose proof (sampling_target _ _ _ _ _ _ H) as Ht. pose proof (sampling_count _ _ _ _ _ _ H) as Hc.
  split; [|split; [|split; [|split]]].
  - exists s. split; [apply (sampling_init _ _ _ _ _ _ H)|]. split; [exact L|]. split; [reflexivity|]. split; reflexivity.
  - lia.
  - lia.
  - intros a b c I. assert (In (a, b) (map fst l)) as I' by (apply (in_map fst) in I; exact I). rewrite M in I'. apply in_map_iff in I'. destruct I' as (j & E & Hj). apply in_seq in Hj.
    pose proof (sampling_cases _ _ _ _ _ _ H j ltac:(lia)) as K. rewrite E in K. exact K.
  - intros s' l' e Hi L'. rewrite (sampling_init _ _ _ _ _ _ H) in Hi. injection Hi as <-. apply (loop_deterministic _ _ _ _ _ _ _ L _ _ L').
Qed.
Theorem exhaustive : forall utb k w max rnd l passed target result, well_formed utb -> 1 <= max <= 2 ^ 63 -> test_cases utb w <= max ->
  run_unit_test_on_type utb k w max rnd l passed target result ->
  NoDup (map fst l) /\ (forall a b, In (a, b) (map fst l) <-> test_case utb w a b).
Proof.
  intros utb k w max rnd l passed target result Hw Hm Hf R. destruct (sampling_exists utb w rnd max Hw Hm) as (s & T & H).
  destruct (run_samples _ _ _ _ _ _ _ _ _ _ _ H R) as (M & _). destruct (sampling_full _ _ _ _ _ _ H Hf) as [I S]. rewrite M. split.
  - apply NoDup_map_inj; [|apply seq_NoDup]. intros x y Hx Hy. apply in_seq in Hx. apply in_seq in Hy. apply I; lia.
  - intros a b. rewrite in_map_iff. split.
    + intros (j & E & Hj). apply in_seq in Hj. pose proof (sampling_cases _ _ _ _ _ _ H j ltac:(lia)) as K. rewrite E in K. exact K.
    + intros K. destruct (S a b K) as (j & Hj & E). exists j. split; [exact E|]. apply in_seq. lia.
Qed.
Theorem distinct : forall utb k w max rnd l passed target result, well_formed utb -> 1 <= max <= 2 ^ 63 ->
  (forall reference f, utb = TAKUM_TAKUM_TAKUM reference f -> max <= 2 ^ bits w) ->
  rnd 0%nat mod 2 ^ bits w <> 0 -> run_unit_test_on_type utb k w max rnd l passed target result -> NoDup (map fst l).
Proof.
  intros utb k w max rnd l passed target result Hw Hm Hb Hr R. destruct (Z_le_gt_dec (test_cases utb w) max) as [L|L]; [eapply exhaustive; eassumption|].
  destruct (sampling_exists utb w rnd max Hw Hm) as (s & T & H). destruct (run_samples _ _ _ _ _ _ _ _ _ _ _ H R) as (M & _). rewrite M.
  apply NoDup_map_inj; [|apply seq_NoDup]. intros x y Hx Hy. apply in_seq in Hx. apply in_seq in Hy. apply (sampling_random _ _ _ _ _ _ H ltac:(lia) Hr Hb); lia.
Qed.
Lemma nth_error_points : forall A (g : nat -> A) m j, (j < m)%nat -> nth_error (map g (seq 0 m)) j = Some (g j).
Proof. intros A g m j H. apply map_nth_error. rewrite (nth_error_nth' _ 0%nat) by (rewrite seq_length; exact H). rewrite seq_nth by exact H. reflexivity. Qed.
Theorem pairs_repeat : forall reference f k w max rnd l passed target result, 1 <= max <= 2 ^ 63 -> max < 2 ^ bits w * 2 ^ bits w ->
  rnd 0%nat mod 2 ^ bits w <> 0 -> rnd 1%nat mod 2 ^ bits w <> 0 ->
  run_unit_test_on_type (TAKUM_TAKUM_TAKUM reference f) k w max rnd l passed target result ->
  forall j p, Z.of_nat p = 2 ^ bits w - 1 -> (1 <= j)%nat -> (j + p < length l)%nat -> nth_error (map fst l) (j + p) = nth_error (map fst l) j.
Proof.
  intros reference f k w max rnd l passed target result Hm Hx H0 H1 R j p Hp Hj Hl. destruct (sampling_exists (TAKUM_TAKUM_TAKUM reference f) w rnd max I Hm) as (s & T & H).
  destruct (run_samples _ _ _ _ _ _ _ _ _ _ _ H R) as (M & _). assert (length l = S T) as Len by (rewrite <- (map_length fst), M, map_length, seq_length; reflexivity). rewrite M.
  rewrite !nth_error_points by lia. f_equal. apply (sampling_periodic _ _ _ _ _ _ H reference f eq_refl); try assumption; lia.
Qed.
Theorem pairs_repeat_refuted : exists reference f k rnd l passed target result,
  run_unit_test_on_type (TAKUM_TAKUM_TAKUM reference f) k W16 maximum_sample_count rnd l passed target result /\ ~ NoDup (map fst l).
Proof.
  set (z := fun (_ : kind) (_ : Wrappers.width) (_ _ : Z) => Val 0). set (rnd := fun _ : nat => 1).
  destruct (terminates (TAKUM_TAKUM_TAKUM z z) Logarithmic W16 maximum_sample_count rnd I) as (l & passed & target & result & R & Et & El & _).
  - intros a b _. cbn. discriminate.
  - unfold maximum_sample_count. lia.
  - exists z, z, Logarithmic, rnd, l, passed, target, result. split; [exact R|]. intros D.
    change (Z.min (test_cases (TAKUM_TAKUM_TAKUM z z) W16) maximum_sample_count) with 4194304 in Et.
    assert (exists p, Z.of_nat p = 2 ^ bits W16 - 1) as [p Hp] by (exists (Z.to_nat 65535); exact (Z2Nat.id 65535 ltac:(lia))).
    assert (1 + p < length l)%nat as Hl by (cbn [bits] in Hp; lia).
    pose proof (pairs_repeat z z Logarithmic W16 maximum_sample_count rnd l passed target result ltac:(unfold maximum_sample_count; lia) ltac:(reflexivity) ltac:(discriminate) ltac:(discriminate) R 1%nat p Hp (le_n _) Hl) as E.
    rewrite NoDup_nth_error in D. assert (1 + p = 1)%nat as K by (apply D; [rewrite map_length; exact Hl|exact E]). cbn [bits] in Hp. lia.
Qed.

(** ** The verdict *)
Lemma deviates_spec : forall o e c, deviates o e = Val c -> (c = 0 /\ Z.abs (o - e) <= 1) \/ (c = 1 /\ ~ Z.abs (o - e) <= 1).
Proof.
  intros o e c. unfold deviates. destruct (Z.eqb_spec o e) as [-> |N0]; [intros E; injection E as <-; left; split; [reflexivity|lia]|].
  unfold s_arith, guard. destruct (fits_s 64 (e + 1)); [|discriminate]. cbn [bind]. destruct (Z.eqb_spec o (e + 1)) as [-> |N1]; [intros E; injection E as <-; left; split; [reflexivity|lia]|].
  destruct (fits_s 64 (e - 1)); [|discriminate]. cbn [bind]. destruct (Z.eqb_spec o (e - 1)) as [-> |N2]; intros E; injection E as <-; [left|right]; (split; [reflexivity|lia]).
Qed.
Lemma to_s_same : forall w a, is_intn (bits w) a -> to_s (bits w) a = a.
Proof. intros w a H. apply (to_s_eq _ _ 0); [apply bits_pos|assumption|ring]. Qed.
Lemma check_within : forall (o e : outcome Z) c, bind e (fun r => bind o (fun output => deviates output r)) = Val c -> (c = 0 /\ within_one o e) \/ (c = 1 /\ ~ within_one o e).
Proof.
  intros o e c. destruct e as [e|]; [|discriminate]. destruct o as [o|]; [|discriminate]. cbn [bind]. intros H. apply deviates_spec in H. destruct H as [[-> H]|[-> H]]; [left|right]; (split; [reflexivity|]).
  - exists o, e. repeat split. assumption.
  - intros (o' & e' & E1 & E2 & K). injection E1 as <-. injection E2 as <-. contradiction.
Qed.
Lemma check_accepted : forall utb k w a b c, test_case utb w a b -> check_unary_binary_case utb a b k w = Val c ->
  (c = 0 /\ accepted utb k w a b) \/ (c = 1 /\ ~ accepted utb k w a b).
Proof.
  intros utb k w a b c [Ha Hb]. pose proof (to_s_same w a Ha) as Ea. destruct utb as [f|reference f cases|reference f|reference f|reference f]; cbn [check_unary_binary_case accepted].
  - destruct (f k w) as [g|]; [|intros E; injection E as <-; left; split; [reflexivity|exact I]]. rewrite Ea. destruct (g a) as [o|]; [|discriminate]. cbn [bind]. destruct (Z.eqb_spec o a) as [-> |N]; intros E; injection E as <-; [left|right]; (split; [reflexivity|]); congruence.
  - rewrite Ea. apply check_within.
  - rewrite Ea. apply check_within.
  - rewrite Ea, (to_s_same w b Hb). apply check_within.
  - rewrite Ea. destruct (reference k w a) as [r|]; [|discriminate]. destruct (f k w a) as [o|]; [|discriminate]. cbn [bind]. destruct (Z.eqb_spec o r) as [-> |N]; intros E; injection E as <-; [left|right]; (split; [reflexivity|]).
    + exists r. split; reflexivity.
    + intros (o' & E1 & E2). congruence.
Qed.
Definition passing (c : Z * Z * Z) : bool := snd c =? 0.
Lemma failures_count : forall l, (forall x, In x l -> snd x = 0 \/ snd x = 1) -> failures l = Z.of_nat (length l) - Z.of_nat (length (filter (fun c => snd c =? 0) l)).
Proof.
  induction l as [|x l IH]; intros H; [reflexivity|]. cbn [failures fold_right length filter]. fold (failures l). rewrite IH by (intros y I; apply H; right; exact I).
  destruct (H x (or_introl eq_refl)) as [E|E]; rewrite E; cbn [Z.eqb length]; lia.
Qed.
Lemma filter_length : forall A (f : A -> bool) l, (length (filter f l) <= length l)%nat.
Proof. intros A f l. induction l as [|x l IH]; [apply le_n|]. cbn. destruct (f x); cbn; lia. Qed.
Lemma filter_all : forall A (f : A -> bool) l, length (filter f l) = length l -> forall x, In x l -> f x = true.
Proof.
  intros A f l. induction l as [|y l IH]; intros H x I; [destruct I|]. cbn in H. pose proof (filter_length A f l). destruct (f y) eqn:E; cbn in H; [|lia].
  destruct I as [<- |I]; [exact E|apply IH; [lia|exact I]].
Qed.
Lemma filter_true : forall A (f : A -> bool) l, (forall x, In x l -> f x = true) -> length (filter f l) = length l.
Proof. intros A f l. induction l as [|y l IH]; intros H; [reflexivity|]. cbn. rewrite (H y (or_introl eq_refl)). cbn. f_equal. apply IH. intros x I. apply H. right. exact I. Qed.

Theorem verdict : forall utb k w max rnd l passed target result, well_formed utb -> 1 <= max <= 2 ^ 63 -> run_unit_test_on_type utb k w max rnd l passed target result ->
  (forall a b c, In (a, b, c) l -> c = 0 /\ accepted utb k w a b \/ c = 1 /\ ~ accepted utb k w a b) /\
  target = Z.of_nat (length l) /\ passed = Z.of_nat (length (filter (fun c => snd c =? 0) l)) /\
  (result = 0 <-> forall a b, In (a, b) (map fst l) -> accepted utb k w a b) /\ (result = 0 \/ result = 1).
Proof.
  intros utb k w max rnd l passed target result Hw Hm R. destruct (sampling_exists utb w rnd max Hw Hm) as (s & T & H).
  destruct (run_samples _ _ _ _ _ _ _ _ _ _ _ H R) as (M & L & Et & Ep & Er). assert (length l = S T) as Len by (rewrite <- (map_length fst), M, map_length, seq_length; reflexivity).
  pose proof (sampling_count _ _ _ _ _ _ H) as Hc.
  assert (forall a b c, In (a, b, c) l -> c = 0 /\ accepted utb k w a b \/ c = 1 /\ ~ accepted utb k w a b) as A.
  { intros a b c I. apply check_accepted.
    - assert (In (a, b) (map fst l)) as I' by (apply (in_map fst) in I; exact I). rewrite M in I'. apply in_map_iff in I'. destruct I' as (j & E & Hj). apply in_seq in Hj.
      pose proof (sampling_cases _ _ _ _ _ _ H j ltac:(lia)) as K. rewrite E in K. exact K.
    - apply (loop_checks _ _ _ _ _ _ _ L). exact I. }
  assert (failures l = Z.of_nat (length l) - Z.of_nat (length (filter (fun c => snd c =? 0) l))) as F.
  { apply failures_count. intros [[a b] c] I. destruct (A a b c I) as [[-> _]|[-> _]]; [left|right]; reflexivity. }
  pose proof (filter_length _ (fun c : Z * Z * Z => snd c =? 0) l) as FL.
  assert (to_u 64 (failures l) = failures l) as U by (apply to_u_small; change (2 ^ 64) with (2 * 2 ^ 63); lia).
  rewrite U in Ep, Er. split; [exact A|]. split; [lia|]. split.
  { rewrite Ep, to_u_small by (change (2 ^ 64) with (2 * 2 ^ 63); lia). lia. }
  split; [|rewrite Er; destruct (0 <? failures l); [right|left]; reflexivity].
  rewrite Er. split.
  - intros E a b I. apply in_map_iff in I. destruct I as ([[a' b'] c] & E' & I). cbn in E'. injection E' as -> ->.
    destruct (Z.ltb_spec 0 (failures l)) as [K|K]; [discriminate|].
    assert (c = 0) as Ec by (pose proof (filter_all _ (fun c : Z * Z * Z => snd c =? 0) l ltac:(lia) _ I) as P; apply Z.eqb_eq in P; exact P).
    destruct (A a b c I) as [[_ P]|[P _]]; [exact P|lia].
  - intros P. rewrite (filter_true _ (fun c : Z * Z * Z => snd c =? 0) l) in F.
    + rewrite F. rewrite (proj2 (Z.ltb_ge _ _)) by lia. reflexivity.
    + intros [[a b] c] I. cbn. destruct (A a b c I) as [[-> _]|[_ Q]]; [reflexivity|]. exfalso. apply Q, P. apply (in_map fst) in I. exact I.
Qed.
Theorem exhaustive_verdict : forall utb k w max rnd l passed target result, well_formed utb -> 1 <= max <= 2 ^ 63 -> test_cases utb w <= max ->
  run_unit_test_on_type utb k w max rnd l passed target result -> (result = 0 <-> forall a b, test_case utb w a b -> accepted utb k w a b).
Proof.
  intros utb k w max rnd l passed target result Hw Hm Hf R. destruct (verdict _ _ _ _ _ _ _ _ _ Hw Hm R) as (_ & _ & _ & V & _). destruct (exhaustive _ _ _ _ _ _ _ _ _ Hw Hm Hf R) as [_ S].
  rewrite V. split; intros H a b K; apply H; apply S; assumption.
Qed.
(** the value that the program returns to the shell *)
Theorem block_verdict : forall utb result, well_formed utb -> run_unit_test_block utb result ->
  0 <= result <= 8 /\
  (result = 0 -> forall k w a b, test_cases utb w <= maximum_sample_count -> test_case utb w a b -> accepted utb k w a b) /\
  ((forall k w a b, test_case utb w a b -> accepted utb k w a b) -> result = 0).
Proof.
  intros utb result Hw (rnd & l & passed & target & ret & R & ->). assert (1 <= maximum_sample_count <= 2 ^ 63) as Hm by (unfold maximum_sample_count; lia).
  assert (forall k w, ret k w = 0 \/ ret k w = 1) as B by (intros k w; apply (verdict _ _ _ _ _ _ _ _ _ Hw Hm (R k w))).
  split; [|split].
  - pose proof (B Logarithmic W8). pose proof (B Logarithmic W16). pose proof (B Logarithmic W32). pose proof (B Logarithmic W64). pose proof (B Linear W8). pose proof (B Linear W16). pose proof (B Linear W32). pose proof (B Linear W64). lia.
  - intros E k w a b Hf K. apply (exhaustive_verdict _ _ _ _ _ _ _ _ _ Hw Hm Hf (R k w)); [|exact K].
    pose proof (B Logarithmic W8). pose proof (B Logarithmic W16). pose proof (B Logarithmic W32). pose proof (B Logarithmic W64). pose proof (B Linear W8). pose proof (B Linear W16). pose proof (B Linear W32). pose proof (B Linear W64). destruct k, w; lia.
  - intros A. assert (forall k w, ret k w = 0) as Z0.
    { intros k w. destruct (verdict _ _ _ _ _ _ _ _ _ Hw Hm (R k w)) as (_ & _ & _ & V & _). apply V. intros a b I. apply A.
      destruct (sampling_exists utb w (rnd k w) _ Hw Hm) as (s & T & H). destruct (run_samples _ _ _ _ _ _ _ _ _ _ _ H (R k w)) as (M & _). rewrite M in I. apply in_map_iff in I. destruct I as (j & E & Hj). apply in_seq in Hj.
      pose proof (sampling_cases _ _ _ _ _ _ H j ltac:(lia)) as K. rewrite E in K. exact K. }
    rewrite !Z0. reflexivity.
Qed.

(** ** What the verdict does not say *)
(** a result in place of NaR *)
Theorem nar_missed : exists (reference f : kind -> Wrappers.width -> Z -> outcome Z), 
  (forall k w a, is_intn (bits w) a -> reference k w a = Val (nar (bits w)) /\ exists t, f k w a = Val t /\ is_real_takum (bits w) t) /\
  run_unit_test_block (TAKUM_TAKUM reference f) 0.
Proof.
  set (reference := fun (_ : kind) (w : Wrappers.width) (_ : Z) => Val (nar (bits w))). set (f := fun (_ : kind) (w : Wrappers.width) (_ : Z) => Val (nar (bits w) + 1)).
  exists reference, f. split.
  - intros k w a _. split; [reflexivity|]. exists (nar (bits w) + 1). split; [reflexivity|]. unfold is_real_takum, is_intn, nar. destruct w; cbn [bits]; lia.
  - assert (forall k w a b, check_unary_binary_case (TAKUM_TAKUM reference f) a b k w = Val 0) as C by (intros k w a b; destruct w; reflexivity).
    assert (forall k w, exists l passed target, run_unit_test_on_type (TAKUM_TAKUM reference f) k w maximum_sample_count (fun _ => 1) l passed target 0) as R.
    { intros k w. destruct (terminates (TAKUM_TAKUM reference f) k w maximum_sample_count (fun _ => 1) I) as (l & passed & target & result & R & _).
      - intros a b _. rewrite C. discriminate.
      - unfold maximum_sample_count. lia.
      - exists l, passed, target. assert (1 <= maximum_sample_count <= 2 ^ 63) as Hm by (unfold maximum_sample_count; lia). destruct (verdict (TAKUM_TAKUM reference f) _ _ _ _ _ _ _ _ I Hm R) as (V & _ & _ & W & _).
        assert (result = 0) as <-; [|exact R]. apply W. intros a b Hab. exists (nar (bits w) + 1), (nar (bits w)). split; [reflexivity|]. split; [reflexivity|]. lia. }
    exists (fun _ _ _ => 1).
    destruct (R Logarithmic W8) as (l1 & p1 & t1 & R1). destruct (R Logarithmic W16) as (l2 & p2 & t2 & R2). destruct (R Logarithmic W32) as (l3 & p3 & t3 & R3). destruct (R Logarithmic W64) as (l4 & p4 & t4 & R4).
    destruct (R Linear W8) as (l5 & p5 & t5 & R5). destruct (R Linear W16) as (l6 & p6 & t6 & R6). destruct (R Linear W32) as (l7 & p7 & t7 & R7). destruct (R Linear W64) as (l8 & p8 & t8 & R8).
    exists (fun k w => match k, w with Logarithmic, W8 => l1 | Logarithmic, W16 => l2 | Logarithmic, W32 => l3 | Logarithmic, W64 => l4 | Linear, W8 => l5 | Linear, W16 => l6 | Linear, W32 => l7 | Linear, W64 => l8 end),
      (fun k w => match k, w with Logarithmic, W8 => p1 | Logarithmic, W16 => p2 | Logarithmic, W32 => p3 | Logarithmic, W64 => p4 | Linear, W8 => p5 | Linear, W16 => p6 | Linear, W32 => p7 | Linear, W64 => p8 end),
      (fun k w => match k, w with Logarithmic, W8 => t1 | Logarithmic, W16 => t2 | Logarithmic, W32 => t3 | Logarithmic, W64 => t4 | Linear, W8 => t5 | Linear, W16 => t6 | Linear, W32 => t7 | Linear, W64 => t8 end),
      (fun _ _ => 0).
    split; [|reflexivity]. intros k w. destruct k, w; assumption.
Qed.
(** a comparison that is undefined *)
Theorem comparison_undefined : forall reference f k a b o, is_intn 64 a -> reference k W64 a = Val (nar 64) -> f k W64 a = Val o -> nar 64 + 1 < o ->
  check_unary_binary_case (TAKUM_TAKUM reference f) a b k W64 = UB.
Proof.
  intros reference f k a b o Ha Hr Hf Ho. cbn [check_unary_binary_case]. rewrite Hr, (to_s_same W64 a Ha), Hf. cbn [bind]. unfold deviates. destruct (Z.eqb_spec o (nar 64)); [lia|].
  change (s_arith 64 (nar 64 + 1)) with (Val (nar 64 + 1)). cbn [bind]. destruct (Z.eqb_spec o (nar 64 + 1)); [lia|]. reflexivity.
Qed.
Theorem comparison_refuted : ~ (forall reference f k a b, is_intn 64 a -> (forall a, is_intn 64 a -> exists r, reference k W64 a = Val r /\ is_intn 64 r) -> (forall a, is_intn 64 a -> exists r, f k W64 a = Val r /\ is_intn 64 r) ->
  check_unary_binary_case (TAKUM_TAKUM reference f) a b k W64 <> UB).
Proof.
  intros H. apply (H (fun _ _ _ => Val (nar 64)) (fun _ _ _ => Val 0) Logarithmic 0 0).
  - unfold is_intn. lia.
  - intros a _. eexists. split; [reflexivity|]. unfold is_intn, nar. lia.
  - intros a _. eexists. split; [reflexivity|]. unfold is_intn. lia.
  - apply (comparison_undefined _ _ _ _ _ 0); [unfold is_intn; lia|reflexivity|reflexivity|reflexivity].
Qed.
(** comparisons of narrower takums, and the roundtrips, are always defined *)
Theorem comparison_defined : forall utb k w, (w <> W64 \/ (exists f, utb = ROUNDTRIP f) \/ exists r f, utb = TAKUM_UINT8 r f) ->
  (forall f g, utb = ROUNDTRIP f -> f k w = Some g -> forall a, is_intn (bits w) a -> exists o, g a = Val o) ->
  (forall r f c, utb = TAKUM_INT64_TAKUM r f c -> forall a b, is_intn (bits w) a -> In b c -> exists o e, f k w a b = Val o /\ r k w a b = Val e /\ is_intn (bits w) e) ->
  (forall r f, utb = TAKUM_TAKUM r f -> forall a, is_intn (bits w) a -> exists o e, f k w a = Val o /\ r k w a = Val e /\ is_intn (bits w) e) ->
  (forall r f, utb = TAKUM_TAKUM_TAKUM r f -> forall a b, is_intn (bits w) a -> is_intn (bits w) b -> exists o e, f k w a b = Val o /\ r k w a b = Val e /\ is_intn (bits w) e) ->
  (forall r f, utb = TAKUM_UINT8 r f -> forall a, is_intn (bits w) a -> exists o e, f k w a = Val o /\ r k w a = Val e) ->
  checks_defined utb k w.
Proof.
  intros utb k w Hk H1 H2 H3 H4 H5 a b [Ha Hb]. pose proof (to_s_same w a Ha) as Ea.
  assert (forall o e, w <> W64 -> is_intn (bits w) e -> deviates o e <> UB) as D.
  { intros o e Nw [He1 He2]. unfold deviates. assert (2 ^ (bits w - 1) <= 2 ^ 31) as P by (apply Z.pow_le_mono_r; [lia|]; destruct w; cbn; lia || (exfalso; apply Nw; reflexivity)).
    destruct (o =? e); [discriminate|]. rewrite s_arith_ok by (unfold is_intn; cbn; lia). cbn [bind]. destruct (o =? e + 1); [discriminate|]. rewrite s_arith_ok by (unfold is_intn; cbn; lia). cbn [bind]. destruct (o =? e - 1); discriminate. }
  destruct utb as [f|reference f cases|reference f|reference f|reference f]; cbn [check_unary_binary_case].
  - destruct (f k w) as [g|] eqn:E; [|discriminate]. rewrite Ea. destruct (H1 f g eq_refl E a Ha) as (o & ->). discriminate.
  - destruct Hk as [Nw|[[? K]|(? & ? & K)]]; [|discriminate K|discriminate K]. destruct (H2 _ _ _ eq_refl a b Ha Hb) as (o & e & Eo & Ee & He). rewrite Ea, Ee, Eo. cbn [bind]. apply D; assumption.
  - destruct Hk as [Nw|[[? K]|(? & ? & K)]]; [|discriminate K|discriminate K]. destruct (H3 _ _ eq_refl a Ha) as (o & e & Eo & Ee & He). rewrite Ea, Ee, Eo. cbn [bind]. apply D; assumption.
  - destruct Hk as [Nw|[[? K]|(? & ? & K)]]; [|discriminate K|discriminate K]. destruct (H4 _ _ eq_refl a b Ha Hb) as (o & e & Eo & Ee & He). rewrite Ea, (to_s_same w b Hb), Ee, Eo. cbn [bind]. apply D; assumption.
  - destruct (H5 _ _ eq_refl a Ha) as (o & e & Eo & Ee). rewrite Ea, Ee, Eo. discriminate.
Qed.

(** integers listed twice: the loop never ends *)
Lemma duplicate_stuck : forall reference f k w c s rnd l e, let utb := TAKUM_INT64_TAKUM reference f [c; c] in
  mode s = TAKUM_INT64_FULL -> value_y s = c -> test_loop utb k w s rnd l e -> e <> Finished.
Proof.
  intros reference f k w c s rnd l e utb Hm Hy L. induction L as [s rnd C|s rnd d C N|s rnd d C N|s rnd d C N|s rnd d s' calls l e C N L IH]; try discriminate.
  - exfalso. unfold sampler_next in N. rewrite Hm, Hy in N. cbn in N. rewrite Z.eqb_refl in N. cbn in N. discriminate.
  - unfold sampler_next in N. rewrite Hm, Hy in N. cbn in N. rewrite Z.eqb_refl in N. cbn in N. injection N as <- <-. apply IH; reflexivity.
Qed.
Theorem duplicate_integers : forall reference f k rnd c l passed target result,
  ~ run_unit_test_on_type (TAKUM_INT64_TAKUM reference f [c; c]) k W8 maximum_sample_count rnd l passed target result.
Proof.
  intros reference f k rnd c l passed target result (s & Hi & L & _). cbn in Hi. injection Hi as <-. revert L. intros L.
  apply (duplicate_stuck reference f k W8 c _ rnd l Finished) in L; [apply L; reflexivity|reflexivity|reflexivity].
Qed.
Theorem no_integers : forall reference f w max, sampler_init (TAKUM_INT64_TAKUM reference f []) w max = UB.
Proof. intros reference f w max. destruct w; reflexivity. Qed.
Theorem termination_refuted : ~ (forall utb k w rnd, checks_defined utb k w -> exists l passed target result, run_unit_test_on_type utb k w maximum_sample_count rnd l passed target result).
Proof.
  intros H. destruct (H (TAKUM_INT64_TAKUM (fun _ _ _ _ => Val 0) (fun _ _ _ _ => Val 0) [1; 1]) Logarithmic W8 (fun _ => 1)) as (l & p & t & r & R).
  - intros a b _. discriminate.
  - exact (duplicate_integers _ _ _ _ _ _ _ _ _ R).
Qed.

(** the zero state *)
Theorem zero_state : forall w r, (r mod 2 ^ bits w = 0 -> random_next r 0 w = Val 0) /\
  (r mod 2 ^ bits w <> 0 -> exists v, is_intn (bits w) v /\ v <> 0 /\ v mod 2 ^ bits w = r mod 2 ^ bits w /\ forall r', random_next r 0 w = random_next r' v w).
Proof.
  intros w r. split; intros H; rewrite next_zero; unfold to_u.
  - rewrite (proj2 (Z.eqb_eq _ _) H). reflexivity.
  - rewrite (proj2 (Z.eqb_neq _ _) H). assert (to_s (bits w) r <> 0) as N.
    { intros K. apply H. change (r mod 2 ^ bits w) with (to_u (bits w) r). rewrite <- (to_u_to_s (bits w) r (bits_pos w)), K. destruct w; reflexivity. }
    exists (to_s (bits w) r). split; [apply to_s_intn, bits_pos|]. split; [exact N|]. split; [apply (to_u_to_s (bits w) r (bits_pos w))|].
    intros r'. rewrite !next_taps by (try apply to_s_intn, bits_pos; exact N). reflexivity.
Qed.
(** without a usable rand() a sample can come twice *)
Theorem distinct_refuted : exists reference f k rnd l passed target result,
  run_unit_test_on_type (TAKUM_TAKUM reference f) k W32 maximum_sample_count rnd l passed target result /\ ~ NoDup (map fst l).
Proof.
  set (z := fun (_ : kind) (_ : Wrappers.width) (_ : Z) => Val 0). set (rnd := fun _ : nat => 0).
  destruct (sampling_exists (TAKUM_TAKUM z z) W32 rnd maximum_sample_count I ltac:(unfold maximum_sample_count; lia)) as (s & T & H).
  destruct (terminates (TAKUM_TAKUM z z) Logarithmic W32 maximum_sample_count rnd I) as (l & passed & target & result & R & Et & El & _).
  - intros a b _. cbn. discriminate.
  - unfold maximum_sample_count. lia.
  - exists z, z, Logarithmic, rnd, l, passed, target, result. split; [exact R|]. intros D.
    destruct (run_samples _ _ _ _ _ _ _ _ _ _ _ H R) as (M & _ & Et' & _). change (Z.min (test_cases (TAKUM_TAKUM z z) W32) maximum_sample_count) with 4194304 in Et.
    rewrite M in D. pose proof (sampling_init _ _ _ _ _ _ H) as Hi. change (sampler_init (TAKUM_TAKUM z z) W32 maximum_sample_count) with (Val (Sampler TAKUM_RANDOM 0 (parameters_nar W32) 1 maximum_sample_count)) in Hi. injection Hi as <-.
    rewrite NoDup_nth_error in D. assert (0 = 1)%nat as K; [|discriminate K]. apply D; [rewrite map_length, seq_length; lia|]. rewrite !nth_error_points by lia. reflexivity.
Qed.
