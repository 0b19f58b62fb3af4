(** Coverage, termination and verdict of the unit tests (for C139-C143). *)
From Coq Require Import ZArith List Bool Lia.
From Verif Require Import CModel Spec Wrappers WrapApi WidthFacts TestHarness HarnessSpec Lfsr GeneratorFacts SamplerFacts SamplerModes.
Import ListNotations.
Local Open Scope Z_scope.

Lemma nar_parameters : forall w, nar (bits w) = parameters_nar w.
Proof. destruct w; reflexivity. Qed.
Lemma count_narrow : forall w, w <> W64 -> parameters_count w = 2 ^ bits w.
Proof. destruct w; intros H; try reflexivity. exfalso. apply H. reflexivity. Qed.

(** what the sampler does, mode by mode: T + 1 samples *)
Record sampling (utb : unit_test_block) (w : Wrappers.width) (rnd : nat -> Z) (max : Z) (s : sampler) (T : nat) : Prop := {
  sampling_init : sampler_init utb w max = Val s;
  sampling_target : target_count s = Z.of_nat T + 1;
  sampling_count : Z.of_nat T + 1 = Z.min (test_cases utb w) max;
  sampling_cases : forall j, (j <= T)%nat -> test_case utb w (fst (point utb w s rnd j)) (snd (point utb w s rnd j));
  sampling_more : forall j, (j < T)%nat -> continues utb w (walk utb w s rnd j);
  sampling_done : sampler_next utb w (snd (walk utb w s rnd T)) (fst (walk utb w s rnd T)) = Val Done;
  sampling_full : test_cases utb w <= max -> (forall i j, (i <= T)%nat -> (j <= T)%nat -> point utb w s rnd i = point utb w s rnd j -> i = j) /\
    (forall a b, test_case utb w a b -> exists j, (j <= T)%nat /\ point utb w s rnd j = (a, b));
  sampling_random : max < test_cases utb w -> to_u (bits w) (rnd 0%nat) <> 0 -> (forall a b, utb = TAKUM_TAKUM_TAKUM a b -> max <= 2 ^ bits w) ->
    forall i j, (i <= T)%nat -> (j <= T)%nat -> point utb w s rnd i = point utb w s rnd j -> i = j;
  sampling_periodic : forall a b, utb = TAKUM_TAKUM_TAKUM a b -> max < test_cases utb w -> to_u (bits w) (rnd 0%nat) <> 0 -> to_u (bits w) (rnd 1%nat) <> 0 ->
    forall j p, Z.of_nat p = 2 ^ bits w - 1 -> (1 <= j)%nat -> (j + p <= T)%nat -> point utb w s rnd (j + p) = point utb w s rnd j
}.

Lemma sampling_unary : forall utb w rnd max, 1 <= max <= 2 ^ 63 ->
  sampler_init utb w max = (if parameters_count w <=? max then Val (Sampler TAKUM_FULL (parameters_nar w) (parameters_nar w) 1 (parameters_count w))
      else Val (Sampler TAKUM_RANDOM 0 (parameters_nar w) 1 max)) ->
  (forall a b, test_case utb w a b <-> is_intn (bits w) a /\ b = nar (bits w)) -> test_cases utb w = 2 ^ bits w -> (forall a b, utb <> TAKUM_TAKUM_TAKUM a b) ->
  exists s T, sampling utb w rnd max s T.
Proof.
  intros utb w rnd max Hm Hi Hc Hn Hu. pose proof (half w) as Hh. destruct (Z.leb_spec (parameters_count w) max) as [L|L].
  - assert (w <> W64) as Nw by (intros ->; change (parameters_count W64) with (2 ^ 64 - 1) in L; lia). rewrite (count_narrow w Nw) in *.
    set (s := Sampler TAKUM_FULL (parameters_nar w) (parameters_nar w) 1 (2 ^ bits w)) in *.
    assert (0 < 2 ^ bits w) as P by (destruct w; reflexivity).
    destruct (unary_full utb w rnd Nw (Z.to_nat (2 ^ bits w - 1)) ltac:(lia)) as [W M]. fold s in W, M. set (T := Z.to_nat (2 ^ bits w - 1)) in *.
    assert (Z.of_nat T + 1 = 2 ^ bits w) as ET by (unfold T; lia). clearbody T.
    assert (forall j, (j <= T)%nat -> point utb w s rnd j = (parameters_nar w + Z.of_nat j, parameters_nar w)) as PT by (intros j Hj; unfold point; rewrite (W j Hj); reflexivity).
    exists s, T. constructor.
    + exact Hi.
    + cbn. lia.
    + rewrite Hn. lia.
    + intros j Hj. rewrite (PT j Hj). apply Hc. cbn [fst snd]. split; [unfold is_intn, parameters_nar; lia|symmetry; apply nar_parameters].
    + exact M.
    + rewrite (W T (le_n _)). cbn [sampler_next mode value_x]. rewrite (proj2 (Z.eqb_eq _ _)); [reflexivity|]. unfold parameters_nar, parameters_positive_maximum. lia.
    + intros _. split.
      * intros i j Hi' Hj. rewrite (PT i Hi'), (PT j Hj). intros E. injection E as E. lia.
      * intros a b H. apply Hc in H. destruct H as [H ->]. exists (Z.to_nat (a - parameters_nar w)). unfold is_intn in H. split; [unfold parameters_nar; lia|]. rewrite PT by (unfold parameters_nar; lia). f_equal; unfold parameters_nar; lia.
    + intros K. lia.
    + intros a b E. exfalso. exact (Hu a b E).
  - assert (max < 2 ^ bits w) as L' by (destruct w; [exact L|exact L|exact L|change (2 ^ bits W64) with (2 * 2 ^ 63); lia]).
    set (s := Sampler TAKUM_RANDOM 0 (parameters_nar w) 1 max) in *.
    destruct (unary_random utb w rnd (parameters_nar w) max Hm (Z.to_nat (max - 1)) ltac:(lia)) as [W M]. fold s in W, M. set (T := Z.to_nat (max - 1)) in *.
    assert (Z.of_nat T + 1 = max) as ET by (unfold T; lia). clearbody T. exists s, T. constructor.
    + exact Hi.
    + cbn. lia.
    + rewrite Hn. lia.
    + intros j Hj. destruct (W j Hj) as (x & E & Hx & _). unfold point. rewrite E. apply Hc. cbn. split; [assumption|symmetry; apply nar_parameters].
    + exact M.
    + destruct (W T (le_n _)) as (x & E & _). rewrite E. cbn [sampler_next mode target_count current_count]. rewrite (proj2 (Z.leb_le _ _)) by lia. reflexivity.
    + intros K. lia.
    + intros _ N _ i j Hi' Hj E. destruct (W i Hi') as (x & E1 & _ & O1). destruct (W j Hj) as (y & E2 & _ & O2). unfold point in E. rewrite E1, E2 in E. cbn in E. injection E as E.
      rewrite (O1 N), (O2 N) in E. apply orbit_inj in E; [exact E|exact N|lia|lia].
    + intros a b E. exfalso. exact (Hu a b E).
Qed.

Lemma sampling_binary : forall reference f w rnd max, 1 <= max <= 2 ^ 63 -> exists s T, sampling (TAKUM_TAKUM_TAKUM reference f) w rnd max s T.
Proof.
  intros reference f w rnd max Hm. pose proof (half w) as Hh. set (utb := TAKUM_TAKUM_TAKUM reference f).
  destruct (Z_le_gt_dec (2 ^ bits w * 2 ^ bits w) max) as [L|L].
  - assert (w = W8 \/ w = W16) as Hw by (destruct w; [left; reflexivity|right; reflexivity| |]; exfalso; cbn [bits] in L; assert (2 ^ 32 * 2 ^ 32 = 2 * 2 ^ 63) by reflexivity; assert (2 ^ 64 = 2 * 2 ^ 63) by reflexivity; nia).
    set (C := 2 ^ bits w) in *. assert (256 <= C <= 2 ^ 16) as B by (unfold C; destruct Hw as [-> | ->]; cbn; lia).
    set (s := Sampler TAKUM_TAKUM_FULL (parameters_nar w) (parameters_nar w) 1 (C * C)).
    assert (sampler_init utb w max = Val s) as Hi.
    { unfold utb. cbn [sampler_init]. assert (safe_uint64_multiplication (parameters_count w) (parameters_count w) = Val (C * C)) as -> by (unfold C; destruct Hw as [-> | ->]; reflexivity).
      cbn [bind]. rewrite (proj2 (Z.leb_le _ _) L). reflexivity. }
    destruct (binary_full utb w rnd Hw (Z.to_nat (C * C - 1))) as [W M]; [fold C; nia|]. fold C s in W, M. set (T := Z.to_nat (C * C - 1)) in *.
    assert (Z.of_nat T + 1 = C * C) as ET by (unfold T; nia). clearbody T.
    assert (forall j, (j <= T)%nat -> point utb w s rnd j = (parameters_nar w + Z.of_nat j / C, parameters_nar w + Z.of_nat j mod C)) as PT by (intros j Hj; unfold point; rewrite (W j Hj); reflexivity).
    assert (forall j, (j <= T)%nat -> 0 <= Z.of_nat j / C < C) as Q by (intros j Hj; split; [apply Z.div_pos; lia|apply Z.div_lt_upper_bound; lia]).
    exists s, T. constructor.
    + exact Hi.
    + cbn. lia.
    + cbn [test_cases utb]. fold C. lia.
    + intros j Hj. rewrite (PT j Hj). cbn [fst snd test_case utb]. pose proof (Q j Hj). pose proof (Z.mod_pos_bound (Z.of_nat j) C ltac:(lia)). unfold test_case, is_intn, parameters_nar. cbn. lia.
    + exact M.
    + rewrite (W T (le_n _)). cbn [sampler_next mode value_x value_y]. assert (Z.of_nat T = C * (C - 1) + (C - 1)) as E by lia.
      assert (Z.of_nat T / C = C - 1) as -> by (symmetry; apply (Z.div_unique _ _ _ (C - 1)); lia).
      assert (Z.of_nat T mod C = C - 1) as -> by (symmetry; apply (Z.mod_unique _ _ (C - 1)); lia).
      rewrite (proj2 (Z.eqb_eq _ _)) by (unfold parameters_nar, parameters_positive_maximum; lia). reflexivity.
    + intros _. split.
      * intros i j Hi' Hj. rewrite (PT i Hi'), (PT j Hj). intros E. injection E as E1 E2. pose proof (Z.div_mod (Z.of_nat i) C ltac:(lia)). pose proof (Z.div_mod (Z.of_nat j) C ltac:(lia)).
        assert (Z.of_nat i / C = Z.of_nat j / C) as E3 by lia. assert (Z.of_nat i mod C = Z.of_nat j mod C) as E4 by lia. rewrite E3, E4 in *. lia.
      * intros a b [H1 H2]. cbn in H2. unfold is_intn in H1, H2. set (x := a - parameters_nar w). set (y := b - parameters_nar w).
        assert (0 <= x < C) as Rx by (unfold x, parameters_nar; lia). assert (0 <= y < C) as Ry by (unfold y, parameters_nar; lia).
        assert (0 <= C * x + y < C * C) as Rz by nia.
        exists (Z.to_nat (C * x + y)). split; [lia|]. rewrite PT by lia. rewrite Z2Nat.id by lia.
        assert ((C * x + y) / C = x) as -> by (symmetry; apply (Z.div_unique _ _ _ y); lia).
        assert ((C * x + y) mod C = y) as -> by (symmetry; apply (Z.mod_unique _ _ x); lia). unfold x, y. f_equal; lia.
    + intros K. cbn [test_cases utb] in K. fold C in K. lia.
    + intros a b _ K. cbn [test_cases utb] in K. fold C in K. lia.
  - set (s := Sampler TAKUM_TAKUM_RANDOM 0 0 1 max).
    assert (sampler_init utb w max = Val s) as Hi.
    { unfold utb. cbn [sampler_init]. unfold safe_uint64_multiplication. destruct w; cbn [bits] in L.
      - change (parameters_count W8) with 256. change (256 =? 0) with false. change ((2 ^ 64 - 1) / 256 <=? 256) with false. cbv iota. change (to_u 64 (256 * 256)) with (2 ^ 8 * 2 ^ 8). cbn [bind]. rewrite (proj2 (Z.leb_gt _ _)) by lia. reflexivity.
      - change (parameters_count W16) with 65536. change (65536 =? 0) with false. change ((2 ^ 64 - 1) / 65536 <=? 65536) with false. cbv iota. change (to_u 64 (65536 * 65536)) with (2 ^ 16 * 2 ^ 16). cbn [bind]. rewrite (proj2 (Z.leb_gt _ _)) by lia. reflexivity.
      - change (parameters_count W32) with 4294967296. change (4294967296 =? 0) with false. change ((2 ^ 64 - 1) / 4294967296 <=? 4294967296) with true. cbv iota. cbn [bind]. rewrite (proj2 (Z.leb_gt _ _)) by lia. reflexivity.
      - change (parameters_count W64) with (2 ^ 64 - 1). change (2 ^ 64 - 1 =? 0) with false. change ((2 ^ 64 - 1) / (2 ^ 64 - 1) <=? 2 ^ 64 - 1) with true. cbv iota. cbn [bind]. rewrite (proj2 (Z.leb_gt _ _)) by lia. reflexivity. }
    destruct (binary_random utb w rnd max Hm (Z.to_nat (max - 1)) ltac:(lia)) as [W M]. fold s in W, M. set (T := Z.to_nat (max - 1)) in *.
    assert (Z.of_nat T + 1 = max) as ET by (unfold T; lia). clearbody T. exists s, T. constructor.
    + exact Hi.
    + cbn. lia.
    + cbn [test_cases utb]. lia.
    + intros j Hj. destruct (W j Hj) as (x & y & E & Hx & Hy & _). unfold point. rewrite E. cbn. split; assumption.
    + exact M.
    + destruct (W T (le_n _)) as (x & y & E & _). rewrite E. cbn [sampler_next mode target_count current_count]. rewrite (proj2 (Z.leb_le _ _)) by lia. reflexivity.
    + intros K. cbn [test_cases utb] in K. lia.
    + intros _ N B i j Hi' Hj E. specialize (B reference f eq_refl). destruct (W i Hi') as (x & y & E1 & _ & _ & O1 & _). destruct (W j Hj) as (x' & y' & E2 & _ & _ & O2 & _). unfold point in E. rewrite E1, E2 in E. cbn in E. injection E as E _.
      rewrite (O1 N), (O2 N) in E. apply orbit_inj in E; [exact E|exact N|lia|lia].
    + intros a b _ _ N0 N1 j p Hp Hj Hjp. destruct (W _ Hjp) as (x & y & E1 & _ & _ & O1 & P1). destruct (W j ltac:(lia)) as (x' & y' & E2 & _ & _ & O2 & P2). unfold point. rewrite E1, E2. cbn.
      rewrite (O1 N0), (P1 N1), (O2 N0), (P2 N1). rewrite !(orbit_period w _ j) by assumption. reflexivity.
Qed.

Lemma sampling_integer : forall reference f cases w rnd max, cases <> [] -> NoDup cases -> 1 <= max <= 2 ^ 63 -> exists s T, sampling (TAKUM_INT64_TAKUM reference f cases) w rnd max s T.
Proof.
  intros reference f cases w rnd max Ne D Hm. pose proof (half w) as Hh. set (utb := TAKUM_INT64_TAKUM reference f cases).
  assert (exists c, c = Z.of_nat (length cases) /\ 0 < c) as (c & Ec & Hc) by (exists (Z.of_nat (length cases)); split; [reflexivity|]; destruct cases; [congruence|cbn; lia]).
  assert (256 <= 2 ^ bits w) as P by (destruct w; cbn; lia).
  assert (exists full, safe_uint64_multiplication (parameters_count w) c = Val full /\ ((2 ^ bits w * c <= max /\ full = 2 ^ bits w * c /\ w <> W64) \/ (max < 2 ^ bits w * c /\ max < full))) as (full & Ef & Hf).
  { unfold safe_uint64_multiplication. destruct (Z.eqb_spec c 0); [lia|]. pose proof (Z.div_mod (2 ^ 64 - 1) c ltac:(lia)) as E. pose proof (Z.mod_pos_bound (2 ^ 64 - 1) c Hc) as R.
    destruct (Z.leb_spec ((2 ^ 64 - 1) / c) (parameters_count w)) as [L|L].
    - eexists. split; [reflexivity|]. right. split; [|lia]. assert (parameters_count w <= 2 ^ bits w) as Pc by (destruct w; cbn [bits parameters_count]; lia).
      set (q := (2 ^ 64 - 1) / c) in *. assert (2 ^ 64 - 1 < (2 ^ bits w + 1) * c) by nia. set (B := 2 ^ bits w) in *. clearbody B q. assert (256 * c <= B * c) by nia. change (2 ^ 64) with (2 * 2 ^ 63) in *. lia.
    - eexists. split; [reflexivity|]. assert (w <> W64) as Nw by (intros ->; change (parameters_count W64) with (2 ^ 64 - 1) in L; set (q := (2 ^ 64 - 1) / c) in *; clearbody q; nia).
      rewrite (count_narrow w Nw) in *. set (q := (2 ^ 64 - 1) / c) in *. set (B := 2 ^ bits w) in *. clearbody q B. rewrite to_u_small by nia.
      destruct (Z_le_gt_dec (B * c) max) as [K|K]; [left; repeat split; assumption|right; lia]. }
  assert (lookup cases 0 = Val (nth_case cases 0)) as El by (apply lookup_case; lia).
  assert (forall b, In b cases -> exists i, 0 <= i < c /\ b = nth_case cases i) as Hin.
  { intros b I. apply (In_nth _ _ 0) in I. destruct I as (m & Lm & Em). exists (Z.of_nat m). split; [lia|]. unfold nth_case. rewrite Nat2Z.id. symmetry. assumption. }
  assert (forall i, 0 <= i < c -> In (nth_case cases i) cases) as Hni by (intros i H; apply nth_In; lia).
  assert (forall i j, 0 <= i < c -> 0 <= j < c -> nth_case cases i = nth_case cases j -> i = j) as Inj.
  { intros i j H1 H2 E. pose proof (find_nth_case cases i D ltac:(lia)) as F1. rewrite E, find_nth_case in F1 by (assumption || lia). lia. }
  destruct Hf as [(L & -> & Nw)|[L L']].
  - set (s := Sampler TAKUM_INT64_FULL (parameters_nar w) (nth_case cases 0) 1 (2 ^ bits w * c)).
    assert (sampler_init utb w max = Val s) as Hi.
    { unfold utb. cbn [sampler_init]. rewrite <- Ec, Ef. cbn [bind]. rewrite El. cbn [bind]. rewrite (proj2 (Z.leb_le _ _) L). reflexivity. }
    destruct (integer_full reference f cases w rnd Nw D ltac:(lia) ltac:(lia) (Z.to_nat (2 ^ bits w * c - 1)) ltac:(nia)) as [W M]. rewrite <- Ec in W, M. fold utb s in W, M. set (T := Z.to_nat (2 ^ bits w * c - 1)) in *.
    assert (Z.of_nat T + 1 = 2 ^ bits w * c) as ET by (unfold T; nia). clearbody T. 
    assert (forall j, (j <= T)%nat -> point utb w s rnd j = (parameters_nar w + Z.of_nat j / c, nth_case cases (Z.of_nat j mod c))) as PT by (intros j Hj; unfold point; rewrite (W j Hj); reflexivity).
    assert (forall j, (j <= T)%nat -> 0 <= Z.of_nat j / c < 2 ^ bits w) as Q by (intros j Hj; split; [apply Z.div_pos; lia|apply Z.div_lt_upper_bound; lia]).
    exists s, T. constructor.
    + exact Hi.
    + cbn. lia.
    + cbn [test_cases utb]. rewrite <- Ec. lia.
    + intros j Hj. rewrite (PT j Hj). pose proof (Q j Hj). split; [cbn [fst]; unfold is_intn, parameters_nar; lia|]. cbn [snd utb]. apply Hni. apply Z.mod_pos_bound. assumption.
    + exact M.
    + rewrite (W T (le_n _)). unfold utb. cbn [sampler_next mode value_x value_y integer_test_cases_of]. set (B := 2 ^ bits w) in *. assert (Z.of_nat T = c * (B - 1) + (c - 1)) as E by lia.
      assert (Z.of_nat T / c = B - 1) as -> by (symmetry; apply (Z.div_unique _ _ _ (c - 1)); lia).
      assert (Z.of_nat T mod c = c - 1) as -> by (symmetry; apply (Z.mod_unique _ _ (B - 1)); lia).
      rewrite find_nth_case by (assumption || lia). destruct (Nat.eqb_spec (Z.to_nat (c - 1)) (length cases)); [lia|]. destruct (Nat.eqb_spec (Z.to_nat (c - 1)) (length cases - 1)); [|lia].
      rewrite (proj2 (Z.eqb_eq _ _)) by (unfold parameters_nar, parameters_positive_maximum; lia). reflexivity.
    + intros _. split.
      * intros i j Hi' Hj. rewrite (PT i Hi'), (PT j Hj). intros E. injection E as E1 E2. pose proof (Z.div_mod (Z.of_nat i) c ltac:(lia)). pose proof (Z.div_mod (Z.of_nat j) c ltac:(lia)).
        apply Inj in E2; [|apply Z.mod_pos_bound; assumption|apply Z.mod_pos_bound; assumption].
        assert (Z.of_nat i / c = Z.of_nat j / c) as E3 by lia. rewrite E2, E3 in *. lia.
      * intros a b [H1 H2]. cbn [utb] in H2. destruct (Hin b H2) as (y & Ry & ->). unfold is_intn in H1. set (x := a - parameters_nar w).
        assert (0 <= x < 2 ^ bits w) as Rx by (unfold x, parameters_nar; lia). 
        assert (0 <= c * x + y < 2 ^ bits w * c) as Rz by nia.
        exists (Z.to_nat (c * x + y)). split; [lia|]. rewrite PT by lia. rewrite Z2Nat.id by lia.
        assert ((c * x + y) / c = x) as -> by (symmetry; apply (Z.div_unique _ _ _ y); lia).
        assert ((c * x + y) mod c = y) as -> by (symmetry; apply (Z.mod_unique _ _ x); lia). unfold x. f_equal; lia.
    + intros K. cbn [test_cases utb] in K. rewrite <- Ec in K. lia.
    + intros a b K. discriminate K.
  - set (s := Sampler TAKUM_INT64_RANDOM 0 (nth_case cases 0) 1 max).
    assert (sampler_init utb w max = Val s) as Hi.
    { unfold utb. cbn [sampler_init]. rewrite <- Ec, Ef. cbn [bind]. rewrite El. cbn [bind]. rewrite (proj2 (Z.leb_gt _ _) L'). reflexivity. }
    destruct (integer_random reference f cases w rnd max Hm D ltac:(lia) (Z.to_nat (max - 1)) ltac:(lia)) as [W M]. rewrite <- Ec in W. fold utb s in W, M. set (T := Z.to_nat (max - 1)) in *.
    assert (Z.of_nat T + 1 = max) as ET by (unfold T; lia). clearbody T. exists s, T. constructor.
    + exact Hi.
    + cbn. lia.
    + cbn [test_cases utb]. rewrite <- Ec. lia.
    + intros j Hj. destruct (W j Hj) as (x & E & Hx & _). unfold point. rewrite E. cbn. split; [assumption|]. apply Hni. apply Z.mod_pos_bound. assumption.
    + exact M.
    + destruct (W T (le_n _)) as (x & E & _). rewrite E. cbn [sampler_next mode target_count current_count]. rewrite (proj2 (Z.leb_le _ _)) by lia. reflexivity.
    + intros K. cbn [test_cases utb] in K. rewrite <- Ec in K. lia.
    + intros _ N _ i j Hi' Hj E. destruct (W i Hi') as (x & E1 & _ & O1). destruct (W j Hj) as (x' & E2 & _ & O2). unfold point in E. rewrite E1, E2 in E. cbn in E. injection E as E E3.
      apply Inj in E3; [|apply Z.mod_pos_bound; assumption|apply Z.mod_pos_bound; assumption].
      assert (forall m, (m <= T)%nat -> 0 <= Z.of_nat m / c < 2 ^ bits w) as Q by (intros m Hj'; split; [apply Z.div_pos; lia|apply Z.div_lt_upper_bound; lia]). pose proof (Q i Hi'). pose proof (Q j Hj).
      rewrite (O1 N), (O2 N) in E. apply orbit_inj in E; [|exact N|lia|lia].
      pose proof (Z.div_mod (Z.of_nat i) c ltac:(lia)). pose proof (Z.div_mod (Z.of_nat j) c ltac:(lia)). assert (Z.of_nat i / c = Z.of_nat j / c) as E4 by lia. rewrite E3, E4 in *. lia.
    + intros a b K. discriminate K.
Qed.

Lemma sampling_exists : forall utb w rnd max, well_formed utb -> 1 <= max <= 2 ^ 63 -> exists s T, sampling utb w rnd max s T.
Proof.
  intros utb w rnd max Hw Hm. destruct utb as [f|reference f cases|reference f|reference f|reference f].
  - apply sampling_unary; [assumption|reflexivity|intros a b; reflexivity|reflexivity|discriminate].
  - destruct Hw. apply sampling_integer; assumption.
  - apply sampling_unary; [assumption|reflexivity|intros a b; reflexivity|reflexivity|discriminate].
  - apply sampling_binary; assumption.
  - apply sampling_unary; [assumption|reflexivity|intros a b; reflexivity|reflexivity|discriminate].
Qed.
