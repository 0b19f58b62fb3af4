(** The six modes of the sampler (for C139-C143). *)
From Coq Require Import ZArith List Bool Lia.
From Verif Require Import CModel Spec Wrappers WrapApi WidthFacts TestHarness HarnessSpec Lfsr GeneratorFacts SamplerFacts.
Import ListNotations.
Local Open Scope Z_scope.

Lemma walk_inv : forall utb w s rnd (Inv : nat -> sampler -> (nat -> Z) -> Prop) T, Inv 0%nat s rnd ->
  (forall j s r, (j < T)%nat -> Inv j s r -> exists s' calls, sampler_next utb w r s = Val (More s' calls) /\ Inv (S j) s' (fun i => r (calls + i)%nat)) ->
  (forall j, (j <= T)%nat -> Inv j (fst (walk utb w s rnd j)) (snd (walk utb w s rnd j))) /\
  (forall j, (j < T)%nat -> continues utb w (walk utb w s rnd j)).
Proof.
  intros utb w s rnd Inv T H0 HS. assert (forall j, (j <= T)%nat -> Inv j (fst (walk utb w s rnd j)) (snd (walk utb w s rnd j))) as H.
  { induction j as [|j IH]; intros Hj; [exact H0|]. destruct (HS j _ _ ltac:(lia) (IH ltac:(lia))) as (s' & calls & E & I). rewrite walk_S, E. exact I. }
  split; [exact H|]. intros j Hj. destruct (HS j _ _ Hj (H j ltac:(lia))) as (s' & calls & E & I). exists s', calls. exact E.
Qed.

Lemma s_arith_ok : forall n z, is_intn n z -> s_arith n z = Val z.
Proof. intros n z [H1 H2]. unfold s_arith, guard, fits_s. rewrite (proj2 (Z.leb_le _ _) H1), (proj2 (Z.ltb_lt _ _) H2). reflexivity. Qed.
Lemma intn_64 : forall w z, is_intn (bits w) z -> is_intn 64 z.
Proof. intros w z [H1 H2]. assert (2 ^ (bits w - 1) <= 2 ^ (64 - 1)) by (apply Z.pow_le_mono_r; destruct w; cbn; lia). unfold is_intn. lia. Qed.
Lemma nar_intn : forall w, is_intn (bits w) (parameters_nar w).
Proof. destruct w; unfold is_intn, parameters_nar; cbn [bits]; lia. Qed.
Lemma zero_intn : forall w, is_intn (bits w) 0.
Proof. destruct w; unfold is_intn; cbn [bits]; lia. Qed.
Lemma half : forall w, 2 ^ bits w = 2 * 2 ^ (bits w - 1).
Proof. destruct w; reflexivity. Qed.
Lemma plus_u64 : forall c, 0 <= c < 2 ^ 63 -> to_u 64 (c + 1) = c + 1.
Proof. intros c H. apply to_u_small. change (2 ^ 64) with (2 * 2 ^ 63). lia. Qed.
Lemma div_mod_next : forall c j, 0 < c -> 0 <= j ->
  (j mod c = c - 1 -> (j + 1) / c = j / c + 1 /\ (j + 1) mod c = 0) /\ (j mod c <> c - 1 -> (j + 1) / c = j / c /\ (j + 1) mod c = j mod c + 1).
Proof.
  intros c j Hc Hj. pose proof (Z.div_mod j c ltac:(lia)) as E. pose proof (Z.mod_pos_bound j c Hc) as R. split; intros H; (split; [symmetry; eapply Z.div_unique|symmetry; eapply Z.mod_unique]).
  - left. instantiate (1 := 0). lia.
  - lia.
  - left. lia.
  - instantiate (1 := j / c + 1). lia.
  - left. instantiate (1 := j mod c + 1). lia.
  - lia.
  - left. lia.
  - instantiate (1 := j / c). lia.
Qed.
Lemma nat_succ : forall j, Z.of_nat (S j) = Z.of_nat j + 1.
Proof. intros. lia. Qed.

(** ** All takums *)
Lemma unary_full : forall utb w rnd, w <> W64 -> let s := Sampler TAKUM_FULL (parameters_nar w) (parameters_nar w) 1 (2 ^ bits w) in
  forall T, Z.of_nat T + 1 = 2 ^ bits w ->
  (forall j, (j <= T)%nat -> fst (walk utb w s rnd j) = Sampler TAKUM_FULL (parameters_nar w + Z.of_nat j) (parameters_nar w) (1 + Z.of_nat j) (2 ^ bits w)) /\
  (forall j, (j < T)%nat -> continues utb w (walk utb w s rnd j)).
Proof.
  intros utb w rnd Nw s T HT. assert (2 ^ bits w <= 2 ^ 32) as B by (apply Z.pow_le_mono_r; [lia|]; destruct w; cbn; lia || (exfalso; apply Nw; reflexivity)).
  apply (walk_inv utb w s rnd (fun j s _ => s = Sampler TAKUM_FULL (parameters_nar w + Z.of_nat j) (parameters_nar w) (1 + Z.of_nat j) (2 ^ bits w))).
  - unfold s. f_equal; lia.
  - intros j s' r Hj ->. cbn [sampler_next mode value_x value_y current_count target_count]. pose proof (half w) as Hh.
    destruct (Z.eqb_spec (parameters_nar w + Z.of_nat j) (parameters_positive_maximum w)) as [E|E]; [unfold parameters_nar, parameters_positive_maximum in E; lia|].
    rewrite s_arith_ok by (apply (intn_64 w); unfold parameters_nar, is_intn; lia). cbn [bind]. eexists. exists 0%nat. split; [reflexivity|].
    rewrite plus_u64 by lia. rewrite nat_succ. f_equal; lia.
Qed.

(** ** All pairs of takums *)
Lemma binary_full : forall utb w rnd, w = W8 \/ w = W16 -> let C := 2 ^ bits w in
  let s := Sampler TAKUM_TAKUM_FULL (parameters_nar w) (parameters_nar w) 1 (C * C) in
  forall T, Z.of_nat T + 1 = C * C ->
  (forall j, (j <= T)%nat -> fst (walk utb w s rnd j) = Sampler TAKUM_TAKUM_FULL (parameters_nar w + Z.of_nat j / C) (parameters_nar w + Z.of_nat j mod C) (1 + Z.of_nat j) (C * C)) /\
  (forall j, (j < T)%nat -> continues utb w (walk utb w s rnd j)).
Proof.
  intros utb w rnd Hw C s T HT. assert (256 <= C <= 2 ^ 16) as B by (destruct Hw as [-> | ->]; cbn; lia).
  apply (walk_inv utb w s rnd (fun j s _ => s = Sampler TAKUM_TAKUM_FULL (parameters_nar w + Z.of_nat j / C) (parameters_nar w + Z.of_nat j mod C) (1 + Z.of_nat j) (C * C))).
  - unfold s. change (Z.of_nat 0) with 0. rewrite Z.div_0_l, Z.mod_0_l by lia. f_equal; lia.
  - intros j s' r Hj ->. cbn [sampler_next mode value_x value_y current_count target_count].
    assert (C = 2 * 2 ^ (bits w - 1)) as Hh by apply half.
    destruct (div_mod_next C (Z.of_nat j) ltac:(lia) ltac:(lia)) as [D1 D2]. pose proof (Z.mod_pos_bound (Z.of_nat j) C ltac:(lia)) as M.
    pose proof (Z.div_mod (Z.of_nat j) C ltac:(lia)) as E. assert (0 <= Z.of_nat j / C < C) as Q by (split; [apply Z.div_pos; lia|apply Z.div_lt_upper_bound; lia]).
    destruct (Z.eqb_spec (parameters_nar w + Z.of_nat j mod C) (parameters_positive_maximum w)) as [E1|E1]; unfold parameters_nar, parameters_positive_maximum in E1.
    + destruct (D1 ltac:(lia)) as [D3 D4].
      destruct (Z.eqb_spec (parameters_nar w + Z.of_nat j / C) (parameters_positive_maximum w)) as [E2|E2]; unfold parameters_nar, parameters_positive_maximum in E2; [exfalso; nia|].
      rewrite s_arith_ok by (apply (intn_64 w); unfold parameters_nar, is_intn; lia). cbn [bind]. eexists. exists 0%nat. split; [reflexivity|].
      rewrite plus_u64 by nia. rewrite nat_succ, D3, D4. f_equal; lia.
    + destruct (D2 ltac:(lia)) as [D3 D4].
      rewrite s_arith_ok by (apply (intn_64 w); unfold parameters_nar, is_intn; lia). cbn [bind]. eexists. exists 0%nat. split; [reflexivity|].
      rewrite plus_u64 by nia. rewrite nat_succ, D3, D4. f_equal; lia.
Qed.

(** ** The list of integers *)
Lemma find_case_nth : forall cases i y, NoDup cases -> nth_error cases i = Some y -> find_case cases y = i.
Proof.
  induction cases as [|c cases IH]; intros i y D H; [destruct i; discriminate|]. inversion D; subst. cbn. destruct i as [|i].
  - cbn in H. injection H as ->. rewrite Z.eqb_refl. reflexivity.
  - cbn in H. destruct (Z.eqb_spec y c) as [-> |N]; [apply nth_error_In in H; contradiction|]. f_equal. apply IH; assumption.
Qed.
Definition nth_case (cases : list Z) (i : Z) : Z := nth (Z.to_nat i) cases 0.
Lemma nth_case_ok : forall cases i, 0 <= i < Z.of_nat (length cases) -> nth_error cases (Z.to_nat i) = Some (nth_case cases i).
Proof. intros cases i H. apply nth_error_nth'. lia. Qed.
Lemma lookup_case : forall cases i, 0 <= i < Z.of_nat (length cases) -> lookup cases i = Val (nth_case cases i).
Proof. intros cases i H. unfold lookup. destruct (Z.ltb_spec i 0); [lia|]. rewrite nth_case_ok by assumption. reflexivity. Qed.
Lemma find_nth_case : forall cases i, NoDup cases -> 0 <= i < Z.of_nat (length cases) -> find_case cases (nth_case cases i) = Z.to_nat i.
Proof. intros cases i D H. apply find_case_nth; [assumption|]. apply nth_case_ok. assumption. Qed.

Lemma integer_full : forall reference f cases w rnd, w <> W64 -> NoDup cases -> let utb := TAKUM_INT64_TAKUM reference f cases in let c := Z.of_nat (length cases) in
  0 < c -> 2 ^ bits w * c <= 2 ^ 63 ->
  let s := Sampler TAKUM_INT64_FULL (parameters_nar w) (nth_case cases 0) 1 (2 ^ bits w * c) in
  forall T, Z.of_nat T + 1 = 2 ^ bits w * c ->
  (forall j, (j <= T)%nat -> fst (walk utb w s rnd j) = Sampler TAKUM_INT64_FULL (parameters_nar w + Z.of_nat j / c) (nth_case cases (Z.of_nat j mod c)) (1 + Z.of_nat j) (2 ^ bits w * c)) /\
  (forall j, (j < T)%nat -> continues utb w (walk utb w s rnd j)).
Proof.
  intros reference f cases w rnd Nw D utb c Hc Hx s T HT. assert (c = Z.of_nat (length cases)) as Ec by reflexivity. clearbody c.
  apply (walk_inv utb w s rnd (fun j s _ => s = Sampler TAKUM_INT64_FULL (parameters_nar w + Z.of_nat j / c) (nth_case cases (Z.of_nat j mod c)) (1 + Z.of_nat j) (2 ^ bits w * c))).
  - unfold s. change (Z.of_nat 0) with 0. rewrite Z.div_0_l, Z.mod_0_l by lia. f_equal; lia.
  - intros j s' r Hj ->. cbn [sampler_next mode value_x value_y current_count target_count integer_test_cases_of]. unfold utb. cbn [integer_test_cases_of].
    pose proof (half w) as Hh.
    destruct (div_mod_next c (Z.of_nat j) ltac:(lia) ltac:(lia)) as [D1 D2]. pose proof (Z.mod_pos_bound (Z.of_nat j) c ltac:(lia)) as M.
    pose proof (Z.div_mod (Z.of_nat j) c ltac:(lia)) as E. assert (0 <= Z.of_nat j / c < 2 ^ bits w) as Q by (split; [apply Z.div_pos; lia|apply Z.div_lt_upper_bound; lia]).
    rewrite find_nth_case by (assumption || lia).
    destruct (Nat.eqb_spec (Z.to_nat (Z.of_nat j mod c)) (length cases)) as [E0|E0]; [lia|].
    destruct (Nat.eqb_spec (Z.to_nat (Z.of_nat j mod c)) (length cases - 1)) as [E1|E1].
    + destruct (D1 ltac:(lia)) as [D3 D4].
      destruct (Z.eqb_spec (parameters_nar w + Z.of_nat j / c) (parameters_positive_maximum w)) as [E2|E2]; unfold parameters_nar, parameters_positive_maximum in E2.
      { exfalso. assert (Z.of_nat j mod c = c - 1) as E3 by (lia). rewrite E3 in E. assert (Z.of_nat j / c = 2 ^ bits w - 1) as E4 by lia. rewrite E4 in E. nia. }
      rewrite lookup_case by (lia). cbn [bind].
      rewrite s_arith_ok by (apply (intn_64 w); unfold parameters_nar, is_intn; lia). cbn [bind]. eexists. exists 0%nat. split; [reflexivity|].
      rewrite plus_u64 by nia. rewrite nat_succ, D3, D4. f_equal; lia.
    + destruct (D2 ltac:(lia)) as [D3 D4]. rewrite Z2Nat.id by lia.
      rewrite lookup_case by (lia). cbn [bind]. eexists. exists 0%nat. split; [reflexivity|].
      rewrite plus_u64 by nia. rewrite nat_succ, D3, D4. f_equal; lia.
Qed.

(** ** Random takums *)
Definition orbit (w : Wrappers.width) (r : Z) (q : nat) : Z :=
  match q with O => 0 | S _ => to_s (bits w) (Nat.iter q (taps w) (to_u (bits w) r)) end.
Lemma next_orbit_any : forall w r r' q, to_u (bits w) r <> 0 -> (q = 0%nat -> r' = r) -> random_next r' (orbit w r q) w = Val (orbit w r (S q)).
Proof.
  intros w r r' q N H. assert (0 < to_u (bits w) r < 2 ^ bits w) as Hu by (pose proof (to_u_range w r); lia). destruct q as [|q].
  - rewrite (H eq_refl). cbn [orbit]. rewrite next_zero, (proj2 (Z.eqb_neq _ _) N).
    change (Nat.iter 1 (taps w) (to_u (bits w) r)) with (taps w (to_u (bits w) r)). rewrite next_taps.
    + rewrite to_u_to_s by apply bits_pos. reflexivity.
    + apply to_s_intn, bits_pos.
    + intros K. apply N. rewrite <- (to_u_to_s (bits w) r (bits_pos w)), K. destruct w; reflexivity.
  - apply next_orbit. assumption.
Qed.
Lemma orbit_inj : forall w r p q, to_u (bits w) r <> 0 -> Z.of_nat p < 2 ^ bits w -> Z.of_nat q < 2 ^ bits w -> orbit w r p = orbit w r q -> p = q.
Proof.
  intros w r p q N Hp Hq E. assert (0 < to_u (bits w) r < 2 ^ bits w) as Hu by (pose proof (to_u_range w r); lia).
  destruct p as [|p], q as [|q]; cbn [orbit] in E; [reflexivity| | |].
  - exfalso. symmetry in E. revert E. apply taps_nonzero. assumption.
  - exfalso. revert E. apply taps_nonzero. assumption.
  - destruct (taps_orbit w _ Hu) as (_ & I & _). f_equal.
    assert (taps w (Nat.iter p (taps w) (to_u (bits w) r)) = taps w (Nat.iter q (taps w) (to_u (bits w) r))) as K.
    { rewrite <- !iter_S. apply (to_s_inj w); [pose proof (taps_positive w _ (S p) Hu); lia|pose proof (taps_positive w _ (S q) Hu); lia|exact E]. }
    pose proof (period_value w) as P. apply I; [lia|lia|].
    destruct (Pos2Nat.is_succ (period w)) as [m Em].
    assert (forall u, 0 < u < 2 ^ bits w -> Nat.iter m (taps w) (taps w u) = u) as J by (intros u Hu'; rewrite iter_swap, <- iter_S, <- Em; apply (taps_orbit w u Hu')).
    rewrite <- (J (Nat.iter p (taps w) _)) by (apply taps_positive; assumption). rewrite K. apply J. apply taps_positive. assumption.
Qed.
Lemma orbit_period : forall w r q, to_u (bits w) r <> 0 -> (1 <= q)%nat -> forall p, Z.of_nat p = 2 ^ bits w - 1 -> orbit w r (q + p) = orbit w r q.
Proof.
  intros w r q N Hq p Hp. assert (0 < to_u (bits w) r < 2 ^ bits w) as Hu by (pose proof (to_u_range w r); lia).
  destruct q as [|q]; [lia|]. cbn [orbit Nat.add]. f_equal. rewrite <- Nat.add_succ_l, iter_plus. f_equal.
  pose proof (period_value w) as P. assert (p = Pos.to_nat (period w)) as -> by lia. apply (taps_orbit w _ Hu).
Qed.

Lemma unary_random : forall utb w rnd y max, 1 <= max <= 2 ^ 63 -> let s := Sampler TAKUM_RANDOM 0 y 1 max in
  forall T, Z.of_nat T + 1 = max ->
  (forall j, (j <= T)%nat -> exists x, fst (walk utb w s rnd j) = Sampler TAKUM_RANDOM x y (1 + Z.of_nat j) max /\ is_intn (bits w) x /\ (to_u (bits w) (rnd 0%nat) <> 0 -> x = orbit w (rnd 0%nat) j)) /\
  (forall j, (j < T)%nat -> continues utb w (walk utb w s rnd j)).
Proof.
  intros utb w rnd y max Hm s T HT.
  destruct (walk_inv utb w s rnd (fun j s r => exists x, s = Sampler TAKUM_RANDOM x y (1 + Z.of_nat j) max /\ is_intn (bits w) x /\ (to_u (bits w) (rnd 0%nat) <> 0 -> x = orbit w (rnd 0%nat) j) /\ (j = 0%nat -> r = rnd)) T) as [I1 I2].
  - exists 0. split; [unfold s; f_equal; lia|]. split; [apply zero_intn|]. split; reflexivity.
  - intros j s' r Hj (x & -> & Hx & Ho & Hr). cbn [sampler_next mode value_x value_y current_count target_count].
    destruct (Z.leb_spec max (1 + Z.of_nat j)); [lia|]. destruct (next_total w (r 0%nat) x Hx) as (u & E & Hu). rewrite E. cbn [bind]. eexists. eexists. split; [reflexivity|].
    exists u. split; [rewrite plus_u64 by lia; f_equal; lia|]. split; [assumption|]. split; [|discriminate].
    intros N. rewrite (Ho N), next_orbit_any in E; [injection E as <-; reflexivity|assumption|intros K; rewrite (Hr K); reflexivity].
  - split; [|exact I2]. intros j Hj. destruct (I1 j Hj) as (x & E & Hx & Ho & _). exists x. split; [exact E|]. split; assumption.
Qed.

Lemma binary_random : forall utb w rnd max, 1 <= max <= 2 ^ 63 -> let s := Sampler TAKUM_TAKUM_RANDOM 0 0 1 max in
  forall T, Z.of_nat T + 1 = max ->
  (forall j, (j <= T)%nat -> exists x y, fst (walk utb w s rnd j) = Sampler TAKUM_TAKUM_RANDOM x y (1 + Z.of_nat j) max /\ is_intn (bits w) x /\ is_intn (bits w) y /\
     (to_u (bits w) (rnd 0%nat) <> 0 -> x = orbit w (rnd 0%nat) j) /\ (to_u (bits w) (rnd 1%nat) <> 0 -> y = orbit w (rnd 1%nat) j)) /\
  (forall j, (j < T)%nat -> continues utb w (walk utb w s rnd j)).
Proof.
  intros utb w rnd max Hm s T HT.
  destruct (walk_inv utb w s rnd (fun j s r => exists x y, s = Sampler TAKUM_TAKUM_RANDOM x y (1 + Z.of_nat j) max /\ is_intn (bits w) x /\ is_intn (bits w) y /\
     (to_u (bits w) (rnd 0%nat) <> 0 -> x = orbit w (rnd 0%nat) j) /\ (to_u (bits w) (rnd 1%nat) <> 0 -> y = orbit w (rnd 1%nat) j) /\ (j = 0%nat -> x = 0 /\ r = rnd)) T) as [I1 I2].
  - exists 0, 0. split; [unfold s; f_equal; lia|]. split; [apply zero_intn|]. split; [apply zero_intn|]. split; [reflexivity|]. split; [reflexivity|]. intros _. split; reflexivity.
  - intros j s' r Hj (x & y & -> & Hx & Hy & Ho & Hp & Hr). cbn [sampler_next mode value_x value_y current_count target_count].
    destruct (Z.leb_spec max (1 + Z.of_nat j)); [lia|]. destruct (next_total w (r 0%nat) x Hx) as (u & E & Hu). rewrite E. cbn [bind].
    destruct (next_total w (r (rand_calls x w)) y Hy) as (v & F & Hv). rewrite F. cbn [bind]. eexists. eexists. split; [reflexivity|].
    exists u, v. split; [rewrite plus_u64 by lia; f_equal; lia|]. split; [assumption|]. split; [assumption|]. split; [|split; [|discriminate]].
    + intros N. rewrite (Ho N), next_orbit_any in E; [injection E as <-; reflexivity|assumption|intros K; rewrite (proj2 (Hr K)); reflexivity].
    + intros N. rewrite (Hp N), next_orbit_any in F; [injection F as <-; reflexivity|assumption|]. intros K. destruct (Hr K) as [-> ->]. destruct w; reflexivity.
  - split; [|exact I2]. intros j Hj. destruct (I1 j Hj) as (x & y & E & Hx & Hy & Ho & Hp & _). exists x, y. exact (conj E (conj Hx (conj Hy (conj Ho Hp)))).
Qed.

Lemma integer_random : forall reference f cases w rnd max, 1 <= max <= 2 ^ 63 -> NoDup cases -> let utb := TAKUM_INT64_TAKUM reference f cases in let c := Z.of_nat (length cases) in
  0 < c -> let s := Sampler TAKUM_INT64_RANDOM 0 (nth_case cases 0) 1 max in
  forall T, Z.of_nat T + 1 = max ->
  (forall j, (j <= T)%nat -> exists x, fst (walk utb w s rnd j) = Sampler TAKUM_INT64_RANDOM x (nth_case cases (Z.of_nat j mod c)) (1 + Z.of_nat j) max /\ is_intn (bits w) x /\
     (to_u (bits w) (rnd 0%nat) <> 0 -> x = orbit w (rnd 0%nat) (Z.to_nat (Z.of_nat j / c)))) /\
  (forall j, (j < T)%nat -> continues utb w (walk utb w s rnd j)).
Proof.
  intros reference f cases w rnd max Hm D utb c Hc s T HT. assert (c = Z.of_nat (length cases)) as Ec by reflexivity. clearbody c.
  destruct (walk_inv utb w s rnd (fun j s r => exists x, s = Sampler TAKUM_INT64_RANDOM x (nth_case cases (Z.of_nat j mod c)) (1 + Z.of_nat j) max /\ is_intn (bits w) x /\
     (to_u (bits w) (rnd 0%nat) <> 0 -> x = orbit w (rnd 0%nat) (Z.to_nat (Z.of_nat j / c))) /\ (Z.to_nat (Z.of_nat j / c) = 0%nat -> r 0%nat = rnd 0%nat)) T) as [I1 I2].
  - exists 0. change (Z.of_nat 0) with 0. rewrite Z.div_0_l, Z.mod_0_l by lia. split; [unfold s; f_equal; lia|]. split; [apply zero_intn|]. split; reflexivity.
  - intros j s' r Hj (x & -> & Hx & Ho & Hr). unfold utb. cbn [sampler_next mode value_x value_y current_count target_count integer_test_cases_of].
    destruct (Z.leb_spec max (1 + Z.of_nat j)); [lia|].
    destruct (div_mod_next c (Z.of_nat j) ltac:(lia) ltac:(lia)) as [D1 D2]. pose proof (Z.mod_pos_bound (Z.of_nat j) c ltac:(lia)) as M.
    assert (0 <= Z.of_nat j / c) as Q by (apply Z.div_pos; lia).
    rewrite find_nth_case by (assumption || lia).
    destruct (Nat.eqb_spec (Z.to_nat (Z.of_nat j mod c)) (length cases)) as [E0|E0]; [lia|].
    destruct (Nat.eqb_spec (Z.to_nat (Z.of_nat j mod c)) (length cases - 1)) as [E1|E1].
    + destruct (D1 ltac:(lia)) as [D3 D4]. rewrite lookup_case by (lia). cbn [bind].
      destruct (next_total w (r 0%nat) x Hx) as (u & E & Hu). rewrite E. cbn [bind]. eexists. eexists. split; [reflexivity|].
      exists u. rewrite nat_succ, D3, D4, Z2Nat.inj_add, Nat.add_1_r by lia. split; [rewrite plus_u64 by lia; f_equal; lia|]. split; [assumption|]. split; [|discriminate].
      intros N. rewrite (Ho N), next_orbit_any in E; [injection E as <-; reflexivity|assumption|intros K; rewrite (Hr K); reflexivity].
    + destruct (D2 ltac:(lia)) as [D3 D4]. rewrite Z2Nat.id by lia. rewrite lookup_case by (lia). cbn [bind]. eexists. exists 0%nat. split; [reflexivity|].
      exists x. rewrite nat_succ, D3, D4. split; [rewrite plus_u64 by lia; f_equal; lia|]. split; [assumption|]. split; assumption.
  - split; [|exact I2]. intros j Hj. destruct (I1 j Hj) as (x & E & Hx & Ho & _). exists x. split; [exact E|]. split; assumption.
Qed.
