(** Proofs of the properties of the code order, negation and the width
    conversions (C03 - C07). *)
From Coq Require Import ZArith Reals Bool Lia Lra.
From Flocq Require Import Core.Core.
From Verif Require Import CModel WidthConv Spec CodeFacts SpecFacts ValueFacts RoundFacts WidthFacts WidthApi.
Local Open Scope Z_scope.

Lemma widening_inv : forall k A B f, widening k A B f ->
  std_width A /\ std_width B /\ A < B /\ f = convert_expand A B.
Proof. intros k A B f []; unfold std_width; repeat split; auto; lia. Qed.

Lemma narrowing_inv : forall k A B f, narrowing k A B f ->
  std_width A /\ std_width B /\ B < A /\ f = convert_reduce A B.
Proof. intros k A B f []; unfold std_width; repeat split; auto; lia. Qed.

Lemma std_range : forall n, std_width n -> 8 <= n <= 64.
Proof. unfold std_width. lia. Qed.

Lemma reduce_special : forall A B, std_width A -> std_width B -> B < A ->
  convert_reduce A B 0 = Val 0 /\ convert_reduce A B (nar A) = Val (nar B).
Proof.
  intros A B HA HB H.
  destruct HA as [-> |[-> |[-> | ->]]]; destruct HB as [-> |[-> |[-> | ->]]]; try lia; split; vm_compute; reflexivity.
Qed.

Lemma sg_nonzero : forall (s : bool) k L, ((if s then -1 else 1) * E k L <> 0)%R.
Proof. intros s k L. pose proof (E_pos k L). destruct s; lra. Qed.

Lemma sg_Rlt_bool : forall (s : bool) k L, Rlt_bool ((if s then -1 else 1) * E k L) 0 = s.
Proof.
  intros s k L. pose proof (E_pos k L). destruct s.
  - apply Rlt_bool_true. lra.
  - apply Rlt_bool_false. lra.
Qed.

Lemma coord_sg : forall (s : bool) k L, coord k ((if s then -1 else 1) * E k L) = L.
Proof.
  intros s k L. destruct s.
  - replace (-1 * E k L)%R with (- E k L)%R by ring. rewrite coord_opp. apply coord_E.
  - rewrite Rmult_1_l. apply coord_E.
Qed.

Lemma rounds_sg : forall k n (s : bool) L t,
  nearest n s L t -> rounds k n ((if s then -1 else 1) * E k L) t.
Proof.
  intros k n s L t H. right. split; [apply sg_nonzero|]. rewrite sg_Rlt_bool, coord_sg. assumption.
Qed.

Lemma rounds_sg_inv : forall k n (s : bool) L t,
  rounds k n ((if s then -1 else 1) * E k L) t -> nearest n s L t.
Proof.
  intros k n s L t [[H _]|[_ H]]; [destruct (sg_nonzero _ _ _ H)|].
  rewrite sg_Rlt_bool, coord_sg in H. assumption.
Qed.

(** every nonzero real is sign times E of its coordinate *)
Lemma real_sg : forall k x, (x <> 0)%R -> x = ((if Rlt_bool x 0 then -1 else 1) * E k (coord k x))%R.
Proof.
  intros k x Hx. rewrite E_coord by assumption. destruct (Rlt_bool_spec x 0).
  - rewrite Rabs_left by assumption. lra.
  - rewrite Rabs_pos_eq by assumption. lra.
Qed.

Lemma rounds_unique : forall k n x t t', 6 <= n <= 64 -> rounds k n x t -> rounds k n x t' -> t = t'.
Proof.
  intros k n x t t' Hn [[H ->]|[H H']] [[K ->]|[K K']]; try congruence; try tauto.
  eapply nearest_unique; eassumption.
Qed.

Lemma nearest_self : forall n t, 6 <= n <= 64 -> is_real_takum n t -> nearest n (t <? 0) (l_ n t) t.
Proof.
  intros n t Hn Hr. split; [assumption|]. split.
  { destruct Hr as (_ & H & _). unfold has_sign. destruct (Z.ltb_spec t 0); lia. }
  intros t' Hr' Hs. replace (l_ n t - l_ n t)%R with 0%R by ring. rewrite Rabs_R0.
  split; [apply Rabs_pos|]. intros K. left.
  symmetry in K. destruct (Req_dec (l_ n t' - l_ n t) 0) as [K'|K'].
  - apply (l_inj n ltac:(lia)); auto; [|lra]. apply has_sign_ltb in Hs. assumption.
  - apply Rabs_no_R0 in K'. contradiction.
Qed.

Lemma reduce_real : forall A B t, std_width A -> std_width B -> B < A -> is_real_takum A t ->
  exists t', convert_reduce A B t = Val t' /\ nearest B (t <? 0) (l_ A t) t' /\
     t' = asm B (t <? 0) (enc B (cpm A (low A t))).
Proof.
  intros A B t HA HB H Hr. pose proof (std_range _ HA). pose proof (std_range _ HB).
  rewrite (reduce_eq A B t HA HB H Hr). eexists. split; [reflexivity|]. split; [|reflexivity].
  rewrite (l_cpm A ltac:(lia) t Hr).
  assert (forall x, ((if t <? 0 then -1 else 1) * ((if t <? 0 then -1 else 1) * x) = x)%R) as Es.
  { intros x. destruct (t <? 0); ring. }
  rewrite <- (Es (cpm A (low A t))) at 2. apply enc_nearest. lia.
Qed.

(** C03 *)
Theorem order_numeric : forall k n t t' x x', std_width n -> is_intn n t -> is_intn n t' ->
  value k n t = Some x -> value k n t' = Some x' -> (t < t' <-> (x < x')%R).
Proof. intros k n t t' x x' Hn. pose proof (std_range _ Hn). apply value_lt. lia. Qed.

Theorem order_nar_least : forall k n t, std_width n -> is_intn n t ->
  (value k n t = None <-> t = nar n) /\ nar n <= t.
Proof.
  intros k n t Hn Ht. pose proof (std_range _ Hn). split.
  - split; intros V.
    + destruct (takum_cases n t Ht) as [->|[->|Hr]]; auto.
      * rewrite value_0 in V. discriminate.
      * rewrite (value_real n) in V by (assumption || lia). discriminate.
    + subst. apply value_nar. lia.
  - apply Ht.
Qed.

Theorem value_injective : forall k n t t', std_width n -> is_intn n t -> is_intn n t' ->
  value k n t = value k n t' -> t = t'.
Proof.
  intros k n t t' Hn Ht Ht' V. pose proof (std_range _ Hn).
  destruct (value k n t) as [x|] eqn:E1.
  - symmetry in V. destruct (Z.lt_trichotomy t t') as [K|[K|K]]; auto.
    + apply (value_lt n ltac:(lia) k t t' x x) in K; auto. lra.
    + apply (value_lt n ltac:(lia) k t' t x x) in K; auto. lra.
  - symmetry in V. apply order_nar_least in E1; auto. apply order_nar_least in V; auto. congruence.
Qed.

(** C04 *)
Theorem negation_negates : forall k n t, std_width n -> is_intn n t -> t <> nar n ->
  is_intn n (- t) /\ - t <> nar n /\
  exists x, value k n t = Some x /\ value k n (- t) = Some (- x)%R.
Proof.
  intros k n t Hn Ht HN. pose proof (std_range _ Hn).
  split; [unfold is_intn, nar in *; lia|]. split.
  { unfold is_intn, nar in *. lia. }
  destruct (value k n t) as [x|] eqn:V.
  - exists x. split; auto. apply value_neg; auto. lia.
  - apply order_nar_least in V; auto. contradiction.
Qed.

(** C05 *)
Theorem widening_lossless : forall k A B f t, widening k A B f -> is_intn A t ->
  exists t', f t = Val t' /\ is_intn B t' /\ value k B t' = value k A t.
Proof.
  intros k A B f t Hf Ht. apply widening_inv in Hf as (HA & HB & HAB & ->).
  destruct (expand_eq A B t HA HB HAB Ht) as [E1 E2].
  pose proof (std_range _ HA). pose proof (std_range _ HB).
  exists (t * 2 ^ (B - A)). repeat split; auto; try apply E2. apply value_mul; auto; lia.
Qed.

Theorem widening_order : forall k A B f t1 t2 u1 u2, widening k A B f -> is_intn A t1 -> is_intn A t2 ->
  f t1 = Val u1 -> f t2 = Val u2 -> (t1 < t2 <-> u1 < u2).
Proof.
  intros k A B f t1 t2 u1 u2 Hf H1 H2 E1 E2. apply widening_inv in Hf as (HA & HB & HAB & ->).
  destruct (expand_eq A B t1 HA HB HAB H1) as [F1 _]. destruct (expand_eq A B t2 HA HB HAB H2) as [F2 _].
  rewrite F1 in E1. rewrite F2 in E2. inversion E1. inversion E2.
  pose proof (std_range _ HA). pose proof (pow2_pos (B - A) ltac:(lia)). nia.
Qed.

(** C06 *)
Theorem narrowing_rounds : forall k A B f t, narrowing k A B f -> is_intn A t ->
  exists t', f t = Val t' /\ is_intn B t' /\
    match value k A t with
    | None => t' = nar B
    | Some x => rounds k B x t'
    end.
Proof.
  intros k A B f t Hf Ht. apply narrowing_inv in Hf as (HA & HB & HAB & ->).
  pose proof (std_range _ HA). pose proof (std_range _ HB).
  destruct (reduce_special A B HA HB HAB) as [R0 RN].
  pose proof (pow2_pos (B - 1) ltac:(lia)).
  destruct (takum_cases A t Ht) as [->|[->|Hr]].
  - exists 0. rewrite value_0. repeat split; auto; unfold is_intn; try lia. left; auto.
  - exists (nar B). rewrite value_nar by lia. repeat split; auto; unfold is_intn, nar; lia.
  - destruct (reduce_real A B t HA HB HAB Hr) as (t' & E1 & N & _).
    exists t'. split; [assumption|]. split; [apply N|].
    rewrite (value_real A) by (assumption || lia). apply rounds_sg. assumption.
Qed.

(** C07 *)
Theorem narrow_widen_id : forall k A B w f t, widening k A B w -> narrowing k B A f -> is_intn A t ->
  exists t', w t = Val t' /\ f t' = Val t.
Proof.
  intros k A B w f t Hw Hf Ht.
  destruct (widening_lossless k A B w t Hw Ht) as (t' & E1 & Ht' & V).
  exists t'. split; [assumption|].
  destruct (narrowing_rounds k B A f t' Hf Ht') as (t'' & E2 & Ht'' & R).
  rewrite E2. f_equal. apply widening_inv in Hw as (HA & HB & HAB & _).
  pose proof (std_range _ HA).
  destruct (takum_cases A t Ht) as [->|[->|Hr]].
  - rewrite V, value_0 in R. destruct R as [[_ R]|[R _]]; [assumption|congruence].
  - rewrite V, value_nar in R by lia. assumption.
  - rewrite V, (value_real A) in R by (assumption || lia). apply rounds_sg_inv in R.
    eapply nearest_unique; [|exact R|]; [lia|].
    apply nearest_self; assumption || lia.
Qed.

Theorem narrowing_mono : forall k A B f t1 t2 u1 u2, narrowing k A B f -> is_intn A t1 -> is_intn A t2 ->
  f t1 = Val u1 -> f t2 = Val u2 -> t1 <= t2 -> u1 <= u2.
Proof.
  intros k A B f t1 t2 u1 u2 Hf H1 H2 E1 E2 Hle.
  apply narrowing_inv in Hf as (HA & HB & HAB & ->).
  pose proof (std_range _ HA). pose proof (std_range _ HB).
  destruct (reduce_special A B HA HB HAB) as [R0 RN].
  assert (forall t u, is_real_takum A t -> convert_reduce A B t = Val u ->
     u = asm B (t <? 0) (enc B (cpm A (low A t))) /\ 0 < enc B (cpm A (low A t)) < 2 ^ (B - 1)) as HR.
  { intros t u Hr Eu. destruct (reduce_real A B t HA HB HAB Hr) as (u' & E' & _ & Ea).
    split; [congruence|]. apply enc_range. lia. }
  pose proof (pow2_pos (A - 1) ltac:(lia)). pose proof (pow2_pos (B - 1) ltac:(lia)).
  destruct (takum_cases A t1 H1) as [->|[->|Hr1]]; destruct (takum_cases A t2 H2) as [->|[->|Hr2]];
    rewrite ?R0, ?RN in *; try (unfold is_intn, nar in *; lia);
    try (injection E1 as <-); try (injection E2 as <-); try (unfold is_intn, nar in *; lia).
  - destruct (HR _ _ Hr2 E2) as [-> B2]. unfold asm.
    pose proof Hr2 as (_ & N & _). destruct (Z.ltb_spec t2 0); lia.
  - destruct (HR _ _ Hr2 E2) as [-> B2]. unfold asm, nar. destruct (t2 <? 0); lia.
  - destruct (HR _ _ Hr1 E1) as [-> B1]. unfold asm.
    pose proof Hr1 as (_ & N & _). destruct (Z.ltb_spec t1 0); lia.
  - destruct Hr1 as (I & _ & N). unfold is_intn, nar in *. lia.
  - destruct (HR _ _ Hr1 E1) as [-> B1]. destruct (HR _ _ Hr2 E2) as [-> B2].
    assert (low A t1 <= low A t2 \/ (t1 < 0 <= t2)) as Hl.
    { rewrite !low_cases by (assumption || lia). destruct (Z.ltb_spec t1 0); destruct (Z.ltb_spec t2 0); lia. }
    unfold asm. destruct (Z.ltb_spec t1 0); destruct (Z.ltb_spec t2 0); try lia.
    + assert (enc B (cpm A (low A t1)) <= enc B (cpm A (low A t2))); [|lia].
      apply enc_mono; [lia|]. pose proof (real_low_pos A t1 ltac:(lia) Hr1).
      pose proof (real_low_pos A t2 ltac:(lia) Hr2). apply cpm_le; lia.
    + assert (enc B (cpm A (low A t1)) <= enc B (cpm A (low A t2))); [|lia].
      apply enc_mono; [lia|]. pose proof (real_low_pos A t1 ltac:(lia) Hr1).
      pose proof (real_low_pos A t2 ltac:(lia) Hr2). apply cpm_le; lia.
Qed.

Theorem narrowing_odd : forall k A B f t u, narrowing k A B f -> is_intn A t -> t <> nar A ->
  f t = Val u -> f (- t) = Val (- u).
Proof.
  intros k A B f t u Hf Ht HN Eu.
  apply narrowing_inv in Hf as (HA & HB & HAB & ->).
  pose proof (std_range _ HA). pose proof (std_range _ HB).
  destruct (reduce_special A B HA HB HAB) as [R0 RN].
  destruct (takum_cases A t Ht) as [->|[->|Hr]]; [|contradiction|].
  - simpl. rewrite R0 in *. injection Eu as <-. reflexivity.
  - assert (is_real_takum A (- t)) as Hr' by (apply neg_real; assumption || lia).
    destruct (reduce_real A B t HA HB HAB Hr) as (u' & E' & _ & Ea). rewrite E' in Eu. injection Eu as <-.
    rewrite (reduce_eq A B (- t) HA HB HAB Hr'). f_equal. rewrite Ea.
    pose proof (real_low_pos A t ltac:(lia) Hr) as Hu.
    assert (low A (- t) = 2 ^ (A - 1) - low A t) as El.
    { destruct Hr' as (I' & _ & _). rewrite !low_cases by (assumption || lia).
      destruct Hr as (_ & N & _). destruct (Z.ltb_spec t 0); destruct (Z.ltb_spec (- t) 0); lia. }
    rewrite El, cpm_opp, enc_opp by lia.
    destruct Hr as (_ & N & _). unfold asm. destruct (Z.ltb_spec t 0); destruct (Z.ltb_spec (- t) 0); lia.
Qed.
