(** Changing the width in two steps. *)
From Coq Require Import ZArith Reals Bool Lia Lra.
From Flocq Require Import Core.Core.
From Verif Require Import CModel WidthConv Spec CodeFacts SpecFacts ValueFacts RoundFacts WidthFacts WidthApi WidthProps Faithful RangeFacts.
Local Open Scope R_scope.

Lemma rounds_faithful : forall k n x t, std_width n -> rounds k n x t -> rounds_faithfully k n x t.
Proof.
  intros k n x t Sw [H|[N H]]; [left; assumption|right; split; [assumption|]]. pose proof (std_range n Sw).
  apply (near_faithful0 n _ _ (coord k x)); [lia| |assumption]. rewrite Rminus_eq_0, Rabs_R0. apply bpow_gt_0.
Qed.
Lemma rounds_self : forall k n t x, std_width n -> is_intn n t -> value k n t = Some x -> rounds k n x t.
Proof.
  intros k n t x Sw It V. pose proof (std_range n Sw) as Hn. destruct (takum_cases n t It) as [->|[->|Hr]].
  - rewrite value_0 in V. left. split; congruence.
  - rewrite value_nar in V by lia. discriminate.
  - rewrite (value_real n) in V by (assumption || lia). assert (x = (if (t <? 0)%Z then -1 else 1) * E k (l_ n t)) as -> by congruence. apply rounds_sg. apply nearest_self; [lia|assumption].
Qed.

Theorem widen_twice : forall k A B C f g h t, widening k A B f -> widening k B C g -> widening k A C h -> is_intn A t ->
  exists u, f t = Val u /\ g u = h t.
Proof.
  intros k A B C f g h t Hf Hg Hh It. destruct (widening_lossless k A B f t Hf It) as (u & E & Iu & V). exists u. split; [assumption|].
  destruct (widening_lossless k B C g u Hg Iu) as (v & E1 & Iv & V1). destruct (widening_lossless k A C h t Hh It) as (v' & E2 & Iv' & V2). rewrite E1, E2. f_equal.
  apply widening_inv in Hh as (_ & Sw & _). apply (value_injective k C); try assumption. congruence.
Qed.
Theorem widen_then_narrow : forall k A B C f g h t, widening k A B f -> widening k A C h -> narrowing k C B g -> is_intn A t ->
  exists u, h t = Val u /\ g u = f t.
Proof.
  intros k A B C f g h t Hf Hh Hg It. destruct (widening_lossless k A C h t Hh It) as (u & E & Iu & V). exists u. split; [assumption|].
  destruct (widening_lossless k A B f t Hf It) as (v & E1 & Iv & V1). destruct (narrowing_rounds k C B g u Hg Iu) as (v' & E2 & Iv' & R). rewrite E1, E2. f_equal.
  apply narrowing_inv in Hg as (_ & Sw & _). pose proof (std_range B Sw). rewrite V, <- V1 in R. destruct (value k B v) as [x|] eqn:Vx.
  - apply (rounds_unique k B x); [lia|assumption|]. apply rounds_self; assumption.
  - apply order_nar_least in Vx; [congruence|assumption|assumption].
Qed.
(** no takum of the narrowest width is crossed *)
Lemma two_steps_le : forall k B C x u y v z a b, std_width B -> std_width C -> (C < B)%Z -> rounds k B x u -> value k B u = Some y -> rounds k C y v -> value k C v = Some z ->
  is_intn C a -> value k C a = Some b -> (x <= b -> z <= b) /\ (b <= x -> b <= z).
Proof.
  intros k B C x u y v z a b SB SC L R1 Vy R2 Vz Ia Va. pose proof (std_range B SB). pose proof (std_range C SC).
  assert (is_intn B (a * 2 ^ (B - C)) /\ value k B (a * 2 ^ (B - C)) = Some b) as [IB VB].
  { destruct (expand_eq C B a SC SB L Ia) as [_ I]. split; [apply I|]. rewrite value_mul; try assumption; lia. }
  apply rounds_faithful in R1; [|assumption]. apply rounds_faithful in R2; [|assumption]. split; intros H'.
  - apply (faithful_le k C y v z a b SC R2 Vz Ia Va). apply (faithful_le k B x u y _ b SB R1 Vy IB VB H').
  - apply (faithful_ge k C y v z a b SC R2 Vz Ia Va). apply (faithful_ge k B x u y _ b SB R1 Vy IB VB H').
Qed.
Theorem narrow_twice_near : forall k A B C f g h t, narrowing k A B f -> narrowing k B C g -> narrowing k A C h -> is_intn A t ->
  exists u v v', f t = Val u /\ g u = Val v /\ h t = Val v' /\ (Z.abs (v - v') <= 1)%Z.
Proof.
  intros k A B C f g h t Hf Hg Hh It. destruct (narrowing_rounds k A B f t Hf It) as (u & E & Iu & R). destruct (narrowing_rounds k B C g u Hg Iu) as (v & E1 & Iv & R1).
  destruct (narrowing_rounds k A C h t Hh It) as (v' & E2 & Iv' & R2). exists u, v, v'. split; [assumption|]. split; [assumption|]. split; [assumption|].
  apply narrowing_inv in Hf as (_ & SB & _). apply narrowing_inv in Hg as (_ & SC & L & _). pose proof (std_range B SB). pose proof (std_range C SC).
  destruct (value k A t) as [x|]; [|subst u v'; rewrite value_nar in R1 by lia; subst v; lia].
  pose proof (rounds_faithful k B x u SB R) as F. destruct (faithful_value _ _ _ _ SB F) as (_ & y & Vy & _). rewrite Vy in R1.
  pose proof (rounds_faithful k C y v SC R1) as F1. destruct (faithful_value _ _ _ _ SC F1) as (_ & z & Vz & _).
  pose proof (rounds_faithful k C x v' SC R2) as F2. destruct (faithful_value _ _ _ _ SC F2) as (_ & z' & Vz' & _).
  assert (forall a, is_intn C a -> a <> nar C -> exists b, value k C a = Some b) as K.
  { intros a Ia Na. destruct (value k C a) as [b|] eqn:Eb; [exists b; reflexivity|]. apply order_nar_least in Eb; try assumption. contradiction. }
  assert (v <> nar C /\ v' <> nar C) as [N1 N2] by (split; intros ->; rewrite value_nar in * by lia; discriminate).
  assert (forall p q, is_intn C p -> is_intn C q -> (p + 1 < q)%Z -> is_intn C (p + 1) /\ (p + 1 <> nar C)%Z) as B1 by (unfold is_intn, nar; intros; lia).
  destruct (Z_le_gt_dec (Z.abs (v - v')) 1) as [|Q]; [assumption|exfalso].
  assert (v + 1 < v' \/ v' + 1 < v)%Z as [Q1|Q1] by lia.
  - destruct (B1 v v' Iv Iv' Q1) as [Ia Na]. destruct (K _ Ia Na) as (b & Vb). destruct (two_steps_le k B C x u y v z _ b SB SC L R Vy R1 Vz Ia Vb) as [T1 T2].
    assert (z < b) as Z1 by (apply (order_numeric k C v (v + 1) z b SC Iv Ia Vz Vb); lia). assert (b < z') as Z2 by (apply (order_numeric k C (v + 1) v' b z' SC Ia Iv' Vb Vz'); lia).
    destruct (Rle_lt_dec x b) as [H'|H']; [pose proof (faithful_le k C x v' z' _ b SC F2 Vz' Ia Vb H'); lra|specialize (T2 ltac:(lra)); lra].
  - destruct (B1 v' v Iv' Iv Q1) as [Ia Na]. destruct (K _ Ia Na) as (b & Vb). destruct (two_steps_le k B C x u y v z _ b SB SC L R Vy R1 Vz Ia Vb) as [T1 T2].
    assert (z' < b) as Z1 by (apply (order_numeric k C v' (v' + 1) z' b SC Iv' Ia Vz' Vb); lia). assert (b < z) as Z2 by (apply (order_numeric k C (v' + 1) v b z SC Ia Iv Vb Vz); lia).
    destruct (Rle_lt_dec x b) as [H'|H']; [specialize (T1 H'); lra|pose proof (faithful_ge k C x v' z' _ b SC F2 Vz' Ia Vb ltac:(lra)); lra].
Qed.
