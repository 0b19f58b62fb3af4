(** A quotient is one exactly if the operands are equal (C118, C119). *)
From Coq Require Import ZArith Reals Bool Lia Lra.
From Flocq Require Import Core.Core.
From Verif Require Import CModel FloatModel Spec CodeFacts SpecFacts ValueFacts RoundFacts LogApi LogProps LinApi LinOps LinArith LinArithRefute LinAlgebra MiscProps WidthFacts WidthProps WidthSteps RangeFacts Wrappers Exactly Sterbenz ErrorProps.
Local Open Scope R_scope.

Definition step (n : Z) : R := bpow radix2 (- (n - 5)).
Lemma step_range : forall n, (8 <= n)%Z -> 0 < step n <= / 8.
Proof. intros n Hn. split; [apply bpow_gt_0|]. unfold step. change (/ 8) with (bpow radix2 (-3)). apply bpow_le. lia. Qed.
Lemma l_multiple : forall n t, (8 <= n <= 64)%Z -> is_real_takum n t -> exists j, l_ n t = IZR j * step n.
Proof.
  intros n t Hn R. destruct (l_regime n t ltac:(lia) R) as (j & p & Bp & E). pose proof (floor_l n t ltac:(lia) R) as F. destruct (regc_bound _ F) as [B _]. unfold regc in B.
  exists (j * 2 ^ (n - 5 - p))%Z. rewrite E, mult_IZR, IZR_pow2 by lia. unfold step. rewrite Rmult_assoc, <- bpow_plus. do 2 f_equal. lia.
Qed.
Lemma gap : forall n a b, (8 <= n <= 64)%Z -> is_real_takum n a -> is_real_takum n b -> l_ n a < l_ n b -> l_ n a + step n <= l_ n b.
Proof.
  intros n a b Hn Ra Rb L. destruct (l_multiple n a Hn Ra) as [i Ei]. destruct (l_multiple n b Hn Rb) as [j Ej]. rewrite Ei, Ej in *. pose proof (step_range n ltac:(lia)) as S.
  assert (i < j)%Z by (apply lt_IZR; nra). assert (IZR (i + 1) <= IZR j) as K by (apply IZR_le; lia). rewrite plus_IZR in K. nra.
Qed.
Lemma neighbours : forall k n, std_width n -> has_takum k n (E k (step n)) /\ has_takum k n (E k (- step n)).
Proof.
  intros k n Sw. pose proof (std_range n Sw) as Hn. pose proof (step_range n ltac:(lia)) as S.
  assert (Zfloor (step n) = 0%Z) as F0 by (apply Zfloor_imp; simpl; lra). assert (Zfloor (- step n) = (-1)%Z) as F1 by (apply Zfloor_imp; simpl; lra).
  split; (apply rep_value; [assumption|pose proof (E_pos k (step n)); pose proof (E_pos k (- step n)); lra|]); rewrite coord_E.
  - apply (rep_regime n _ 1 (n - 5)); [lia|lra| |unfold step; lra]. rewrite F0. change (regZ (DRof 0)) with (regc 0). change (regc 0) with 0%Z. lia.
  - apply (rep_regime n _ (-1) (n - 5)); [lia|lra| |unfold step; lra]. rewrite F1. change (regZ (DRof (-1))) with (regc (-1)). change (regc (-1)) with 0%Z. lia.
Qed.
Lemma Lin_0 : Lin 0 = 1.
Proof. rewrite (Lin_binade 0 0) by lra. change (bpow radix2 0) with 1. lra. Qed.
(** quotients of linear takums *)
Lemma Lin_step : forall n a, (8 <= n <= 64)%Z -> is_real_takum n a -> let h := Zfloor (l_ n a) in
  Lin (l_ n a + step n) = Lin (l_ n a) + bpow radix2 h * step n /\ Lin (l_ n a + step n) <= 2 * bpow radix2 h /\ Lin (l_ n a) < 2 * bpow radix2 h /\ bpow radix2 h <= Lin (l_ n a).
Proof.
  intros n a Hn Ra h. destruct (l_multiple n a Hn Ra) as [j Ej]. pose proof (Zfloor_lb (l_ n a)) as F1. pose proof (Zfloor_ub (l_ n a)) as F2. fold h in F1, F2. pose proof (step_range n ltac:(lia)) as S.
  assert (l_ n a + step n <= IZR h + 1) as U.
  { assert (IZR h + 1 = IZR ((h + 1) * 2 ^ (n - 5)) * step n) as Eh by (rewrite mult_IZR, IZR_pow2 by lia; unfold step; rewrite Rmult_assoc, <- bpow_plus; replace (n - 5 + - (n - 5))%Z with 0%Z by lia; rewrite plus_IZR; simpl; ring).
    rewrite Ej in *. rewrite Eh in *. assert (j < (h + 1) * 2 ^ (n - 5))%Z by (apply lt_IZR; nra).
    assert (IZR (j + 1) <= IZR ((h + 1) * 2 ^ (n - 5))) as K by (apply IZR_le; lia). rewrite plus_IZR in K. nra. }
  rewrite (Lin_binade h (l_ n a)), (Lin_binade h (l_ n a + step n)) by lra. pose proof (bpow_gt_0 radix2 h). split; [ring|]. split; [nra|]. split; nra.
Qed.
Lemma ratio_below : forall n a b, std_width n -> is_real_takum n a -> is_real_takum n b -> l_ n a < l_ n b -> Lin (l_ n a) / Lin (l_ n b) <= Lin (- step n) /\ Lin (- step n) < 1 /\ 1 + step n / 2 < Lin (l_ n b) / Lin (l_ n a).
Proof.
  intros n a b Sw Ra Rb L. pose proof (std_range n Sw) as Hn. pose proof (step_range n ltac:(lia)) as S. pose proof (gap n a b Hn Ra Rb L) as G. destruct (Lin_step n a Hn Ra) as (E1 & B1 & B2 & B3). cbv zeta in *.
  set (h := Zfloor (l_ n a)) in *. pose proof (bpow_gt_0 radix2 h) as P. pose proof (Lin_le _ _ G) as M. set (p := bpow radix2 h) in *. clearbody p.
  assert (Lin (- step n) = 1 - step n / 2) as Em by (rewrite (Lin_binade (-1) (- step n)) by (simpl; lra); change (bpow radix2 (-1)) with (/ 2); simpl; lra). rewrite Em.
  set (x := Lin (l_ n a)) in *. set (y := Lin (l_ n b)) in *. set (d := step n) in *. clearbody x y d. assert (0 < p * d) by (apply Rmult_lt_0_compat; lra). split; [|split; [lra|]].
  - apply (Rmult_le_reg_r y); [lra|]. unfold Rdiv. rewrite Rmult_assoc, Rinv_l, Rmult_1_r by lra.
    assert ((x + p * d) * d <= 2 * p * d) by (apply Rmult_le_compat_r; lra). assert ((x + p * d) * (1 - d / 2) <= y * (1 - d / 2)) by (apply Rmult_le_compat_r; lra). lra.
  - apply (Rmult_lt_reg_r x); [lra|]. replace (y / x * x) with y by (field; lra). assert (x * d < 2 * p * d) by (apply Rmult_lt_compat_r; lra). lra.
Qed.
Lemma signed_value : forall k n t, std_width n -> is_real_takum n t -> value k n t = Some ((if (t <? 0)%Z then -1 else 1) * E k (l_ n t)) /\ (if (t <? 0)%Z then -1 else 1) * E k (l_ n t) <> 0.
Proof.
  intros k n t Sw R. pose proof (std_range n Sw) as Hn. rewrite (value_real n) by (assumption || lia). split; [reflexivity|]. pose proof (E_pos k (l_ n t)). destruct (t <? 0)%Z; lra.
Qed.
Lemma quotient_same_sign : forall k n a b, (a <? 0)%Z = (b <? 0)%Z ->
  ((if (a <? 0)%Z then -1 else 1) * E k (l_ n a)) / ((if (b <? 0)%Z then -1 else 1) * E k (l_ n b)) = E k (l_ n a) / E k (l_ n b).
Proof. intros k n a b ->. pose proof (E_pos k (l_ n b)). destruct (b <? 0)%Z; field; lra. Qed.
Lemma quotient_other_sign : forall k n a b, (a <? 0)%Z <> (b <? 0)%Z ->
  ((if (a <? 0)%Z then -1 else 1) * E k (l_ n a)) / ((if (b <? 0)%Z then -1 else 1) * E k (l_ n b)) < 0.
Proof.
  intros k n a b N. pose proof (E_pos k (l_ n b)) as Pb. pose proof (E_pos k (l_ n a)) as Pa. assert (0 < E k (l_ n a) / E k (l_ n b)) as P by (apply Rdiv_lt_0_compat; assumption).
  destruct (a <? 0)%Z, (b <? 0)%Z; try congruence.
  - replace (-1 * E k (l_ n a) / (1 * E k (l_ n b))) with (- (E k (l_ n a) / E k (l_ n b))) by (field; lra). lra.
  - replace (1 * E k (l_ n a) / (-1 * E k (l_ n b))) with (- (E k (l_ n a) / E k (l_ n b))) by (field; lra). lra.
Qed.
Lemma value_one_ : forall (k : kind) n, std_width n -> value k n (2 ^ (n - 2)) = Some 1 /\ is_intn n (2 ^ (n - 2)).
Proof. exact value_one_k. Qed.
Lemma different_l : forall (k : kind) n a b, std_width n -> is_real_takum n a -> is_real_takum n b -> (a <? 0)%Z = (b <? 0)%Z -> a <> b -> l_ n a <> l_ n b.
Proof.
  intros k n a b Sw Ra Rb S N EQ. apply N. apply (value_injective k n a b Sw (proj1 Ra) (proj1 Rb)). destruct (signed_value k n a Sw Ra) as [-> _]. destruct (signed_value k n b Sw Rb) as [-> _]. rewrite S, EQ. reflexivity.
Qed.
(** a faithful quotient that is not one *)
Lemma not_one : forall k n z t, std_width n -> rounds_faithfully k n z t -> z < 0 \/ (exists v, has_takum k n v /\ ((v <= z /\ 1 < v) \/ (z <= v /\ v < 1))) -> t <> (2 ^ (n - 2))%Z.
Proof.
  intros k n z t Sw F H ->. destruct (value_one_ k n Sw) as [V1 I1]. destruct (faithful_value k n z _ Sw F) as (_ & y & Vy & _ & S2 & _). assert (y = 1) as -> by congruence.
  destruct H as [H|(v & (u & Iu & Vu) & [[H1 H2]|[H1 H2]])].
  - specialize (S2 H). lra.
  - pose proof (faithful_ge k n z _ 1 u v Sw F Vy Iu Vu H1). lra.
  - pose proof (faithful_le k n z _ 1 u v Sw F Vy Iu Vu H1). lra.
Qed.
Lemma log_quotient_one : forall n f a b, log_division n f -> is_real_takum n a -> is_real_takum n b -> (f a b = Val (2 ^ (n - 2))%Z <-> a = b).
Proof.
  intros n f a b H Ra Rb. split; [|intros <-; apply div_self; assumption]. intros Q. destruct (Z.eq_dec a b) as [|N]; [assumption|exfalso].
  assert (std_width n) as Sw by (destruct H; unfold std_width; tauto). pose proof (std_range n Sw) as Hn. pose proof (step_range n ltac:(lia)) as S.
  destruct (signed_value Logarithmic n a Sw Ra) as [Va _]. destruct (signed_value Logarithmic n b Sw Rb) as [Vb Nb].
  destruct (div_faithful n f a b H (proj1 Ra) (proj1 Rb)) as (t & Et & It & F). rewrite Va, Vb in F. destruct F as [[K _]|[_ F]]; [contradiction|].
  assert (t = 2 ^ (n - 2))%Z as Et1 by congruence. refine (not_one Logarithmic n _ t Sw F _ Et1).
  destruct (Bool.bool_dec (a <? 0)%Z (b <? 0)%Z) as [Sg|Sg]; [right|left; apply quotient_other_sign; assumption]. rewrite quotient_same_sign by assumption.
  assert (E Logarithmic (l_ n a) / E Logarithmic (l_ n b) = E Logarithmic (l_ n a - l_ n b)) as -> by (simpl; unfold Rdiv at 1; rewrite <- exp_Ropp, <- exp_plus; f_equal; lra).
  assert (E Logarithmic 0 = 1) as E0 by (simpl; unfold Rdiv; rewrite Rmult_0_l; apply exp_0).
  destruct (neighbours Logarithmic n Sw) as [T1 T2]. pose proof (different_l Logarithmic n a b Sw Ra Rb Sg N) as D.
  destruct (Rlt_or_le (l_ n a) (l_ n b)) as [L|L].
  - pose proof (gap n a b Hn Ra Rb L). exists (E Logarithmic (- step n)). split; [assumption|]. right. split; [apply E_le; lra|rewrite <- E0; apply E_lt; lra].
  - pose proof (gap n b a Hn Rb Ra ltac:(lra)). exists (E Logarithmic (step n)). split; [assumption|]. left. split; [apply E_le; lra|rewrite <- E0; apply E_lt; lra].
Qed.
Lemma lin_quotient_below_one : forall n f a b x y, linear_division n f -> is_intn n a -> is_intn n b -> value Linear n a = Some x -> value Linear n b = Some y -> 0 < x < y ->
  exists r v, f a b = Val r /\ value Linear n r = Some v /\ v < 1.
Proof.
  intros n f a b x y H Ia Ib Va Vb Hx. assert (std_width n) as Sw by (destruct H; unfold std_width; tauto). pose proof (std_range n Sw) as Hn.
  destruct (value_pos Linear n a x Hn Ia Va) as (A & _). destruct (value_pos Linear n b y Hn Ib Vb) as (B & _). destruct A as [_ A]. destruct B as [_ B]. specialize (A ltac:(lra)). specialize (B ltac:(lra)).
  assert (is_real_takum n a) as Ra by (split; [assumption|]; split; [lia|]; unfold nar; pose proof (Z.pow_pos_nonneg 2 (n - 1)); lia).
  assert (is_real_takum n b) as Rb by (split; [assumption|]; split; [lia|]; unfold nar; pose proof (Z.pow_pos_nonneg 2 (n - 1)); lia).
  destruct (signed_value Linear n a Sw Ra) as [Va' _]. destruct (signed_value Linear n b Sw Rb) as [Vb' Nb]. replace (a <? 0)%Z with false in * by lia. replace (b <? 0)%Z with false in * by lia.
  change (E Linear) with Lin in *. assert (x = Lin (l_ n a)) as Ex by (rewrite Va in Va'; injection Va' as ->; ring). assert (y = Lin (l_ n b)) as Ey by (rewrite Vb in Vb'; injection Vb' as ->; ring).
  assert (l_ n a < l_ n b) as L by (apply (E_lt_iff Linear); simpl; lra). destruct (ratio_below n a b Sw Ra Rb L) as (Q1 & Q2 & _).
  destruct (div_lin_faithful n f H a b Ia Ib) as (t & Et & It & F). rewrite Va, Vb in F. destruct F as [[K _]|[_ F]]; [lra|]. rewrite Ex, Ey in F.
  destruct (faithful_value _ _ _ _ Sw F) as (_ & v & V & _). destruct (neighbours Linear n Sw) as [_ (u & Iu & Vu)].
  exists t, v. split; [assumption|]. split; [assumption|]. pose proof (faithful_le Linear n _ t v u _ Sw F V Iu Vu Q1). simpl in *. lra.
Qed.
Lemma lin_quotient_one : forall n f a b, linear_division n f -> (n = 8 \/ n = 16)%Z -> is_real_takum n a -> is_real_takum n b -> (f a b = Val (2 ^ (n - 2))%Z <-> a = b).
Proof.
  intros n f a b H Hn8 Ra Rb. split; [|intros <-; apply div_lin_self; assumption]. intros Q. destruct (Z.eq_dec a b) as [|N]; [assumption|exfalso].
  assert (std_width n) as Sw by (destruct H; unfold std_width; tauto). pose proof (std_range n Sw) as Hn. pose proof (step_range n ltac:(lia)) as S.
  destruct (signed_value Linear n a Sw Ra) as [Va _]. destruct (signed_value Linear n b Sw Rb) as [Vb Nb].
  destruct (div_lin_correct n f H Hn8 a b (proj1 Ra) (proj1 Rb)) as (t & Et & It & F). rewrite Va, Vb in F. destruct F as [[K _]|[_ F]]; [contradiction|].
  assert (t = 2 ^ (n - 2))%Z as Et1 by congruence. pose proof (rounds_faithful Linear n _ t Sw F) as Ff.
  destruct (Bool.bool_dec (a <? 0)%Z (b <? 0)%Z) as [Sg|Sg]; [|exact (not_one Linear n _ t Sw Ff (or_introl (quotient_other_sign Linear n a b Sg)) Et1)].
  rewrite quotient_same_sign in F, Ff by assumption. destruct (neighbours Linear n Sw) as [(u & Iu & Vu) T2]. pose proof (different_l Linear n a b Sw Ra Rb Sg N) as D. change (E Linear) with Lin in *.
  destruct (Rlt_or_le (l_ n a) (l_ n b)) as [L|L].
  - destruct (ratio_below n a b Sw Ra Rb L) as (Q1 & Q2 & _). refine (not_one Linear n _ t Sw Ff (or_intror _) Et1). exists (Lin (- step n)). split; [assumption|]. right. split; assumption.
  - destruct (ratio_below n b a Sw Rb Ra ltac:(lra)) as (_ & _ & Q3). set (z := Lin (l_ n a) / Lin (l_ n b)) in *.
    destruct F as [[Z0 _]|[Nz (Rt & St & M)]]; [lra|]. rewrite Rlt_bool_false in M, St by lra.
    assert (step n / 2 < coord Linear z) as C. { apply (E_lt_iff Linear). rewrite E_coord by assumption. rewrite Rabs_pos_eq by lra. simpl. rewrite (Lin_binade 0) by (simpl; lra). change (bpow radix2 0) with 1. simpl. lra. }
    destruct (value_one_ Linear n Sw) as [V1 I1]. assert (0 < Lin (step n)) as PL by (apply (E_pos Linear)).
    assert (is_real_takum n u) as Ru. { destruct (takum_cases n u Iu) as [->|[->|R]]; [rewrite value_0 in Vu; injection Vu as Vu; lra|rewrite value_nar in Vu by lia; discriminate|assumption]. }
    assert (0 < u)%Z as Pu by (apply (value_pos Linear n u _ Hn Iu Vu); exact PL).
    assert (forall s x, is_real_takum n s -> (0 < s)%Z -> value Linear n s = Some (Lin x) -> l_ n s = x) as Lx.
    { intros s x Rs Ps Vs. destruct (signed_value Linear n s Sw Rs) as [Vs' _]. replace (s <? 0)%Z with false in Vs' by lia. rewrite Vs in Vs'. injection Vs' as K. rewrite Rmult_1_l in K. apply (E_inj Linear). simpl. congruence. }
    assert (l_ n u = step n) as Lu by (apply Lx; assumption).
    assert (l_ n t = 0) as Lt. { apply Lx; [assumption| |rewrite Lin_0, Et1; assumption]. rewrite Et1. apply Z.pow_pos_nonneg; lia. }
    destruct (M u Ru ltac:(unfold has_sign; lia)) as [M1 _]. rewrite Lu, Lt in M1. rewrite Rabs_minus_sym, Rminus_0_r, Rabs_pos_eq in M1 by lra.
    revert M1. unfold Rabs. destruct (Rcase_abs (step n - coord Linear z)); lra.
Qed.
(** 2 / (2 - 2^-27) = 1 in 32 bits, 2 / (2 - 2^-59) = 1 in 64 bits *)
Lemma quotient_one_distinct :
  takum_linear_division x86_64 W32 0x48000000 0x47ffffff = Val (2 ^ 30)%Z /\
  takum_linear_division x86_64 W64 0x4800000000000000 0x47ffffffffffffff = Val (2 ^ 62)%Z.
Proof. vm_compute. split; reflexivity. Qed.
Lemma quotient_one_fails :
  ~ (forall a b, is_real_takum 32 a -> is_real_takum 32 b -> (takum_linear_division x86_64 W32 a b = Val (2 ^ 30)%Z <-> a = b)) /\
  ~ (forall a b, is_real_takum 64 a -> is_real_takum 64 b -> (takum_linear_division x86_64 W64 a b = Val (2 ^ 62)%Z <-> a = b)).
Proof.
  assert (forall n t, (0 < t < 2 ^ (n - 1))%Z -> is_real_takum n t) as R. { intros n t B. unfold is_real_takum, is_intn, nar. lia. }
  split; intros H.
  - assert (0x48000000 = 0x47ffffff)%Z by (apply H; [apply R; split; reflexivity|apply R; split; reflexivity|exact (proj1 quotient_one_distinct)]). discriminate.
  - assert (0x4800000000000000 = 0x47ffffffffffffff)%Z by (apply H; [apply R; split; reflexivity|apply R; split; reflexivity|exact (proj2 quotient_one_distinct)]). discriminate.
Qed.
