(** Differences of linear takums within a factor of two of each other (C99). *)
From Coq Require Import ZArith Reals Bool Lia Lra.
From Flocq Require Import Core.Core.
From Verif Require Import CModel FloatModel WidthConv Spec CodeFacts SpecFacts ValueFacts RoundFacts WidthFacts WidthApi WidthProps Machine LogProps LinApi LinArith LinAlgebra LinArithRefute MiscProps WidthSteps RangeSpec Exactly.
Local Open Scope R_scope.

Lemma regc_mono : forall e h, (-255 <= e <= h)%Z -> (h < 255)%Z -> (regc e <= regc h + (h - e))%Z.
Proof.
  intros e h He Hh. rewrite !regc_eq by lia. destruct (Z.ltb_spec e 0) as [E|E]; destruct (Z.ltb_spec h 0) as [H|H]; try lia.
  - assert (0 <= h - e)%Z as D by lia. assert (- e < 2 ^ (Z.log2 (- h) + 1 + (h - e)))%Z as K; [|pose proof (Z.log2_nonneg (- h)); apply Z.log2_lt_pow2 in K; lia].
    pose proof (Z.log2_nonneg (- h)). rewrite Z.pow_add_r by lia. pose proof (Z.log2_spec (- h) ltac:(lia)) as [_ L]. rewrite <- Z.add_1_r in L.
    assert (1 + (h - e) <= 2 ^ (h - e))%Z as P by (clear - D; revert D; generalize (h - e)%Z; intros m Hm; pattern m; apply natlike_ind; [reflexivity| |assumption]; intros x Hx IH; rewrite Z.pow_succ_r by assumption; lia).
    nia.
  - pose proof (Z.log2_nonneg (h + 1)). pose proof (Z.log2_lt_lin (- e)). lia.
  - assert (Z.log2 (e + 1) <= Z.log2 (h + 1))%Z by (apply Z.log2_le_mono; lia). lia.
Qed.
Lemma floor_l : forall n t, (6 <= n <= 64)%Z -> is_real_takum n t -> (-255 <= Zfloor (l_ n t) < 255)%Z.
Proof.
  intros n t Hn R. destruct (code_of_l n t Hn R) as (u & Bu & <-). pose proof (cpm_bounds n Hn u ltac:(lia)). split; [apply Zfloor_lub; lra|].
  apply lt_IZR. pose proof (Zfloor_lb (cpm n u)). lra.
Qed.
Lemma Lin_multiple : forall n t q, (12 <= n <= 64)%Z -> is_real_takum n t -> (q <= Zfloor (l_ n t) - (n - 5 - regc (Zfloor (l_ n t))))%Z ->
  exists K, Lin (l_ n t) = IZR K * bpow radix2 q.
Proof.
  intros n t q Hn R Hq. destruct (l_regime n t ltac:(lia) R) as (j & p & Bp & El). pose proof (floor_l n t ltac:(lia) R) as F. set (h := Zfloor (l_ n t)) in *.
  destruct (regc_bound h F) as [Bh _]. fold (regc h) in Bp. exists (((1 - h) * 2 ^ p + j) * 2 ^ (h - p - q))%Z.
  unfold Lin. fold h. rewrite mult_IZR, plus_IZR, mult_IZR, minus_IZR, !IZR_pow2 by lia. rewrite El.
  replace (bpow radix2 h) with (bpow radix2 p * bpow radix2 (h - p - q) * bpow radix2 q) by (rewrite <- !bpow_plus; f_equal; lia).
  replace (bpow radix2 (- p)) with (/ bpow radix2 p) by (symmetry; apply bpow_opp). pose proof (bpow_gt_0 radix2 p). field. lra.
Qed.
Lemma difference_rep : forall n a b, (12 <= n <= 64)%Z -> is_real_takum n a -> is_real_takum n b ->
  Lin (l_ n b) < Lin (l_ n a) <= 2 * Lin (l_ n b) -> bpow radix2 (-255) < Lin (l_ n a) - Lin (l_ n b) ->
  exists u, (0 < u < 2 ^ (n - 1))%Z /\ cpm n u = lin_coord (Lin (l_ n a) - Lin (l_ n b)).
Proof.
  intros n a b Hn Ra Rb Hr Hm.
  pose proof (floor_l n a ltac:(lia) Ra) as Fa. pose proof (floor_l n b ltac:(lia) Rb) as Fb.
  pose proof (Lin_multiple n a) as Ma. pose proof (Lin_multiple n b) as Mb. pose proof (Lin_bounds (l_ n a)) as La. pose proof (Lin_bounds (l_ n b)) as Lb.
  set (ha := Zfloor (l_ n a)) in *. set (hb := Zfloor (l_ n b)) in *.
  set (q := Z.min (ha - (n - 5 - regc ha)) (hb - (n - 5 - regc hb))).
  destruct (Ma q Hn Ra ltac:(lia)) as (Ka & Ea). destruct (Mb q Hn Rb ltac:(lia)) as (Kb & Eb). clear Ma Mb.
  set (x := Lin (l_ n a)) in *. set (y := Lin (l_ n b)) in *.
  assert (exists e, e = (mag radix2 (x - y) - 1)%Z /\ bpow radix2 e <= x - y < bpow radix2 (e + 1)) as (e & De & He).
  { eexists. split; [reflexivity|]. destruct (mag radix2 (x - y)) as [e He]. simpl. specialize (He ltac:(lra)). rewrite Rabs_pos_eq in He by lra. replace (e - 1 + 1)%Z with e by lia. assumption. }
  assert (e <= ha)%Z by (assert (e < ha + 1)%Z; [|lia]; apply (lt_bpow radix2); pose proof (bpow_gt_0 radix2 hb); lra).
  assert (e <= hb)%Z by (assert (e < hb + 1)%Z; [|lia]; apply (lt_bpow radix2); lra).
  assert (-255 <= e)%Z by (assert (-255 < e + 1)%Z; [|lia]; apply (lt_bpow radix2); lra).
  pose proof (bpow_gt_0 radix2 e) as Pe.
  assert (lin_coord (x - y) = IZR e + ((x - y) / bpow radix2 e - 1)) as Ec by (unfold lin_coord; rewrite <- De, Rabs_pos_eq by lra; reflexivity).
  assert (1 <= (x - y) / bpow radix2 e < 2) as Q.
  { rewrite bpow_plus in He. change (bpow radix2 1) with 2 in He. split;
    [apply (Rmult_le_reg_r (bpow radix2 e)); [assumption|]|apply (Rmult_lt_reg_r (bpow radix2 e)); [assumption|]]; unfold Rdiv; rewrite Rmult_assoc, Rinv_l by lra; lra. }
  assert (Zfloor (lin_coord (x - y)) = e) as Fe by (apply Zfloor_imp; rewrite plus_IZR, Ec; lra).
  destruct (regc_bound e ltac:(lia)) as [Re _].
  pose proof (regc_mono e ha ltac:(lia) ltac:(lia)). pose proof (regc_mono e hb ltac:(lia) ltac:(lia)).
  apply (rep_regime n _ ((e - 1) * 2 ^ (Z.max 0 (e - q)) + (Ka - Kb) * 2 ^ (q - e + Z.max 0 (e - q))) (Z.max 0 (e - q))); [lia| | |].
  - rewrite Ec. split.
    + destruct (Z.eq_dec e (-255)) as [->|N].
      * assert (1 < (x - y) / bpow radix2 (-255)); [|lra]. apply (Rmult_lt_reg_r (bpow radix2 (-255))); [assumption|]. unfold Rdiv. rewrite Rmult_assoc, Rinv_l by lra. lra.
      * assert (IZR (-254) <= IZR e) by (apply IZR_le; lia). lra.
    + assert (IZR e <= IZR 254) by (apply IZR_le; lia). lra.
  - rewrite Fe. fold (regc e). lia.
  - rewrite Ec, Ea, Eb. set (d := Z.max 0 (e - q)). rewrite plus_IZR, !mult_IZR, !minus_IZR, !IZR_pow2 by lia.
    replace (q - e + d)%Z with (q + (- e + d))%Z by lia. rewrite !bpow_plus, !bpow_opp. pose proof (bpow_gt_0 radix2 d). field. lra.
Qed.

(** 8 bits, by going through all pairs *)
Definition I8 (t : Z) : Z := (vm 8 t * 2 ^ (ve 8 t + 320))%Z.
Fixpoint upto (n : nat) : list Z := match n with O => nil | S m => Z.of_nat n :: upto m end.
Definition close8 (l : list Z) : bool :=
  List.forallb (fun x => List.forallb (fun y =>
    if (y <? x)%Z && (x <=? 2 * y)%Z && (2 ^ 65 <? x - y)%Z then List.existsb (Z.eqb (x - y)) l else true) l) l.
Lemma close8_all : close8 (List.map I8 (upto 127)) = true.
Proof. vm_compute. reflexivity. Qed.
Lemma close8_spec : forall l x y, close8 l = true -> List.In x l -> List.In y l -> (y < x <= 2 * y)%Z -> (2 ^ 65 < x - y)%Z -> List.In (x - y)%Z l.
Proof.
  intros l x y K Hx Hy B B2. unfold close8 in K. rewrite List.forallb_forall in K. specialize (K _ Hx). rewrite List.forallb_forall in K. specialize (K _ Hy). cbv beta in K.
  replace (y <? x)%Z with true in K by lia. replace (x <=? 2 * y)%Z with true in K by lia. replace (2 ^ 65 <? x - y)%Z with true in K by (symmetry; apply Z.ltb_lt; assumption).
  cbn [andb] in K. apply List.existsb_exists in K as (v & Iv & Ev). apply Z.eqb_eq in Ev. rewrite Ev. assumption.
Qed.
Lemma upto_in : forall n z, List.In z (upto n) <-> (1 <= z <= Z.of_nat n)%Z.
Proof.
  intros n. induction n as [|n IH]; intros z; cbn [upto List.In]; [lia|]. rewrite IH. lia.
Qed.
Lemma I8_value : forall t, (0 < t < 2 ^ 7)%Z -> value Linear 8 t = Some (IZR (I8 t) * bpow radix2 (-320)) /\ (0 < I8 t)%Z.
Proof.
  intros t Ht. pose proof (value_const 8 t ltac:(lia) Ht) as V. assert (0 <= ve 8 t + 320)%Z as P.
  { assert (List.forallb (fun t => (0 <=? ve 8 t + 320)%Z) (upto 127) = true) as K by (vm_compute; reflexivity).
    rewrite List.forallb_forall in K. specialize (K t (proj2 (upto_in 127 t) ltac:(change (Z.of_nat 127) with 127%Z; change (2 ^ 7)%Z with 128%Z in Ht; lia))). lia. }
  split.
  - rewrite V. f_equal. unfold I8. rewrite mult_IZR, IZR_pow2 by assumption. rewrite Rmult_assoc, <- bpow_plus. do 2 f_equal. lia.
  - unfold I8. apply Z.mul_pos_pos; [|apply Z.pow_pos_nonneg; lia]. unfold vm. pose proof (Z.mod_pos_bound (Xn 8 t) (2 ^ 59) ltac:(lia)). lia.
Qed.
Lemma difference_8 : forall a b x y, (0 < a < 2 ^ 7)%Z -> (0 < b < 2 ^ 7)%Z -> value Linear 8 a = Some x -> value Linear 8 b = Some y ->
  y < x <= 2 * y -> bpow radix2 (-255) < x - y -> exists c, (0 < c < 2 ^ 7)%Z /\ value Linear 8 c = Some (x - y).
Proof.
  intros a b x y Ha Hb Vx Vy Hr Hm. destruct (I8_value a Ha) as [Va _]. destruct (I8_value b Hb) as [Vb _].
  assert (x = IZR (I8 a) * bpow radix2 (-320)) as -> by congruence. assert (y = IZR (I8 b) * bpow radix2 (-320)) as -> by congruence.
  pose proof (bpow_gt_0 radix2 (-320)) as P.
  assert (I8 b < I8 a <= 2 * I8 b)%Z as B.
  { destruct Hr as [H1 H2]. split.
    - apply lt_IZR. apply (Rmult_lt_reg_r (bpow radix2 (-320))); assumption.
    - apply le_IZR. rewrite mult_IZR. apply (Rmult_le_reg_r (bpow radix2 (-320))); [assumption|]. rewrite Rmult_assoc. assumption. }
  assert (2 ^ 65 < I8 a - I8 b)%Z as B2.
  { apply lt_IZR. rewrite minus_IZR, IZR_pow2 by lia. apply (Rmult_lt_reg_r (bpow radix2 (-320))); [assumption|]. rewrite <- bpow_plus. change (65 + -320)%Z with (-255)%Z. rewrite Rmult_minus_distr_r. assumption. }
  assert (forall t, (0 < t < 2 ^ 7)%Z -> List.In (I8 t) (List.map I8 (upto 127))) as M.
  { intros t Ht. apply List.in_map. apply upto_in. change (Z.of_nat 127) with 127%Z. change (2 ^ 7)%Z with 128%Z in Ht. lia. }
  pose proof (close8_spec _ (I8 a) (I8 b) close8_all (M a Ha) (M b Hb) B B2) as Iv.
  apply List.in_map_iff in Iv as (c & Ec & Ic). apply upto_in in Ic. change (Z.of_nat 127) with 127%Z in Ic.
  assert (0 < c < 2 ^ 7)%Z as Hc by (change (2 ^ 7)%Z with 128%Z; lia). exists c. split; [assumption|]. destruct (I8_value c Hc) as [-> _]. f_equal.
  rewrite Ec, minus_IZR. ring.
Qed.

(** both signs *)
Lemma difference_pos : forall n a b x y, std_width n -> (0 < a < 2 ^ (n - 1))%Z -> (0 < b < 2 ^ (n - 1))%Z -> value Linear n a = Some x -> value Linear n b = Some y ->
  y < x <= 2 * y -> bpow radix2 (-255) < x - y -> has_takum Linear n (x - y).
Proof.
  intros n a b x y Sw Ha Hb Vx Vy Hr Hm. pose proof (std_range n Sw) as Hn.
  destruct (Z.eq_dec n 8) as [->|N8].
  - destruct (difference_8 a b x y Ha Hb Vx Vy Hr Hm) as (c & Hc & Vc). exists c. split; [unfold is_intn; change (8 - 1)%Z with 7%Z; lia|assumption].
  - assert (is_real_takum n a) as Ra by (apply (asm_real n false a); lia). assert (is_real_takum n b) as Rb by (apply (asm_real n false b); lia).
    rewrite (value_real n) in Vx, Vy by (assumption || lia). replace (a <? 0)%Z with false in Vx by lia. replace (b <? 0)%Z with false in Vy by lia.
    injection Vx as <-. injection Vy as <-. change (E Linear) with Lin in *. rewrite !Rmult_1_l in *.
    apply rep_value; [assumption|lra|]. apply (difference_rep n a b); (assumption || unfold std_width in *; lia).
Qed.
Lemma has_takum_opp : forall k n z, std_width n -> has_takum k n z -> has_takum k n (- z).
Proof.
  intros k n z Sw (t & It & V). destruct (negation_negates k n t Sw It) as (I' & _ & x1 & V1 & V2).
  - intros ->. rewrite value_nar in V by (pose proof (std_range _ Sw); lia). discriminate.
  - assert (x1 = z) as -> by congruence. exists (- t)%Z. split; assumption.
Qed.
Lemma positive_takum : forall k n t x, std_width n -> is_intn n t -> value k n t = Some x -> 0 < x -> (0 < t < 2 ^ (n - 1))%Z.
Proof.
  intros k n t x Sw It V P. pose proof (std_range n Sw) as Hn. destruct (takum_cases n t It) as [->|[->|R]].
  - rewrite value_0 in V. injection V as <-. lra.
  - rewrite value_nar in V by lia. discriminate.
  - rewrite (value_real n) in V by (assumption || lia). injection V as <-. pose proof (E_pos k (l_ n t)). destruct (Z.ltb_spec t 0); [lra|].
    destruct It, R as (_ & N0 & _). lia.
Qed.
Lemma difference_takum : forall n a b x y, std_width n -> is_intn n a -> is_intn n b -> value Linear n a = Some x -> value Linear n b = Some y ->
  y / 2 <= x <= 2 * y -> x - y = 0 \/ bpow radix2 (-255) < Rabs (x - y) -> has_takum Linear n (x - y).
Proof.
  intros n a b x y Sw Ia Ib Vx Vy Hr Hm. destruct (Req_dec (x - y) 0) as [Z0|N0]; [rewrite Z0; apply has_takum_0; assumption|].
  destruct Hm as [?|Hm]; [contradiction|].
  assert (0 < x /\ 0 < y) as [Px Py] by (split; destruct (Rle_lt_dec x 0), (Rle_lt_dec y 0); lra).
  pose proof (positive_takum _ n a x Sw Ia Vx Px) as Ba. pose proof (positive_takum _ n b y Sw Ib Vy Py) as Bb.
  destruct (Rle_lt_dec y x) as [H|H].
  - rewrite Rabs_pos_eq in Hm by lra. apply (difference_pos n a b); try assumption. lra.
  - rewrite Rabs_left in Hm by lra. replace (x - y) with (- (y - x)) by ring. apply has_takum_opp; [assumption|].
    apply (difference_pos n b a); try assumption; [lra|]. replace (y - x) with (- (x - y)) by ring. assumption.
Qed.
Lemma difference_signed : forall n a b x y, std_width n -> is_intn n a -> is_intn n b -> value Linear n a = Some x -> value Linear n b = Some y ->
  within_factor_two x y -> x - y = 0 \/ bpow radix2 (-255) < Rabs (x - y) -> has_takum Linear n (x - y).
Proof.
  intros n a b x y Sw Ia Ib Vx Vy [Hr|Hr] Hm; [apply (difference_takum n a b); assumption|].
  assert (has_takum Linear n (- x)) as (a' & Ia' & Va') by (apply has_takum_opp; [assumption|exists a; split; assumption]).
  assert (has_takum Linear n (- y)) as (b' & Ib' & Vb') by (apply has_takum_opp; [assumption|exists b; split; assumption]).
  replace (x - y) with (- (- x - - y)) by ring. apply has_takum_opp; [assumption|]. apply (difference_takum n a' b'); try assumption; [lra|].
  replace (- x - - y) with (- (x - y)) by ring. rewrite Rabs_Ropp. destruct Hm as [Hm|Hm]; [left; lra|right; assumption].
Qed.
Theorem close_subtraction : forall n f a b x y, linear_subtraction n f -> is_intn n a -> is_intn n b -> value Linear n a = Some x -> value Linear n b = Some y ->
  within_factor_two x y -> x - y = 0 \/ powerRZ 2 (-255) < Rabs (x - y) ->
  exists c, f a b = Val c /\ is_intn n c /\ value Linear n c = Some (x - y).
Proof.
  intros n f a b x y Hf Ia Ib Vx Vy Hr Hm. pose proof (proj1 (sub_real n f Hf)) as Sw. assert (powerRZ 2 (-255) = bpow radix2 (-255)) as PB by (symmetry; exact (bpow_powerRZ radix2 (-255))). rewrite PB in Hm.
  destruct (difference_signed n a b x y Sw Ia Ib Vx Vy Hr Hm) as (c & Ic & Vc). exists c. split; [|split; assumption].
  apply (sub_exact n f a b c x y); assumption.
Qed.
Theorem close_addition : forall n f a b x y, linear_addition n f -> is_intn n a -> is_intn n b -> value Linear n a = Some x -> value Linear n b = Some y ->
  within_factor_two x (- y) -> x + y = 0 \/ powerRZ 2 (-255) < Rabs (x + y) ->
  exists c, f a b = Val c /\ is_intn n c /\ value Linear n c = Some (x + y).
Proof.
  intros n f a b x y Hf Ia Ib Vx Vy Hr Hm. pose proof (proj1 (add_real n f Hf)) as Sw. assert (powerRZ 2 (-255) = bpow radix2 (-255)) as PB by (symmetry; exact (bpow_powerRZ radix2 (-255))). rewrite PB in Hm.
  assert (has_takum Linear n (- y)) as (b' & Ib' & Vb') by (apply has_takum_opp; [assumption|exists b; split; assumption]).
  replace (x + y) with (x - - y) in * by ring.
  destruct (difference_signed n a b' x (- y) Sw Ia Ib' Vx Vb' Hr Hm) as (c & Ic & Vc). exists c. split; [|split; assumption].
  apply (add_exact n f a b c x y); try assumption. replace (x + y) with (x - - y) by ring. assumption.
Qed.
