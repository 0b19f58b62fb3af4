(** No floating-point number other than 0 is close to a multiple of pi/2: the
    convergents of the continued fraction of 2^63 pi bound the distance from
    below, so that the trigonometric functions neither vanish nor have a pole at
    such a number. *)
From Coq Require Import ZArith Reals Bool Lia Lra Psatz Ratan Machin.
From Flocq Require Import Core.Core IEEE754.BinarySingleNaN.
From Verif Require Import CModel FloatModel Libm LibmSpec Spec FloatFacts RoundFacts RealBounds LogConv FloatAcc RealFacts.
Local Open Scope R_scope.

(** ** Best approximations *)
Lemma best_approx : forall th p q p' q' k N, (0 < q)%Z -> (0 < q')%Z -> (p * q' - p' * q = 1)%Z ->
  IZR q * th - IZR p < 0 -> 0 < IZR q' * th - IZR p' -> (1 <= k < q')%Z ->
  IZR p - IZR q * th <= Rabs (IZR k * th - IZR N).
Proof.
  intros th p q p' q' k N Pq Pq' Det D D' Hk. set (d := IZR q * th - IZR p) in *. set (d' := IZR q' * th - IZR p') in *.
  set (a := (N * q' - k * p')%Z). set (b := (k * p - N * q)%Z).
  assert (k = a * q + b * q')%Z as Ek by (unfold a, b; transitivity (k * (p * q' - p' * q))%Z; [rewrite Det; ring|ring]). assert (N = a * p + b * p')%Z as EN by (unfold a, b; transitivity (N * (p * q' - p' * q))%Z; [rewrite Det; ring|ring]).
  assert (IZR k * th - IZR N = IZR a * d + IZR b * d') as E by (unfold d, d'; rewrite Ek, EN, !plus_IZR, !mult_IZR; ring).
  rewrite E. clearbody a b. replace (IZR p - IZR q * th) with (- d) by (unfold d; ring).
  assert (a <> 0)%Z as Na by (intros Ea; rewrite Ea in Ek; destruct (Z_le_gt_dec b 0); nia).
  destruct (Z.lt_trichotomy a 0) as [A|[A|A]]; [|lia|].
  - assert (0 < b)%Z as B by nia. assert (IZR a <= -1) as A1 by (apply IZR_le; lia). assert (1 <= IZR b) as B1 by (apply IZR_le; lia).
    rewrite Rabs_pos_eq by nra. nra.
  - assert (b <= 0)%Z as B by nia. assert (1 <= IZR a) as A1 by (apply IZR_le; lia). assert (IZR b <= 0) as B1 by (apply IZR_le; lia).
    rewrite Rabs_left by nra. nra.
Qed.

(** ** pi with 700 bits *)
Definition PP : Z := 700.
Definition sp (z : Z) : R := IZR z * bpow radix2 (- PP).
Definition tl (k : nat) : Z :=
  let m := Z.of_nat (2 * k + 1) in (2 * 2 ^ PP / (3 ^ m * m) + 2 ^ PP / (7 ^ m * m))%Z.
Lemma sp_q : forall a m, (0 < m)%Z -> sp (a * 2 ^ PP / m) <= IZR a / IZR m <= sp (a * 2 ^ PP / m + 1).
Proof.
  intros a m Pm. assert (0 < IZR m) as Pm' by (apply IZR_lt; lia). pose proof (bpow_gt_0 radix2 (- PP)) as P.
  assert (IZR a / IZR m = IZR (a * 2 ^ PP) / IZR m * bpow radix2 (- PP)) as ->.
  { rewrite mult_IZR. change (IZR (2 ^ PP)) with (bpow radix2 PP). replace (IZR a * bpow radix2 PP / IZR m * bpow radix2 (- PP)) with (IZR a / IZR m * (bpow radix2 PP * bpow radix2 (- PP))) by (field; lra).
    rewrite <- bpow_plus, Z.add_opp_diag_r. change (bpow radix2 0) with 1. ring. }
  set (A := (a * 2 ^ PP)%Z). pose proof (Z.div_mod A m ltac:(lia)) as D. pose proof (Z.mod_pos_bound A m Pm) as B. unfold sp.
  assert (IZR A = IZR m * IZR (A / m) + IZR (A mod m)) as E by (rewrite <- mult_IZR, <- plus_IZR; f_equal; exact D).
  assert (0 <= IZR (A mod m) <= IZR m) as B' by (split; apply IZR_le; lia).
  split; apply Rmult_le_compat_r; try lra; apply Rmult_le_reg_r with (IZR m); try assumption; unfold Rdiv; rewrite ?Rmult_assoc, ?Rinv_l by lra; rewrite ?plus_IZR; nra.
Qed.
Lemma sp_plus : forall a b, sp (a + b) = sp a + sp b.
Proof. intros a b. unfold sp. rewrite plus_IZR. ring. Qed.
Lemma tl_in : forall k, sp (tl k) <= PI_2_3_7_tg k <= sp (tl k + 2).
Proof.
  intros k. unfold PI_2_3_7_tg, tl, Ratan_seq. rewrite !INR_IZR_INZ. set (m := (2 * k + 1)%nat).
  assert (IZR (Z.of_nat m) <> 0) as Nm by (apply not_0_IZR; lia).
  replace (2 * ((/ 3) ^ m / IZR (Z.of_nat m))) with (IZR 2 / IZR (3 ^ Z.of_nat m * Z.of_nat m)).
  2: { rewrite mult_IZR, IZR_pow_nat, pow_inv. field. split; try assumption; apply pow_nonzero; lra. }
  replace ((/ 7) ^ m / IZR (Z.of_nat m)) with (IZR 1 / IZR (7 ^ Z.of_nat m * Z.of_nat m)).
  2: { rewrite mult_IZR, IZR_pow_nat, pow_inv. field. split; try assumption; apply pow_nonzero; lra. }
  pose proof (sp_q 2 (3 ^ Z.of_nat m * Z.of_nat m) ltac:(apply Z.mul_pos_pos; [apply Z.pow_pos_nonneg; lia|lia])) as H1.
  pose proof (sp_q 1 (7 ^ Z.of_nat m * Z.of_nat m) ltac:(apply Z.mul_pos_pos; [apply Z.pow_pos_nonneg; lia|lia])) as H2.
  rewrite Z.mul_1_l in H2. set (u := (2 * 2 ^ PP / (3 ^ Z.of_nat m * Z.of_nat m))%Z) in *. set (v := (2 ^ PP / (7 ^ Z.of_nat m * Z.of_nat m))%Z) in *.
  replace (u + v + 2)%Z with ((u + 1) + (v + 1))%Z by ring. rewrite !sp_plus in *. lra.
Qed.
Fixpoint slh (n : nat) : Z * Z :=
  match n with
  | O => (tl 0, tl 0 + 2)%Z
  | S k => let (l, h) := slh k in let t := tl (S k) in if Nat.even (S k) then (l + t, h + t + 2)%Z else (l - t - 2, h - t)%Z
  end.
Lemma slh_in : forall n, sp (fst (slh n)) <= sum_f_R0 (tg_alt PI_2_3_7_tg) n <= sp (snd (slh n)).
Proof.
  assert (forall a b, sp (a - b) = sp a - sp b) as Sm by (intros a b; unfold sp; rewrite minus_IZR; ring).
  induction n.
  - cbn [sum_f_R0 slh fst snd]. unfold tg_alt. simpl ((-1) ^ 0). rewrite Rmult_1_l. apply tl_in.
  - cbn [sum_f_R0 slh]. destruct (slh n) as [l h]. cbn [fst snd] in IHn. change (tg_alt PI_2_3_7_tg (S n)) with ((-1) ^ S n * PI_2_3_7_tg (S n)). pose proof (tl_in (S n)) as K. set (t := tl (S n)) in *. rewrite sp_plus in K. destruct (Nat.even (S n)) eqn:E; cbn [fst snd].
    + apply Nat.even_spec in E. destruct E as [m E]. replace ((-1) ^ S n) with 1 by (rewrite E, pow_1_even; reflexivity). rewrite !sp_plus. lra.
    + assert (Nat.Odd (S n)) as [m Em] by (apply Nat.odd_spec; unfold Nat.odd; rewrite E; reflexivity).
      replace ((-1) ^ S n) with (-1) by (rewrite Em; replace (2 * m + 1)%nat with (S (2 * m)) by lia; rewrite pow_1_odd; reflexivity).
      rewrite !Sm. lra.
Qed.
Definition pi_lo : Z := Eval vm_compute in (4 * fst (slh 201))%Z.
Definition pi_hi : Z := Eval vm_compute in (4 * snd (slh 200))%Z.
Lemma pi_in : sp pi_lo <= PI <= sp pi_hi.
Proof.
  pose proof (PI_2_3_7_ineq 100) as [A B]. change (S (2 * 100))%nat with 201%nat in A. change (2 * 100)%nat with 200%nat in B.
  pose proof (slh_in 201) as [C _]. pose proof (slh_in 200) as [_ D].
  assert (pi_lo = 4 * fst (slh 201))%Z as -> by (vm_compute; reflexivity). assert (pi_hi = 4 * snd (slh 200))%Z as -> by (vm_compute; reflexivity).
  assert (forall z, sp (4 * z) = 4 * sp z) as E by (intros z; unfold sp; rewrite mult_IZR; ring). rewrite !E. lra.
Qed.

(** ** Distance of integers from the multiples of 2^63 pi *)
Definition P0 : Z := 8955503742605856124293147065588208592947287414624956921288953362836722863822292234136981881790405735.
Definition Q0_ : Z := 309065422671539713469685229541333335443663897866361478416779775778148375317830723.
Definition P1 : Z := 55299581074811121826450297291499802747211076448982554096686968879026038311624006089445367017785206283.
Definition Q1_ : Z := 1908456396163865035655439791331811300170082375297402831929558181738779143394706126.
Lemma gap_int : forall k N, (1 <= k <= 2 ^ 268)%Z -> bpow radix2 (-280) <= Rabs (IZR k * (bpow radix2 63 * PI) - IZR N).
Proof.
  intros k N Hk. set (th := bpow radix2 63 * PI). pose proof pi_in as [A B]. pose proof (bpow_gt_0 radix2 63) as P63. pose proof (bpow_gt_0 radix2 (- PP)) as PpP.
  assert (forall q p z, (0 <= q)%Z -> (q * 2 ^ 63 * z <= p * 2 ^ 700 - 2 ^ 420)%Z -> IZR q * (bpow radix2 63 * sp z) <= IZR p - bpow radix2 (-280)) as U.
  { intros q p z Hq H. apply IZR_le in H. rewrite minus_IZR, !mult_IZR in H. change (IZR (2 ^ 63)) with (bpow radix2 63) in H. change (IZR (2 ^ 700)) with (bpow radix2 700) in H. change (IZR (2 ^ 420)) with (bpow radix2 420) in H.
    unfold sp. apply Rmult_le_reg_r with (bpow radix2 700); [apply bpow_gt_0|].
    replace (IZR q * (bpow radix2 63 * (IZR z * bpow radix2 (- PP))) * bpow radix2 700) with (IZR q * bpow radix2 63 * IZR z * (bpow radix2 (- PP) * bpow radix2 700)) by ring.
    rewrite <- bpow_plus. change (- PP + 700)%Z with 0%Z. change (bpow radix2 0) with 1. rewrite Rmult_1_r.
    rewrite Rmult_minus_distr_r, <- bpow_plus. exact H. }
  assert (forall q p z, (0 <= q)%Z -> (p * 2 ^ 700 < q * 2 ^ 63 * z)%Z -> IZR p < IZR q * (bpow radix2 63 * sp z)) as L.
  { intros q p z Hq H. apply IZR_lt in H. rewrite !mult_IZR in H. change (IZR (2 ^ 63)) with (bpow radix2 63) in H. change (IZR (2 ^ 700)) with (bpow radix2 700) in H.
    unfold sp. apply Rmult_lt_reg_r with (bpow radix2 700); [apply bpow_gt_0|].
    replace (IZR q * (bpow radix2 63 * (IZR z * bpow radix2 (- PP))) * bpow radix2 700) with (IZR q * bpow radix2 63 * IZR z * (bpow radix2 (- PP) * bpow radix2 700)) by ring.
    rewrite <- bpow_plus. change (- PP + 700)%Z with 0%Z. change (bpow radix2 0) with 1. rewrite Rmult_1_r. exact H. }
  pose proof (U Q0_ P0 pi_hi ltac:(vm_compute; discriminate) ltac:(vm_compute; discriminate)) as U0.
  pose proof (L Q1_ P1 pi_lo ltac:(vm_compute; discriminate) ltac:(vm_compute; reflexivity)) as L1.
  assert (0 <= IZR Q0_) as Pq0 by (apply IZR_le; vm_compute; discriminate). assert (0 <= IZR Q1_) as Pq1 by (apply IZR_le; vm_compute; discriminate).
  assert (IZR Q0_ * th <= IZR Q0_ * (bpow radix2 63 * sp pi_hi)) as M0 by (apply Rmult_le_compat_l; [assumption|]; apply Rmult_le_compat_l; lra).
  assert (IZR Q1_ * (bpow radix2 63 * sp pi_lo) <= IZR Q1_ * th) as M1 by (apply Rmult_le_compat_l; [assumption|]; apply Rmult_le_compat_l; lra).
  pose proof (bpow_gt_0 radix2 (-280)) as P280.
  apply Rle_trans with (IZR P0 - IZR Q0_ * th); [lra|].
  apply (best_approx th P0 Q0_ P1 Q1_ k N); try reflexivity; try lra.
  split; [lia|]. apply Z.le_lt_trans with (2 ^ 268)%Z; [lia|reflexivity].
Qed.

(** ** Floats *)
Lemma scaled_int : forall F (x : flt F) b, wide F -> isf x b -> / 2 <= Rabs b -> exists N, b = IZR N * bpow radix2 (-64).
Proof.
  intros F x b W [_ V] Hb. pose proof (generic_format_B2R (fprec F) (femax F) x) as G. rewrite V in G. unfold generic_format in G.
  set (e := cexp radix2 (SpecFloat.fexp (fprec F) (femax F)) b) in *. assert (-64 <= e)%Z as He.
  { unfold e, cexp, SpecFloat.fexp. assert (0 <= mag radix2 b)%Z as M. { change 0%Z with (-1 + 1)%Z. apply mag_ge_bpow. change (bpow radix2 (-1 + 1 - 1)) with (/ 2). exact Hb. }
    destruct W as [-> | ->]; simpl fprec; lia. }
  exists (Ztrunc (scaled_mantissa radix2 (SpecFloat.fexp (fprec F) (femax F)) b) * 2 ^ (e + 64))%Z.
  rewrite G at 1. unfold F2R. cbn [Defs.Fnum Defs.Fexp]. rewrite mult_IZR, IZR_pow2 by lia. rewrite Rmult_assoc, <- bpow_plus. do 2 f_equal. fold e. lia.
Qed.
Lemma sin_jordan : forall d, Rabs d <= PI / 4 -> Rabs d / 2 <= Rabs (sin d) /\ / 2 <= Rabs (cos d).
Proof.
  assert (forall d, 0 <= d <= PI / 4 -> d / 2 <= sin d /\ / 2 <= cos d) as K.
  { intros d H. pose proof PI_bounds as PB. split.
    - destruct (Req_dec d 0) as [-> |N]; [rewrite sin_0; lra|].
      destruct (pre_sin_bound d 0 ltac:(lra) ltac:(lra)) as [L _]. unfold sin_approx, sin_term in L. simpl in L.
      assert (d - d * d * d / 6 <= sin d) by lra. assert (d * d <= 1) by nra. assert (d * d * d <= d) by nra. lra.
    - replace (/ 2) with (1 / 2) by lra. rewrite <- cos_PI3. apply cos_decr_1; lra. }
  intros d H. unfold Rabs in H. pose proof PI_bounds as PB. destruct (Rcase_abs d) as [N|N].
  - destruct (K (- d) ltac:(lra)) as [K1 K2]. rewrite sin_neg in K1. rewrite cos_neg in K2. rewrite Rabs_left by lra. split; [|rewrite Rabs_pos_eq; lra]. rewrite Rabs_left by lra. lra.
  - destruct (K d ltac:(lra)) as [K1 K2]. rewrite !Rabs_pos_eq by lra. lra.
Qed.
Lemma quarter_shift : forall d k, (Rabs (sin (d + IZR k * (PI / 2))) = Rabs (sin d) /\ Rabs (cos (d + IZR k * (PI / 2))) = Rabs (cos d)) \/
  (Rabs (sin (d + IZR k * (PI / 2))) = Rabs (cos d) /\ Rabs (cos (d + IZR k * (PI / 2))) = Rabs (sin d)).
Proof.
  assert (forall d k, (0 <= k)%Z -> (Rabs (sin (d + IZR k * (PI / 2))) = Rabs (sin d) /\ Rabs (cos (d + IZR k * (PI / 2))) = Rabs (cos d)) \/
    (Rabs (sin (d + IZR k * (PI / 2))) = Rabs (cos d) /\ Rabs (cos (d + IZR k * (PI / 2))) = Rabs (sin d))) as K.
  { intros d k Hk. revert d. pattern k. apply natlike_ind; [|clear k Hk; intros k Hk IH d|assumption].
    - intros d. left. rewrite Rmult_0_l, Rplus_0_r. split; reflexivity.
    - unfold Z.succ. rewrite plus_IZR. replace (d + (IZR k + 1) * (PI / 2)) with (PI / 2 + (d + IZR k * (PI / 2))) by field.
      rewrite <- cos_sin. assert (cos (PI / 2 + (d + IZR k * (PI / 2))) = - sin (d + IZR k * (PI / 2))) as -> by (rewrite (sin_cos (d + IZR k * (PI / 2))); ring).
      rewrite Rabs_Ropp. destruct (IH d) as [[H1 H2]|[H1 H2]]; [right|left]; split; assumption. }
  intros d k. destruct (Z_le_gt_dec 0 k) as [H|H]; [apply K; assumption|].
  destruct (K (d + IZR k * (PI / 2)) (- k)%Z ltac:(lia)) as [[H1 H2]|[H1 H2]]; rewrite opp_IZR in H1, H2; replace (d + IZR k * (PI / 2) + - IZR k * (PI / 2)) with d in H1, H2 by ring; [left|right]; split; congruence.
Qed.
(** sine and cosine of a floating-point number other than 0 are far from 0 *)
Theorem trig_gap : forall F (x : flt F) b, wide F -> isf x b -> win 266 b ->
  bpow radix2 (-400) <= Rabs (sin b) /\ bpow radix2 (-400) <= Rabs (cos b).
Proof.
  intros F x b W Ix [B1 B2]. pose proof PI_bounds as PB. pose proof (bpow_gt_0 radix2 (-400)) as P4.
  set (k := ZnearestE (b / (PI / 2))). set (d := b - IZR k * (PI / 2)). assert (b = d + IZR k * (PI / 2)) as Eb by (unfold d; ring).
  assert (Rabs d <= PI / 4) as Hd.
  { pose proof (Znearest_half (fun x => negb (Z.even x)) (b / (PI / 2))) as H. fold k in H. unfold d. replace (b - IZR k * (PI / 2)) with ((b / (PI / 2) - IZR k) * (PI / 2)) by (field; lra).
    rewrite Rabs_mult, (Rabs_pos_eq (PI / 2)) by lra. apply Rle_trans with (/ 2 * (PI / 2)); [apply Rmult_le_compat_r; lra|lra]. }
  assert (2 * bpow radix2 (-400) <= Rabs d) as Ld.
  { change 2 with (bpow radix2 1). rewrite <- bpow_plus. change (1 + -400)%Z with (-399)%Z. destruct (Z.eq_dec k 0) as [E0|N0].
    - unfold d. rewrite E0, Rmult_0_l, Rminus_0_r. eapply Rle_trans; [|exact B1]. apply bpow_le. lia.
    - assert (PI / 4 <= Rabs b) as Hb.
      { destruct (Rle_or_lt (PI / 4) (Rabs b)) as [Q|Q]; [assumption|exfalso]. assert (1 <= Rabs (IZR k)) as K1 by (rewrite <- abs_IZR; apply IZR_le; lia).
        assert (Rabs (IZR k * (PI / 2)) <= Rabs b + Rabs d) as T. { replace (IZR k * (PI / 2)) with (b - d) by (unfold d; ring). apply Rabs_triang_minus' || (unfold Rminus; eapply Rle_trans; [apply Rabs_triang|rewrite Rabs_Ropp; lra]). }
        rewrite Rabs_mult, (Rabs_pos_eq (PI / 2)) in T by lra. nra. }
      destruct (scaled_int F x b W Ix ltac:(lra)) as (N & EN).
      assert (Z.abs k <= 2 ^ 268)%Z as Hk.
      { apply le_IZR. rewrite abs_IZR. change (IZR (2 ^ 268)) with (bpow radix2 268). assert (Rabs (IZR k * (PI / 2)) <= Rabs b + Rabs d) as T. { replace (IZR k * (PI / 2)) with (b - d) by (unfold d; ring). unfold Rminus. eapply Rle_trans; [apply Rabs_triang|rewrite Rabs_Ropp; lra]. }
        rewrite Rabs_mult, (Rabs_pos_eq (PI / 2)) in T by lra. assert (bpow radix2 268 = 4 * bpow radix2 266) as -> by (change 268%Z with (2 + 266)%Z; rewrite bpow_plus; reflexivity). assert (1 <= bpow radix2 266) by (apply (bpow_le radix2 0); lia). pose proof (Rabs_pos (IZR k)). nra. }
      assert (forall j M, (1 <= j <= 2 ^ 268)%Z -> bpow radix2 (-344) <= Rabs (IZR M * bpow radix2 (-64) - IZR j * (PI / 2))) as G.
      { intros j M Hj. pose proof (gap_int j M Hj) as G. replace (IZR M * bpow radix2 (-64) - IZR j * (PI / 2)) with (- ((IZR j * (bpow radix2 63 * PI) - IZR M) * bpow radix2 (-64))).
        - rewrite Rabs_Ropp, Rabs_mult, (Rabs_pos_eq (bpow radix2 (-64))) by apply bpow_ge_0. change (-344)%Z with (-280 + -64)%Z. rewrite bpow_plus. apply Rmult_le_compat_r; [apply bpow_ge_0|assumption].
        - assert (bpow radix2 63 * bpow radix2 (-64) = / 2) as E2 by (rewrite <- bpow_plus; reflexivity). transitivity (- (IZR j * PI * (bpow radix2 63 * bpow radix2 (-64)) - IZR M * bpow radix2 (-64))); [ring|]. rewrite E2. field. }
      apply Rle_trans with (bpow radix2 (-344)); [apply bpow_le; lia|]. unfold d. rewrite EN. destruct (Z_le_gt_dec 0 k) as [Q|Q].
      + apply G. lia.
      + specialize (G (- k)%Z (- N)%Z ltac:(lia)). rewrite !opp_IZR in G. rewrite <- Rabs_Ropp. eapply Rle_trans; [exact G|]. right. f_equal. ring. }
  destruct (sin_jordan d Hd) as [J1 J2]. assert (bpow radix2 (-400) <= / 2) as Bh by (change (/ 2) with (bpow radix2 (-1)); apply bpow_le; lia).
  rewrite Eb. destruct (quarter_shift d k) as [[-> ->]|[-> ->]]; split; lra.
Qed.
