(** The rounding function from coordinates to codes and its properties. *)
From Coq Require Import ZArith Reals Bool Lia Lra.
From Flocq Require Import Core.Core.
From Verif Require Import CModel Spec CodeFacts SpecFacts ValueFacts.
Local Open Scope R_scope.

(** the group (direction and regime bits) a characteristic belongs to *)
Definition DRof (c : Z) : Z :=
  if (c <? 0)%Z then (7 - Z.log2 (- c))%Z else (8 + Z.log2 (c + 1))%Z.

Lemma DRof_spec : forall c, (-255 <= c < 255)%Z ->
  (0 <= DRof c < 16 /\ biasZ (DRof c) <= c < biasZ (DRof c + 1))%Z.
Proof.
  intros c Hc. unfold DRof. destruct (Z.ltb_spec c 0) as [H|H].
  - pose proof (Z.log2_spec (- c) ltac:(lia)) as [L1 L2].
    pose proof (Z.log2_nonneg (- c)).
    assert (Z.log2 (- c) < 8)%Z by (apply Z.log2_lt_pow2; lia).
    split; [lia|]. rewrite bias_step by lia. unfold biasZ, regZ.
    destruct (Z.ltb_spec (7 - Z.log2 (- c)) 8); [|lia].
    replace (8 - (7 - Z.log2 (- c)))%Z with (Z.succ (Z.log2 (- c))) by lia.
    replace (7 - (7 - Z.log2 (- c)))%Z with (Z.log2 (- c)) by lia.
    rewrite Z.pow_succ_r in * by lia. lia.
  - pose proof (Z.log2_spec (c + 1) ltac:(lia)) as [L1 L2].
    pose proof (Z.log2_nonneg (c + 1)).
    assert (Z.log2 (c + 1) < 8)%Z by (apply Z.log2_lt_pow2; lia).
    split; [lia|]. rewrite bias_step by lia. unfold biasZ, regZ.
    destruct (Z.ltb_spec (8 + Z.log2 (c + 1)) 8); [lia|].
    replace (8 + Z.log2 (c + 1) - 8)%Z with (Z.log2 (c + 1)) by lia.
    rewrite Z.pow_succ_r in * by lia. lia.
Qed.

Lemma DRof_unique : forall c DR, (0 <= DR < 16)%Z -> (biasZ DR <= c < biasZ (DR + 1))%Z -> DRof c = DR.
Proof.
  intros c DR HD Hc.
  pose proof (biasZ_bounds DR ltac:(lia)). pose proof (biasZ_bounds (DR + 1) ltac:(lia)).
  destruct (DRof_spec c ltac:(lia)) as [H1 H2].
  destruct (Z.lt_trichotomy (DRof c) DR) as [K|[K|K]]; auto; exfalso.
  - pose proof (biasZ_mono (DRof c + 1) DR ltac:(lia) ltac:(lia)). lia.
  - pose proof (biasZ_mono (DR + 1) (DRof c) ltac:(lia) ltac:(lia)). lia.
Qed.

Definition cpm (n u : Z) : R := IZR (Xn n u) / IZR (2 ^ 59).

(** the code of x with infinitely many bits after the n-th *)
Definition G (n : Z) (x : R) : R :=
  let DR := DRof (Zfloor x) in
  IZR (DR * 2 ^ (n - 5)) + (x - IZR (biasZ DR)) * bpow radix2 (n - 5 - regZ DR).

Definition umax (n : Z) : Z := (2 ^ (n - 1) - 1)%Z.

Definition enc (n : Z) (x : R) : Z :=
  if Rle_bool x (cpm n 1) then 1%Z
  else if Rle_bool (cpm n (umax n)) x then umax n
  else ZnearestE (G n x).

Definition nearestU (n : Z) (x : R) (u : Z) : Prop :=
  (0 < u < 2 ^ (n - 1))%Z /\
  forall u', (0 < u' < 2 ^ (n - 1))%Z ->
    Rabs (cpm n u - x) <= Rabs (cpm n u' - x) /\
    (Rabs (cpm n u - x) = Rabs (cpm n u' - x) -> u' = u \/ Z.even u = true).

Lemma IZR_pow2 : forall k, (0 <= k)%Z -> IZR (2 ^ k) = bpow radix2 k.
Proof. intros k Hk. rewrite <- IZR_Zpower by assumption. reflexivity. Qed.

Section Width.
Variable n : Z.
Hypothesis Hn : (6 <= n <= 64)%Z.

Let Hn5 : (5 <= n <= 64)%Z. Proof. lia. Qed.

Lemma cpm_affine : forall DR y, (0 <= DR < 16)%Z -> (0 <= y <= 2 ^ (n - 5))%Z ->
  (DR * 2 ^ (n - 5) + y < 2 ^ (n - 1))%Z ->
  cpm n (DR * 2 ^ (n - 5) + y) = IZR (biasZ DR) + IZR y * bpow radix2 (regZ DR - (n - 5)).
Proof.
  assert (forall DR y, (0 <= DR < 16)%Z -> (0 <= y < 2 ^ (n - 5))%Z ->
     cpm n (DR * 2 ^ (n - 5) + y) = IZR (biasZ DR) + IZR y * bpow radix2 (regZ DR - (n - 5))) as HH.
  { intros DR y HD Hy. unfold cpm, Xn, code64.
    assert (2 ^ (n - 5) * 2 ^ (64 - n) = 2 ^ 59)%Z as E59.
    { rewrite <- pow2_split by lia. f_equal. lia. }
    pose proof (pow2_pos (64 - n) ltac:(lia)).
    replace ((DR * 2 ^ (n - 5) + y) * 2 ^ (64 - n))%Z with (DR * 2 ^ 59 + y * 2 ^ (64 - n))%Z
      by (rewrite <- E59; ring).
    rewrite X_eq by nia.
    rewrite plus_IZR, !mult_IZR, !IZR_pow2 by (try lia; apply regZ_bounds; assumption).
    replace (regZ DR - (n - 5))%Z with (64 - n + regZ DR + - 59)%Z by lia.
    rewrite !bpow_plus, (bpow_opp radix2 59 : bpow radix2 (-59) = _). field. apply Rgt_not_eq, bpow_gt_0. }
  intros DR y HD Hy Hlt.
  destruct (Z.eq_dec y (2 ^ (n - 5))) as [->|Hne]; [|apply HH; lia].
  assert (2 ^ (n - 1) = 16 * 2 ^ (n - 5))%Z as E1.
  { change 16%Z with (2 ^ 4)%Z. rewrite <- pow2_split by lia. f_equal. lia. }
  pose proof (pow2_pos (n - 5) ltac:(lia)).
  replace (DR * 2 ^ (n - 5) + 2 ^ (n - 5))%Z with ((DR + 1) * 2 ^ (n - 5) + 0)%Z by ring.
  rewrite HH by nia. rewrite bias_step, plus_IZR by assumption.
  rewrite !IZR_pow2 by (try lia; apply regZ_bounds; assumption).
  rewrite <- bpow_plus. replace (n - 5 + (regZ DR - (n - 5)))%Z with (regZ DR) by lia.
  simpl. lra.
Qed.

Lemma u_split : forall u, (0 <= u < 2 ^ (n - 1))%Z ->
  exists DR y, (u = DR * 2 ^ (n - 5) + y /\ 0 <= y < 2 ^ (n - 5) /\ 0 <= DR < 16)%Z.
Proof.
  intros u Hu. exists (u / 2 ^ (n - 5))%Z, (u mod 2 ^ (n - 5))%Z.
  pose proof (pow2_pos (n - 5) ltac:(lia)).
  pose proof (Z.div_mod u (2 ^ (n - 5)) ltac:(lia)).
  pose proof (Z.mod_pos_bound u (2 ^ (n - 5)) ltac:(lia)).
  assert (2 ^ (n - 1) = 16 * 2 ^ (n - 5))%Z as E1.
  { change 16%Z with (2 ^ 4)%Z. rewrite <- pow2_split by lia. f_equal. lia. }
  repeat split; try lia.
  - apply Z.div_pos; lia.
  - apply Z.div_lt_upper_bound; lia.
Qed.

Lemma cpm_lt_iff : forall u v, (0 <= u < 2 ^ (n - 1))%Z -> (0 <= v < 2 ^ (n - 1))%Z ->
  ((u < v)%Z <-> cpm n u < cpm n v).
Proof.
  intros u v Hu Hv. rewrite (Xn_lt_iff n) by lia. unfold cpm.
  assert (0 < / IZR (2 ^ 59)) by (apply Rinv_0_lt_compat, IZR_lt; lia).
  split; intros K.
  - apply Rmult_lt_compat_r; [assumption|apply IZR_lt; assumption].
  - apply lt_IZR. eapply Rmult_lt_reg_r; eassumption.
Qed.

Lemma cpm_le : forall u v, (0 <= u <= v)%Z -> (v < 2 ^ (n - 1))%Z -> cpm n u <= cpm n v.
Proof.
  intros u v Hu Hv. destruct (Z.eq_dec u v) as [->|]; [lra|].
  left. apply cpm_lt_iff; lia.
Qed.

Lemma cpm_bounds : forall u, (0 <= u < 2 ^ (n - 1))%Z -> -255 <= cpm n u < 255.
Proof.
  intros u Hu. pose proof (X_bounds (code64 n u) (code64_bounds n u ltac:(lia) Hu)) as [H1 H2].
  unfold cpm, Xn. apply IZR_le in H1. apply IZR_lt in H2. rewrite mult_IZR in *.
  assert (0 < IZR (2 ^ 59)) by (apply IZR_lt; lia). split.
  - apply Rmult_le_reg_r with (IZR (2 ^ 59)); [assumption|]. field_simplify; lra.
  - apply Rmult_lt_reg_r with (IZR (2 ^ 59)); [assumption|]. field_simplify; lra.
Qed.

Lemma cpm_opp : forall u, (0 < u < 2 ^ (n - 1))%Z -> cpm n (2 ^ (n - 1) - u) = - cpm n u.
Proof. intros u Hu. unfold cpm. rewrite (Xn_neg n Hn5), opp_IZR by assumption. field. apply not_0_IZR; lia. Qed.

(** location of G x *)
Lemma G_loc : forall x, -255 <= x < 255 ->
  let DR := DRof (Zfloor x) in
  (0 <= DR < 16)%Z /\ IZR (biasZ DR) <= x < IZR (biasZ (DR + 1)) /\
  IZR (DR * 2 ^ (n - 5)) <= G n x < IZR ((DR + 1) * 2 ^ (n - 5)).
Proof.
  intros x Hx DR.
  assert (-255 <= Zfloor x < 255)%Z as Hf.
  { split; [apply Zfloor_lub; lra|]. apply lt_IZR. pose proof (Zfloor_lb x). lra. }
  destruct (DRof_spec (Zfloor x) Hf) as [H1 [H2 H3]]. fold DR in H1, H2, H3.
  split; [assumption|].
  assert (IZR (biasZ DR) <= x < IZR (biasZ (DR + 1))) as Hb.
  { split.
    - apply IZR_le in H2. pose proof (Zfloor_lb x). lra.
    - apply Rlt_le_trans with (IZR (Zfloor x + 1)); [rewrite plus_IZR; apply Zfloor_ub|apply IZR_le; lia]. }
  split; [assumption|].
  unfold G. fold DR. pose proof (bpow_gt_0 radix2 (n - 5 - regZ DR)) as Hp.
  assert ((IZR (biasZ (DR + 1)) - IZR (biasZ DR)) * bpow radix2 (n - 5 - regZ DR) = IZR (2 ^ (n - 5))) as Hs.
  { rewrite bias_step, plus_IZR by assumption. rewrite !IZR_pow2 by (try lia; apply regZ_bounds; assumption).
    ring_simplify. rewrite <- bpow_plus. f_equal. lia. }
  rewrite Z.mul_add_distr_r, Z.mul_1_l, plus_IZR. split; nra.
Qed.

Lemma G_strict_mono : forall x y, -255 <= x < y -> y < 255 -> G n x < G n y.
Proof.
  intros x y Hx Hy.
  destruct (G_loc x ltac:(lra)) as (HD & Hb & HG). destruct (G_loc y ltac:(lra)) as (HD' & Hb' & HG').
  set (D1 := DRof (Zfloor x)) in *. set (D2 := DRof (Zfloor y)) in *.
  assert (D1 <= D2)%Z as Hle.
  { destruct (Z.le_gt_cases D1 D2); auto. exfalso.
    pose proof (biasZ_mono (D2 + 1) D1 ltac:(lia) ltac:(lia)) as K. apply IZR_le in K. lra. }
  destruct (Z.eq_dec D1 D2) as [Heq|Hne].
  - unfold G. fold D1. fold D2. rewrite Heq. pose proof (bpow_gt_0 radix2 (n - 5 - regZ D2)). nra.
  - pose proof (pow2_pos (n - 5) ltac:(lia)).
    assert (IZR ((D1 + 1) * 2 ^ (n - 5)) <= IZR (D2 * 2 ^ (n - 5))) by (apply IZR_le; nia). lra.
Qed.

Lemma G_cpm : forall u, (0 <= u < 2 ^ (n - 1))%Z -> G n (cpm n u) = IZR u.
Proof.
  intros u Hu. destruct (u_split u Hu) as (DR & y & -> & Hy & HD).
  rewrite cpm_affine by lia.
  assert (DRof (Zfloor (IZR (biasZ DR) + IZR y * bpow radix2 (regZ DR - (n - 5)))) = DR) as HDR.
  { pose proof (bpow_gt_0 radix2 (regZ DR - (n - 5))).
    assert (0 <= IZR y) by (apply IZR_le; lia).
    assert (IZR y < IZR (2 ^ (n - 5))) as Hy2 by (apply IZR_lt; lia).
    assert (IZR (2 ^ (n - 5)) * bpow radix2 (regZ DR - (n - 5)) = IZR (2 ^ regZ DR)) as Es.
    { rewrite !IZR_pow2 by (try lia; apply regZ_bounds; assumption). rewrite <- bpow_plus. f_equal. lia. }
    apply DRof_unique; [assumption|]. split.
    - apply Zfloor_lub. nra.
    - apply lt_IZR. eapply Rle_lt_trans; [apply Zfloor_lb|].
      rewrite bias_step, plus_IZR by assumption. nra. }
  unfold G. rewrite HDR. rewrite plus_IZR. 
  replace (IZR (biasZ DR) + IZR y * bpow radix2 (regZ DR - (n - 5)) - IZR (biasZ DR))
    with (IZR y * bpow radix2 (regZ DR - (n - 5))) by ring.
  rewrite Rmult_assoc, <- bpow_plus.
  replace (regZ DR - (n - 5) + (n - 5 - regZ DR))%Z with 0%Z by lia. simpl. ring.
Qed.

(** on the unit interval of codes around G x the map is affine *)
Lemma G_cell : forall x, -255 <= x < 255 -> (0 <= Zfloor (G n x))%Z ->
  (Zfloor (G n x) + 1 < 2 ^ (n - 1))%Z ->
  exists s, 0 < s /\
    x - cpm n (Zfloor (G n x)) = (G n x - IZR (Zfloor (G n x))) * s /\
    cpm n (Zfloor (G n x) + 1) - x = (IZR (Zfloor (G n x)) + 1 - G n x) * s.
Proof.
  intros x Hx H0 H1. destruct (G_loc x Hx) as (HD & Hb & HG).
  set (DR := DRof (Zfloor x)) in *. set (a := Zfloor (G n x)) in *.
  assert (DR * 2 ^ (n - 5) <= a)%Z as La by (apply Zfloor_lub; lra).
  assert (a < (DR + 1) * 2 ^ (n - 5))%Z as Ua.
  { apply lt_IZR. eapply Rle_lt_trans; [apply Zfloor_lb|]. apply HG. }
  set (y := (a - DR * 2 ^ (n - 5))%Z).
  assert (a = DR * 2 ^ (n - 5) + y)%Z as Ea by (unfold y; lia).
  exists (bpow radix2 (regZ DR - (n - 5))). split; [apply bpow_gt_0|].
  assert (bpow radix2 (n - 5 - regZ DR) * bpow radix2 (regZ DR - (n - 5)) = 1) as Es.
  { rewrite <- bpow_plus. replace (n - 5 - regZ DR + (regZ DR - (n - 5)))%Z with 0%Z by lia. reflexivity. }
  assert (cpm n a = IZR (biasZ DR) + IZR y * bpow radix2 (regZ DR - (n - 5))) as C1.
  { rewrite Ea. apply cpm_affine; lia. }
  assert (cpm n (a + 1) = IZR (biasZ DR) + (IZR y + 1) * bpow radix2 (regZ DR - (n - 5))) as C2.
  { rewrite Ea, <- Z.add_assoc. rewrite cpm_affine by lia. rewrite plus_IZR. reflexivity. }
  rewrite C1, C2.
  assert (G n x = IZR (DR * 2 ^ (n - 5)) + (x - IZR (biasZ DR)) * bpow radix2 (n - 5 - regZ DR)) as EG
    by reflexivity.
  assert (IZR a = IZR (DR * 2 ^ (n - 5)) + IZR y) as EA by (rewrite Ea, plus_IZR; reflexivity).
  rewrite EG, EA.
  split; ring_simplify; rewrite ?Rmult_assoc, ?Es;
    replace (x * bpow radix2 (n - 5 - regZ DR) * bpow radix2 (regZ DR - (n - 5)))
      with (x * (bpow radix2 (n - 5 - regZ DR) * bpow radix2 (regZ DR - (n - 5)))) by ring;
    rewrite ?Es; ring_simplify; nra.
Qed.

Lemma cpm1_umax : cpm n (umax n) = - cpm n 1.
Proof. unfold umax. rewrite cpm_opp; [reflexivity|]. split; [lia|]. change 1%Z with (2 ^ 0)%Z. apply Z.pow_lt_mono_r; lia. Qed.

Lemma two_pow_ge : (32 <= 2 ^ (n - 1))%Z.
Proof. change 32%Z with (2 ^ 5)%Z. apply Z.pow_le_mono_r; lia. Qed.

Lemma enc_mid : forall x, cpm n 1 < x < cpm n (umax n) ->
  -255 <= x < 255 /\ IZR 1 < G n x < IZR (umax n).
Proof.
  intros x Hx. pose proof two_pow_ge. unfold umax in *.
  pose proof (cpm_bounds 1 ltac:(lia)). pose proof (cpm_bounds (2 ^ (n - 1) - 1) ltac:(lia)).
  split; [lra|]. split.
  - rewrite <- (G_cpm 1) by lia. apply G_strict_mono; lra.
  - rewrite <- (G_cpm (2 ^ (n - 1) - 1)) by lia. apply G_strict_mono; lra.
Qed.

Lemma enc_cases : forall x,
  (x <= cpm n 1 /\ enc n x = 1%Z) \/
  (cpm n (umax n) <= x /\ cpm n 1 < x /\ enc n x = umax n) \/
  (cpm n 1 < x < cpm n (umax n) /\ enc n x = ZnearestE (G n x)).
Proof.
  intros x. unfold enc. destruct (Rle_bool_spec x (cpm n 1)); [left; auto|].
  destruct (Rle_bool_spec (cpm n (umax n)) x); right; [left|right]; auto.
Qed.

Lemma ZnearestE_mono : forall x y, x <= y -> (ZnearestE x <= ZnearestE y)%Z.
Proof. intros x y H. apply Zrnd_le; [apply valid_rnd_N|assumption]. Qed.

Lemma ZnearestE_IZR : forall z, ZnearestE (IZR z) = z.
Proof. intros z. apply Zrnd_IZR, valid_rnd_N. Qed.

Lemma enc_bounds : forall x, (1 <= enc n x <= umax n)%Z.
Proof.
  intros x. pose proof two_pow_ge. unfold umax.
  destruct (enc_cases x) as [(_ & ->)|[(_ & _ & ->)|(Hx & ->)]]; unfold umax; try lia.
  destruct (enc_mid x Hx) as [_ [H1 H2]]. split.
  - rewrite <- (ZnearestE_IZR 1). apply ZnearestE_mono. lra.
  - rewrite <- (ZnearestE_IZR (2 ^ (n - 1) - 1)). apply ZnearestE_mono. unfold umax in *. lra.
Qed.

Lemma enc_range : forall x, (0 < enc n x < 2 ^ (n - 1))%Z.
Proof. intros x. pose proof (enc_bounds x). unfold umax in *. lia. Qed.

Lemma enc_mono : forall x y, x <= y -> (enc n x <= enc n y)%Z.
Proof.
  intros x y H. pose proof (enc_bounds x) as Bx. pose proof (enc_bounds y) as By.
  destruct (enc_cases x) as [(? & Ex)|[(? & ? & Ex)|(Hx & Ex)]];
  destruct (enc_cases y) as [(? & Ey)|[(? & ? & Ey)|(Hy & Ey)]]; try lia; try (exfalso; lra).
  rewrite Ex, Ey. apply ZnearestE_mono.
  destruct H as [H| ->]; [|lra]. left. destruct (enc_mid x Hx). destruct (enc_mid y Hy). apply G_strict_mono; lra.
Qed.

Lemma enc_cpm : forall u, (0 < u < 2 ^ (n - 1))%Z -> enc n (cpm n u) = u.
Proof.
  intros u Hu. pose proof two_pow_ge. unfold enc.
  destruct (Rle_bool_spec (cpm n u) (cpm n 1)) as [H1|H1].
  { destruct (Z.eq_dec u 1); auto. assert (cpm n 1 < cpm n u) by (apply cpm_lt_iff; lia). lra. }
  destruct (Rle_bool_spec (cpm n (umax n)) (cpm n u)) as [H2|H2].
  { unfold umax in *. destruct (Z.eq_dec u (2 ^ (n - 1) - 1)); [lia|].
    assert (cpm n u < cpm n (2 ^ (n - 1) - 1)) by (apply cpm_lt_iff; lia). lra. }
  rewrite G_cpm by lia. apply ZnearestE_IZR.
Qed.

Lemma enc_nearestU : forall x, nearestU n x (enc n x).
Proof.
  intros x. split; [apply enc_range|]. intros u' Hu'. pose proof two_pow_ge.
  destruct (enc_cases x) as [(H1 & E1)|[(H1 & H2 & E1)|(Hx & E1)]].
  - rewrite E1. assert (cpm n 1 <= cpm n u') by (apply cpm_le; lia).
    rewrite !Rabs_pos_eq by lra. split; [lra|]. intros Heq.
    destruct (Z.eq_dec u' 1); auto. assert (cpm n 1 < cpm n u') by (apply cpm_lt_iff; lia). lra.
  - rewrite E1. assert (cpm n u' <= cpm n (umax n)) by (unfold umax; apply cpm_le; lia).
    rewrite !Rabs_left1 by lra. split; [lra|]. intros Heq.
    destruct (Z.eq_dec u' (umax n)); auto.
    assert (cpm n u' < cpm n (umax n)) by (unfold umax in *; apply cpm_lt_iff; lia). lra.
  - destruct (enc_mid x Hx) as (Hx255 & HG1 & HG2).
    set (a := Zfloor (G n x)). pose proof (Zfloor_lb (G n x)) as L1. pose proof (Zfloor_ub (G n x)) as L2.
    fold a in L1, L2.
    assert (1 <= a)%Z as Ha1 by (apply Zfloor_lub; simpl; lra).
    assert (a < umax n)%Z as Ha2 by (apply lt_IZR; lra). unfold umax in Ha2.
    destruct (G_cell x Hx255) as (s & Hs & A1 & A2); [fold a; lia|fold a; lia|]. fold a in A1, A2.
    assert (forall v, (0 < v < 2 ^ (n - 1))%Z ->
       ((v < a)%Z /\ Rabs (cpm n a - x) < Rabs (cpm n v - x)) \/
       (v = a \/ v = a + 1)%Z \/
       ((a + 1 < v)%Z /\ Rabs (cpm n (a + 1) - x) < Rabs (cpm n v - x))) as Hother.
    { intros v Hv. destruct (Z.lt_ge_cases v a) as [K|K].
      - left. split; [assumption|]. assert (cpm n v < cpm n a) by (apply cpm_lt_iff; lia).
        rewrite !Rabs_left1 by nra. lra.
      - destruct (Z.le_gt_cases v (a + 1)) as [K2|K2]; [right; left; lia|right; right].
        split; [lia|]. assert (cpm n (a + 1) < cpm n v) by (apply cpm_lt_iff; lia).
        rewrite !Rabs_pos_eq by nra. lra. }
    assert (Rabs (cpm n a - x) = (G n x - IZR a) * s) as Da.
    { rewrite Rabs_left1 by nra. lra. }
    assert (Rabs (cpm n (a + 1) - x) = (IZR a + 1 - G n x) * s) as Db.
    { rewrite Rabs_pos_eq by nra. lra. }
    rewrite E1. unfold Znearest. fold a.
    assert (Zceil (G n x) = if Req_EM_T (G n x) (IZR a) then a else a + 1)%Z as HC.
    { destruct (Req_EM_T (G n x) (IZR a)) as [->|Hne]; [apply Zceil_IZR|].
      apply Zceil_imp. rewrite plus_IZR. replace (a + 1 - 1)%Z with a by lia. lra. }
    destruct (Rcompare_spec (G n x - IZR a) (/ 2)) as [Hc|Hc|Hc].
    + destruct (Hother u' Hu') as [(K & K')|[[->| ->]|(K & K')]].
      * split; [lra|intros; lra].
      * split; [lra|auto].
      * rewrite Da, Db. split; [nra|intros; nra].
      * rewrite Db in K'. rewrite Da. split; [nra|intros; nra].
    + destruct (Z.even a) eqn:Ev; simpl negb.
      * destruct (Hother u' Hu') as [(K & K')|[[->| ->]|(K & K')]].
        -- split; [lra|auto].
        -- split; [lra|auto].
        -- rewrite Da, Db. split; [nra|auto].
        -- rewrite Db in K'. rewrite Da. split; [nra|auto].
      * rewrite HC. destruct (Req_EM_T (G n x) (IZR a)) as [He|He]; [rewrite He in Hc; lra|].
        assert (Z.even (a + 1) = true) as Ev' by (rewrite Z.even_add, Ev; reflexivity).
        destruct (Hother u' Hu') as [(K & K')|[[->| ->]|(K & K')]].
        -- rewrite Da in K'. rewrite Db. split; [nra|auto].
        -- rewrite Da, Db. split; [nra|auto].
        -- split; [lra|auto].
        -- split; [lra|auto].
    + rewrite HC. destruct (Req_EM_T (G n x) (IZR a)) as [He|He]; [rewrite He in Hc; lra|].
      destruct (Hother u' Hu') as [(K & K')|[[->| ->]|(K & K')]].
      * rewrite Da in K'. rewrite Db. split; [nra|intros; nra].
      * rewrite Da, Db. split; [nra|intros; nra].
      * split; [lra|auto].
      * split; [lra|intros; lra].
Qed.

Lemma nearestU_unique : forall x u v, nearestU n x u -> nearestU n x v -> u = v.
Proof.
  assert (forall x u v, (u < v)%Z -> nearestU n x u -> nearestU n x v -> False) as HH.
  { intros x u v Huv [Bu Hu] [Bv Hv].
    destruct (Hu v Bv) as [D1 T1]. destruct (Hv u Bu) as [D2 T2].
    assert (Rabs (cpm n u - x) = Rabs (cpm n v - x)) as Heq by lra.
    destruct (T1 Heq) as [|Eu]; [lia|]. destruct (T2 (eq_sym Heq)) as [|Ev]; [lia|].
    assert (u + 1 <> v)%Z by (intros <-; rewrite Z.even_add, Eu in Ev; discriminate).
    destruct (Hu (u + 1)%Z ltac:(lia)) as [D3 _].
    assert (cpm n u < cpm n (u + 1)) by (apply cpm_lt_iff; lia).
    assert (cpm n (u + 1) < cpm n v) by (apply cpm_lt_iff; lia).
    revert Heq D3. unfold Rabs. repeat destruct Rcase_abs; intros; lra. }
  intros x u v Hu Hv. destruct (Z.lt_trichotomy u v) as [K|[K|K]]; auto; exfalso; eauto.
Qed.

Lemma nearestU_opp : forall x u, nearestU n x u -> nearestU n (- x) (2 ^ (n - 1) - u).
Proof.
  intros x u [Bu Hu]. split; [lia|]. intros u' Hu'.
  destruct (Hu (2 ^ (n - 1) - u')%Z ltac:(lia)) as [D T].
  rewrite cpm_opp in * by lia.
  assert (cpm n u' = - cpm n (2 ^ (n - 1) - u')) as E1 by (rewrite cpm_opp by lia; ring).
  replace (- cpm n u - - x) with (- (cpm n u - x)) by ring.
  replace (cpm n u' - - x) with (- (- cpm n u' - x)) by ring. rewrite !Rabs_Ropp.
  split; [assumption|]. intros K. destruct (T K) as [T'|T']; [left; lia|right].
  rewrite Z.even_sub, T'. replace (n - 1)%Z with (Z.succ (n - 2)) by lia.
  rewrite Z.pow_succ_r by lia. rewrite Z.even_mul. reflexivity.
Qed.

Lemma enc_opp : forall x, enc n (- x) = (2 ^ (n - 1) - enc n x)%Z.
Proof.
  intros x. apply (nearestU_unique (- x)); [apply enc_nearestU|].
  apply nearestU_opp, enc_nearestU.
Qed.

(** relation with the specification *)
Lemma l_asm : forall (s : bool) u, (0 < u < 2 ^ (n - 1))%Z ->
  l_ n (asm n s u) = (if s then -1 else 1) * cpm n u.
Proof.
  intros s u Hu. rewrite (l_eq n Hn5) by (apply asm_intn; lia).
  rewrite asm_neg by lia. rewrite low_asm by lia. reflexivity.
Qed.

Lemma l_cpm : forall t, is_real_takum n t ->
  l_ n t = (if (t <? 0)%Z then -1 else 1) * cpm n (low n t).
Proof.
  intros t Ht. rewrite <- (asm_low n t Hn5) at 1 by apply Ht.
  apply l_asm, real_low_pos; assumption.
Qed.

Lemma even_asm : forall s u, Z.even (asm n s u) = Z.even u.
Proof.
  intros s u. unfold asm. destruct s; [|reflexivity].
  rewrite Z.even_sub. replace (n - 1)%Z with (Z.succ (n - 2)) by lia.
  rewrite Z.pow_succ_r by lia. rewrite Z.even_mul. simpl. destruct (Z.even u); reflexivity.
Qed.

Lemma has_sign_asm : forall (s : bool) u, (0 < u < 2 ^ (n - 1))%Z -> has_sign s (asm n s u).
Proof. intros s u Hu. unfold has_sign, asm. destruct s; lia. Qed.

Lemma has_sign_ltb : forall s t, has_sign s t -> (t <? 0)%Z = s.
Proof. intros s t H. unfold has_sign in H. destruct s; lia. Qed.

Lemma nearestU_nearest : forall (s : bool) L u,
  nearestU n ((if s then -1 else 1) * L) u -> nearest n s L (asm n s u).
Proof.
  intros s L u [Bu Hu]. split; [apply asm_real; lia|]. split; [apply has_sign_asm; lia|].
  intros t' Ht' Hs'. rewrite l_asm by lia. rewrite (l_cpm t' Ht').
  rewrite (has_sign_ltb s t' Hs').
  pose proof (real_low_pos n t' Hn5 Ht') as Bu'. destruct (Hu _ Bu') as [D T].
  assert (forall a, Rabs ((if s then -1 else 1) * a - L) = Rabs (a - (if s then -1 else 1) * L)) as Ea.
  { intros a. destruct s.
    - replace (-1 * a - L) with (- (a - -1 * L)) by ring. apply Rabs_Ropp.
    - f_equal. ring. }
  rewrite !Ea. split; [assumption|]. intros K. destruct (T K) as [K'|K'].
  - left. rewrite <- (asm_low n t' Hn5) by apply Ht'. rewrite (has_sign_ltb s t' Hs'), K'. reflexivity.
  - right. rewrite even_asm. assumption.
Qed.

Lemma nearest_nearestU : forall (s : bool) L t,
  nearest n s L t -> nearestU n ((if s then -1 else 1) * L) (low n t) /\ t = asm n s (low n t).
Proof.
  intros s L t (Ht & Hs & H). pose proof (real_low_pos n t Hn5 Ht) as Bu.
  assert (t = asm n s (low n t)) as Et.
  { rewrite <- (has_sign_ltb s t Hs). symmetry. apply asm_low; [assumption|apply Ht]. }
  split; [|assumption]. split; [assumption|]. intros u' Hu'.
  destruct (H (asm n s u') (asm_real n s u' Hu') (has_sign_asm s u' Hu')) as [D T].
  assert (forall a, Rabs ((if s then -1 else 1) * a - L) = Rabs (a - (if s then -1 else 1) * L)) as Ea.
  { intros a. destruct s.
    - replace (-1 * a - L) with (- (a - -1 * L)) by ring. apply Rabs_Ropp.
    - f_equal. ring. }
  rewrite (l_asm s u' Hu') in *. rewrite (l_cpm t Ht) in *. rewrite (has_sign_ltb s t Hs) in *.
  rewrite !Ea in *. split; [assumption|]. intros K. destruct (T K) as [K'|K'].
  - left. rewrite Et in K'. apply (f_equal (low n)) in K'. rewrite !low_asm in K' by lia. assumption.
  - right. rewrite Et, even_asm in K'. assumption.
Qed.

Lemma nearest_unique : forall (s : bool) L t t', nearest n s L t -> nearest n s L t' -> t = t'.
Proof.
  intros s L t t' H H'. apply nearest_nearestU in H as [H E]. apply nearest_nearestU in H' as [H' E'].
  rewrite E, E'. f_equal. eapply nearestU_unique; eassumption.
Qed.

Lemma enc_nearest : forall (s : bool) L, nearest n s L (asm n s (enc n ((if s then -1 else 1) * L))).
Proof. intros s L. apply nearestU_nearest, enc_nearestU. Qed.

(** faithful rounding from monotonicity *)
Lemma faithful_of_mono : forall (s : bool) L x',
  (forall u, (0 < u < 2 ^ (n - 1))%Z -> cpm n u <= (if s then -1 else 1) * L -> cpm n u <= x') ->
  (forall u, (0 < u < 2 ^ (n - 1))%Z -> (if s then -1 else 1) * L <= cpm n u -> x' <= cpm n u) ->
  faithful n s L (asm n s (enc n x')).
Proof.
  intros s L x' H1 H2. pose proof (enc_range x') as Bu.
  split; [apply asm_real; assumption|]. split; [apply has_sign_asm; assumption|].
  intros t' Ht' Hs'. rewrite l_asm by assumption. rewrite (l_cpm t' Ht'), (has_sign_ltb s t' Hs').
  pose proof (real_low_pos n t' Hn5 Ht') as Bu'.
  assert (cpm n (low n t') <= (if s then -1 else 1) * L -> cpm n (low n t') <= cpm n (enc n x')) as K1.
  { intros K. apply cpm_le; [|lia]. split; [lia|]. rewrite <- (enc_cpm (low n t')) by lia. apply enc_mono. auto. }
  assert ((if s then -1 else 1) * L <= cpm n (low n t') -> cpm n (enc n x') <= cpm n (low n t')) as K2.
  { intros K. apply cpm_le; [|lia]. split; [lia|]. rewrite <- (enc_cpm (low n t')) by lia. apply enc_mono. auto. }
  destruct s; split; intros [Ha Hb].
  - assert (cpm n (enc n x') <= cpm n (low n t')) by (apply K2; lra). lra.
  - assert (cpm n (low n t') <= cpm n (enc n x')) by (apply K1; lra). lra.
  - assert (cpm n (low n t') <= cpm n (enc n x')) by (apply K1; lra). lra.
  - assert (cpm n (enc n x') <= cpm n (low n t')) by (apply K2; lra). lra.
Qed.

End Width.
