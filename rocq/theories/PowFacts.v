(** Logarithmic integer powers and roots. *)
From Coq Require Import ZArith Reals Bool Lia Lra List.
From Flocq Require Import Core.Core IEEE754.BinarySingleNaN.
From Flocq Require Relative.
From Verif Require Import CModel FloatModel WidthConv Codec Spec CodeFacts SpecFacts ValueFacts RoundFacts
  WidthFacts WidthProps FloatFacts DecodeFacts EncodeFacts PhiFacts Codec8Facts Arith LogApi Machine LogFacts.
Local Open Scope R_scope.

(** ** Error of phi on numbers of the format *)
Lemma phi_err : forall F x, (fprec F <= 64)%Z -> FF F x -> Rabs (phi F x - x) < bpow radix2 (- fprec F).
Proof.
  intros F x HP HF. pose proof (fmt_pos F) as (P1 & P2 & P3). pose proof (fr_bounds x) as Hfr.
  assert (forall r, 0 <= r -> 0 <= r - IZR (Zfloor (r * bpow radix2 64)) * bpow radix2 (-64) < bpow radix2 (-64)) as Ht.
  { intros r Hr. pose proof (Zfloor_lb (r * bpow radix2 64)). pose proof (Zfloor_ub (r * bpow radix2 64)).
    pose proof (bpow_gt_0 radix2 (-64)). pose proof bpow64. set (z := IZR (Zfloor (r * bpow radix2 64))) in *.
    assert (r = r * bpow radix2 64 * bpow radix2 (-64)) as E by (rewrite Rmult_assoc, H2; ring).
    split; [|]; rewrite E at 1; nra. }
  assert (bpow radix2 (-64) <= bpow radix2 (- fprec F)) as Hb by (apply bpow_le; lia).
  assert (0 <= x \/ x <= - / 2 \/ - / 2 < x < 0) as [C|[C|C]] by lra.
  1,2: unfold phi; rewrite RF_id by (apply FF_fr; auto); specialize (Ht (fr x) ltac:(lra)); unfold fr at 3 in Ht;
    rewrite Rabs_minus_sym; rewrite Rabs_pos_eq; unfold fr in *; lra.
  assert (Zfloor x = (-1)%Z) as Ef by (apply Zfloor_imp; simpl; lra).
  assert (fr x = x + 1) as Er by (unfold fr; rewrite Ef; simpl; ring).
  assert (Rabs (RF F (fr x) - fr x) <= / 2 * bpow radix2 (- fprec F)) as E1.
  { eapply Rle_trans; [apply error_le_half_ulp; apply fexpo_valid|].
    apply Rmult_le_compat_l; [lra|]. rewrite ulp_neq_0 by lra. apply bpow_le. unfold cexp.
    rewrite (mag_unique radix2 (fr x) 0).
    - rewrite fexpo_FLT. unfold FLT_exp. unfold femin in *. lia.
    - rewrite Rabs_pos_eq by lra. simpl. lra. }
  assert (exists k, RF F (fr x) = IZR k * bpow radix2 (- fprec F)) as [k Ek].
  { pose proof (RF_FF F (fr x)) as HG. set (y := RF F (fr x)) in *.
    assert (/ 2 <= y <= 1) as Hy.
    { unfold y. split.
      - rewrite <- (RF_id F (/ 2)) by (apply (FF_bpow F (-1)); lia). apply RF_mono. lra.
      - rewrite <- (RF_id F 1) by (apply (FF_bpow F 0); lia). apply RF_mono. lra. }
    destruct (Req_dec y 1) as [E|E].
    - exists (2 ^ fprec F)%Z. rewrite E, IZR_pow2, <- bpow_plus by lia. rewrite Z.add_opp_diag_r. reflexivity.
    - unfold FF, generic_format in HG. unfold F2R, scaled_mantissa, cexp in HG.
      rewrite (mag_unique radix2 y 0) in HG by (rewrite Rabs_pos_eq by lra; simpl; lra).
      replace (fexpo F 0) with (- fprec F)%Z in HG.
      + cbn [Fnum Fexp] in HG. eexists. exact HG.
      + rewrite fexpo_FLT. unfold FLT_exp. unfold femin in *. lia. }
  assert (phi F x = IZR (Zfloor x) + RF F (fr x)) as ->.
  { unfold phi. f_equal. rewrite Ek, Rmult_assoc, <- bpow_plus.
    replace (- fprec F + 64)%Z with (64 - fprec F)%Z by lia.
    rewrite <- IZR_pow2, <- mult_IZR, Zfloor_IZR, mult_IZR, IZR_pow2, Rmult_assoc, <- bpow_plus by lia.
    f_equal. f_equal. lia. }
  rewrite Ef. replace (-1 + RF F (fr x) - x) with (RF F (fr x) - fr x) by (rewrite Er; ring).
  pose proof (bpow_gt_0 radix2 (- fprec F)). lra.
Qed.

(** ** Where enc jumps *)
Definition mid (n u : Z) : R := (cpm n u + cpm n (u + 1)) / 2.

Section Mid.
Variable n : Z.
Hypothesis Hn : (6 <= n <= 64)%Z.

Lemma enc_le_iff : forall x u, (0 < u < umax n)%Z ->
  ((enc n x <= u)%Z <-> (x < mid n u \/ (x = mid n u /\ Z.even u = true))).
Proof.
  intros x u Hu. unfold umax in Hu.
  destruct (enc_nearestU n Hn x) as [Bw Hw]. set (w := enc n x) in *.
  assert (cpm n u < cpm n (u + 1)) as Hlt by (apply cpm_lt_iff; lia).
  unfold mid. split.
  - intros Hle. assert (cpm n w <= cpm n u) by (apply cpm_le; lia).
    destruct (Rlt_or_le x ((cpm n u + cpm n (u + 1)) / 2)) as [H0|H0]; [left; assumption|]. right.
    destruct (Hw (u + 1)%Z ltac:(lia)) as [D T].
    rewrite (Rabs_left1 (cpm n w - x)) in * by lra.
    destruct (Rle_or_lt x (cpm n (u + 1))) as [K|K].
    + rewrite Rabs_pos_eq in * by lra. assert (cpm n w = cpm n u) as E by lra.
      assert (w = u) as Ew.
      { destruct (Z.eq_dec w u); auto. assert (cpm n w < cpm n u) by (apply cpm_lt_iff; lia). lra. }
      split; [lra|]. destruct T as [T|T]; [lra|lia|]. rewrite <- Ew. assumption.
    + rewrite Rabs_left in D by lra. exfalso. lra.
  - intros H. destruct (Z_le_gt_dec w u) as [K|K]; [assumption|exfalso].
    assert (cpm n (u + 1) <= cpm n w) by (apply cpm_le; lia).
    destruct (Hw u ltac:(lia)) as [D T].
    assert (x < cpm n w) by (destruct H as [H|[H _]]; lra).
    rewrite (Rabs_pos_eq (cpm n w - x)) in * by lra.
    destruct (Rle_or_lt (cpm n u) x) as [K1|K1].
    + rewrite Rabs_left1 in * by lra. destruct H as [H|[H He]]; [lra|].
      assert (cpm n w = cpm n (u + 1)) as E by lra.
      assert (w = u + 1)%Z as Ew.
      { destruct (Z.eq_dec w (u + 1)); auto. assert (cpm n (u + 1) < cpm n w) by (apply cpm_lt_iff; lia). lra. }
      destruct T as [T|T]; [lra|lia|]. rewrite Ew, Z.even_add, He in T. discriminate.
    + rewrite Rabs_pos_eq in D by lra. lra.
Qed.

Lemma enc_stable : forall x y,
  (forall u, (0 < u < umax n)%Z ->
     (x < mid n u -> y < mid n u) /\ (mid n u < x -> mid n u < y) /\ (x = mid n u -> y = mid n u)) ->
  enc n y = enc n x.
Proof.
  intros x y H. pose proof (enc_bounds n Hn x) as Bx. pose proof (enc_bounds n Hn y) as By.
  assert (forall u, (0 < u < umax n)%Z -> ((enc n x <= u)%Z <-> (enc n y <= u)%Z)) as K.
  { intros u Hu. rewrite !enc_le_iff by assumption. destruct (H u Hu) as (H1 & H2 & H3).
    destruct (Rtotal_order x (mid n u)) as [C|[C|C]].
    - split; auto.
    - specialize (H3 C). split; intros [D|[D E]]; try lra; right; auto.
    - specialize (H2 C). split; intros [D|[D E]]; lra. }
  destruct (Z.lt_trichotomy (enc n x) (enc n y)) as [C|[C|C]]; auto; exfalso.
  - specialize (K (enc n x) ltac:(lia)). lia.
  - specialize (K (enc n y) ltac:(lia)). lia.
Qed.

Lemma mid_dyadic : forall u, (0 < u < umax n)%Z -> exists j, j <> 0%Z /\ mid n u = IZR j * bpow radix2 (- (n - 4)).
Proof.
  intros u Hu. unfold umax in Hu.
  destruct (cpm_dyadic n u Hn ltac:(lia)) as [a Ea]. destruct (cpm_dyadic n (u + 1) Hn ltac:(lia)) as [b Eb].
  assert (mid n u = IZR (a + b) * bpow radix2 (- (n - 4))) as E.
  { unfold mid. rewrite Ea, Eb, plus_IZR. replace (- (n - 5))%Z with (1 + - (n - 4))%Z by lia.
    rewrite bpow_plus. change (bpow radix2 1) with 2. field. }
  exists (a + b)%Z. split; [|assumption]. intros E0. rewrite E0, Rmult_0_l in E. unfold mid in E.
  assert (cpm n (u + 1) = cpm n (2 ^ (n - 1) - u)) as E1 by (rewrite cpm_opp by lia; lra).
  assert (2 ^ (n - 1) = 2 * 2 ^ (n - 2))%Z as E2 by (rewrite <- Z.pow_succ_r by lia; f_equal; lia).
  assert (u + 1 = 2 ^ (n - 1) - u)%Z; [|lia].
  destruct (Z.lt_trichotomy (u + 1) (2 ^ (n - 1) - u)) as [C|[C|C]]; auto; exfalso;
    apply (cpm_lt_iff n) in C; (lra || lia).
Qed.

Lemma mid_bounds : forall u, (0 < u < umax n)%Z -> -255 <= mid n u <= 255.
Proof.
  intros u Hu. unfold umax in Hu. unfold mid.
  pose proof (cpm_bounds n Hn u ltac:(lia)). pose proof (cpm_bounds n Hn (u + 1) ltac:(lia)). lra.
Qed.

Lemma enc_hi : forall x y, 255 <= x -> 255 <= y -> enc n y = enc n x.
Proof.
  intros x y Hx Hy. apply enc_stable. intros u Hu. pose proof Hu as Hu'. unfold umax in Hu'.
  pose proof (cpm_bounds n Hn u ltac:(lia)). pose proof (cpm_bounds n Hn (u + 1) ltac:(lia)). unfold mid. lra.
Qed.
Lemma enc_lo : forall x y, x <= -255 -> y <= -255 -> enc n y = enc n x.
Proof.
  intros x y Hx Hy. apply enc_stable. intros u Hu. pose proof Hu as Hu'. unfold umax in Hu'.
  pose proof (cpm_bounds n Hn u ltac:(lia)).
  assert (cpm n u < cpm n (u + 1)) as Hlt by (apply cpm_lt_iff; lia). unfold mid. lra.
Qed.
End Mid.

(** ** Conversion of integers *)
Lemma isf_fint_round : forall f z, (Z.abs z <= 2 ^ 63)%Z -> isf (fint f z) (RF f (IZR z)).
Proof.
  intros f z Hz. pose proof (binary_normalize_correct (fprec f) (femax f) _ _ mode_NE z 0 false) as H.
  cbv zeta in H. unfold F2R in H. simpl Fnum in H. simpl Fexp in H. rewrite Rmult_1_r in H.
  change (round radix2 (SpecFloat.fexp (fprec f) (femax f)) (round_mode mode_NE) (IZR z)) with (RF f (IZR z)) in H.
  rewrite Rlt_bool_true in H.
  - destruct H as (H1 & H2 & _). split; assumption.
  - apply (RF_lt_emax f _ 63); [pose proof (fmt_pos f); lia|]. rewrite <- abs_IZR, <- IZR_pow2 by lia.
    apply IZR_le. assumption.
Qed.

Lemma powerRZ_exp : forall a z, powerRZ (exp a) z = exp (a * IZR z).
Proof.
  intros a z. rewrite powerRZ_Rpower by apply exp_pos. unfold Rpower. rewrite ln_exp. f_equal. ring.
Qed.

Lemma powerRZ_m1 : forall z, powerRZ (-1) z = sg (Z.odd z).
Proof.
  assert (forall z, powerRZ (-1) (2 * z) = 1) as H.
  { intros z. replace (2 * z)%Z with (z + z)%Z by ring. rewrite powerRZ_add by lra. rewrite <- powerRZ_mult.
    replace (-1 * -1) with 1 by ring. apply powerRZ_R1. }
  intros z. rewrite (Z.div2_odd z) at 1. destruct (Z.odd z); simpl Z.b2z.
  - rewrite powerRZ_add, H by lra. simpl. lra.
  - rewrite Z.add_0_r. apply H.
Qed.

Lemma powerRZ_sg : forall s z, powerRZ (sg s) z = sg (s && Z.odd z).
Proof. intros [] z; unfold sg at 1; simpl andb; [apply powerRZ_m1|apply powerRZ_R1]. Qed.

Lemma powerRZ_value : forall s l z, powerRZ (sg s * exp (l / 2)) z = sg (s && Z.odd z) * exp (l * IZR z / 2).
Proof. intros s l z. rewrite powerRZ_mult, powerRZ_sg, powerRZ_exp. f_equal. f_equal. field. Qed.

Lemma rem_odd : forall z, negb (Z.rem z 2 =? 0)%Z = Z.odd z.
Proof.
  intros z. rewrite Zodd_mod. destruct (Z.rem_bound_abs z 2 ltac:(lia)). 
  destruct (Z.eqb_spec (Z.rem z 2) 0) as [E|E]; simpl.
  - apply Z.rem_divide in E; [|lia]. apply Z.mod_divide in E; [|lia]. rewrite E. reflexivity.
  - destruct (Z.eq_dec (z mod 2) 0) as [E'|E'].
    + apply Z.mod_divide in E'; [|lia]. apply Z.rem_divide in E'; [|lia]. contradiction.
    + pose proof (Z.mod_pos_bound z 2 ltac:(lia)). replace (z mod 2)%Z with 1%Z by lia. reflexivity.
Qed.

Definition g_pow (m : mach) (t e : Z) : outcome Z :=
  if (t =? 0)%Z && (e <=? 0)%Z then Val (NaR (m_n m)) else
  let! l := m_dec m t in
  m_enc m ((t <? 0)%Z && negb (Z.rem e 2 =? 0)%Z) (m_cast m (fmul l (fint (m_F m) e))).
Definition g_root (m : mach) (t e : Z) : outcome Z :=
  if root_nar t e then Val (NaR (m_n m)) else
  let! l := m_dec m t in m_enc m (t <? 0)%Z (m_cast m (fdiv l (fint (m_F m) e))).

Lemma log_integer_power_inv : forall n f, log_integer_power n f ->
  exists m, mach_ok m /\ m_n m = n /\ (forall a b, f a b = g_pow m a b) /\ (n + 4 <= fprec (m_F m))%Z.
Proof.
  intros n f [].
  - exists mach8. split; [apply mach8_ok|]. repeat split; simpl; lia.
  - exists mach16. split; [apply mach16_ok|]. repeat split; simpl; lia.
  - exists mach32. split; [apply mach32_ok|]. repeat split; simpl; lia.
Qed.

Section M.
Variable m : mach.
Hypothesis Hm : mach_ok m.
Local Notation n := (m_n m).
Local Notation F := (m_F m).

Lemma psi_dyadic : forall k d, (0 <= d <= m_P m)%Z ->
  m_psi m (IZR k * bpow radix2 (- d)) = IZR k * bpow radix2 (- d).
Proof.
  intros k d Hd.
  assert (IZR k * bpow radix2 (- d) = IZR (k * 2 ^ (m_P m - d)) * bpow radix2 (- m_P m)) as ->; [|apply (mo_psi_fix m Hm)].
  rewrite mult_IZR, IZR_pow2, Rmult_assoc, <- bpow_plus by lia. f_equal. f_equal. lia.
Qed.

Lemma psi_IZR : forall k, m_psi m (IZR k) = IZR k.
Proof.
  intros k. pose proof (mo_range m Hm). pose proof (mo_P m Hm).
  pose proof (psi_dyadic k 0 ltac:(lia)) as H1. simpl in H1. rewrite !Rmult_1_r in H1. assumption.
Qed.

Lemma RF_sg : forall s x, RF F (sg s * x) = sg s * RF F x.
Proof.
  intros s x. unfold sg. destruct s.
  - replace (-1 * x) with (- x) by ring. rewrite RF_opp. ring.
  - rewrite !Rmult_1_l. reflexivity.
Qed.

Lemma RF_ge_2 : forall x k, (0 <= k)%Z -> bpow radix2 k <= x -> bpow radix2 k <= RF F x.
Proof.
  intros x k Hk H. rewrite <- (RF_id F (bpow radix2 k)) by (apply FF_bpow; pose proof (fmt_pos F); lia).
  apply RF_mono. assumption.
Qed.
Lemma RF_le_2 : forall x k, (0 <= k)%Z -> x <= - bpow radix2 k -> RF F x <= - bpow radix2 k.
Proof.
  intros x k Hk H. rewrite <- (RF_id F (- bpow radix2 k)) by (apply FF_opp, FF_bpow; pose proof (fmt_pos F); lia).
  apply RF_mono. assumption.
Qed.

(** nonnegative l and e *)
Lemma pow_big : forall l e, (n + 4 <= fprec F)%Z -> bpow radix2 (- (n - 5)) <= l -> (0 <= e)%Z ->
  (2 ^ fprec F < e)%Z \/ 512 < l * IZR e ->
  512 <= l * IZR e /\ 512 <= RF F (l * RF F (IZR e)).
Proof.
  intros l e HF Hl He H. pose proof (mo_range m Hm). change 512 with (bpow radix2 9).
  pose proof (bpow_gt_0 radix2 (- (n - 5))) as Hb0.
  destruct (Z_le_gt_dec e (2 ^ fprec F)) as [K|K].
  - rewrite (RF_id F (IZR e)) by (apply FF_IZR; lia).
    destruct H as [H|H]; [lia|]. change 512 with (bpow radix2 9) in H.
    split; [lra|]. apply RF_ge_2; [lia|lra].
  - assert (bpow radix2 (fprec F) <= IZR e) as He2.
    { rewrite <- IZR_pow2 by lia. apply IZR_le. lia. }
    assert (bpow radix2 9 <= bpow radix2 (- (n - 5)) * bpow radix2 (fprec F)) as Hb.
    { rewrite <- bpow_plus. apply bpow_le. lia. }
    pose proof (RF_ge_2 (IZR e) (fprec F) ltac:(lia) He2) as He3. pose proof (bpow_gt_0 radix2 (fprec F)).
    split; [|apply RF_ge_2; [lia|]]; eapply Rle_trans; try exact Hb; apply Rmult_le_compat; lra.
Qed.

Lemma sg_Rabs : forall x, x = sg (Rlt_bool x 0) * Rabs x.
Proof.
  intros x. unfold sg. destruct (Rlt_bool_spec x 0); [rewrite Rabs_left by assumption|rewrite Rabs_pos_eq by assumption]; ring.
Qed.

Lemma pow_sat : forall s l e k, (n + 4 <= fprec F)%Z -> l = IZR k * bpow radix2 (- (n - 5)) -> k <> 0%Z ->
  (2 ^ fprec F < Z.abs e)%Z \/ 512 < Rabs (l * IZR e) ->
  enc n (m_psi m (sg s * RF F (l * RF F (IZR e)))) = enc n (sg s * (l * IZR e)).
Proof.
  intros s l e k HF El Hk H. pose proof (mo_range m Hm) as Hn.
  assert (bpow radix2 (- (n - 5)) <= Rabs l) as Hl.
  { rewrite El, Rabs_mult, (Rabs_pos_eq (bpow _ _)) by apply bpow_ge_0.
    rewrite <- (Rmult_1_l (bpow radix2 (- (n - 5)))) at 1. apply Rmult_le_compat_r; [apply bpow_ge_0|].
    rewrite <- abs_IZR. apply IZR_le. lia. }
  assert (512 <= Rabs l * IZR (Z.abs e) /\ 512 <= RF F (Rabs l * RF F (IZR (Z.abs e)))) as [B1 B2].
  { apply pow_big; [assumption|assumption|lia|]. rewrite Rabs_mult, <- abs_IZR in H. assumption. }
  assert (exists s', l * IZR e = sg s' * (Rabs l * IZR (Z.abs e)) /\
                     RF F (l * RF F (IZR e)) = sg s' * RF F (Rabs l * RF F (IZR (Z.abs e)))) as (s' & -> & ->).
  { exists (xorb (Rlt_bool l 0) (Rlt_bool (IZR e) 0)). rewrite abs_IZR. split.
    - rewrite (sg_Rabs l) at 1. rewrite (sg_Rabs (IZR e)) at 1. rewrite sg_xorb. ring.
    - rewrite <- RF_sg. f_equal. rewrite (sg_Rabs l) at 1. rewrite (sg_Rabs (IZR e)) at 1.
      rewrite RF_sg, sg_xorb. ring. }
  rewrite <- !Rmult_assoc, <- sg_xorb. set (b := xorb s s'). rewrite !Rmult_assoc.
  set (y := Rabs l * IZR (Z.abs e)) in *. set (z := RF F _) in *. clearbody b y z. unfold sg. destruct b.
  - apply enc_lo; [lia|lra|]. apply Rle_trans with (m_psi m (IZR (-255))).
    + apply (mo_psi_mono m Hm). lra.
    + rewrite psi_IZR. lra.
  - apply enc_hi; [lia|lra|]. apply Rle_trans with (m_psi m (IZR 255)).
    + rewrite psi_IZR. lra.
    + apply (mo_psi_mono m Hm). lra.
Qed.

Lemma pow_enc : forall s l e k, (n + 4 <= fprec F)%Z -> l = IZR k * bpow radix2 (- (n - 5)) ->
  Rabs l <= 255 -> (Z.abs e <= 2 ^ 63)%Z ->
  enc n (m_psi m (sg s * RF F (l * RF F (IZR e)))) = enc n (sg s * (l * IZR e)).
Proof.
  intros s l e k HF El Hl He. pose proof (mo_range m Hm) as Hn. pose proof (mo_P m Hm) as HP.
  destruct (Z_le_gt_dec (Z.abs e) (2 ^ fprec F)) as [K|K].
  destruct (Rle_or_lt (Rabs (l * IZR e)) 512) as [C|C].
  - (* exact *)
    rewrite (RF_id F (IZR e)) by (apply FF_IZR; lia).
    assert (l * IZR e = IZR (k * e) * bpow radix2 (- (n - 5))) as E by (rewrite El, mult_IZR; ring).
    rewrite (RF_id F (l * IZR e)) by (rewrite E in *; apply FF_small_dyadic; lia || assumption).
    f_equal. rewrite E. replace (sg s * (IZR (k * e) * bpow radix2 (- (n - 5))))
      with (IZR ((if s then -1 else 1) * (k * e)) * bpow radix2 (- (n - 5))).
    + apply psi_dyadic. lia.
    + rewrite mult_IZR. unfold sg. destruct s; ring.
  - (* saturation, exponent exact *)
    assert (k <> 0)%Z as Hk by (intros ->; rewrite El, !Rmult_0_l, Rabs_R0 in C; lra).
    apply (pow_sat s l e k); try assumption. right. assumption.
  - destruct (Z.eq_dec k 0) as [Hk|Hk].
    + assert (l = 0) as -> by (rewrite El, Hk; ring). rewrite !Rmult_0_l, RF_0, Rmult_0_r.
      f_equal. apply (psi_IZR 0).
    + apply (pow_sat s l e k); try assumption. left. lia.
Qed.

Lemma fmul_ninf_pos : forall f (x : flt f) a, isf x a -> 0 < a -> fmul (fninf f) x = fninf f.
Proof. intros f x a H Ha. destruct (isf_pos f x a H Ha) as (mm & e & He & ->). reflexivity. Qed.
Lemma fdiv_ninf_pos : forall f (x : flt f) a, isf x a -> 0 < a -> fdiv (fninf f) x = fninf f.
Proof. intros f x a H Ha. destruct (isf_pos f x a H Ha) as (mm & e & He & ->). reflexivity. Qed.
Lemma fmul_nan_l : forall f (x : flt f), fmul (fnan f) x = fnan f.
Proof. intros f [| | |]; reflexivity. Qed.
Lemma fdiv_nan_l : forall f (x : flt f), fdiv (fnan f) x = fnan f.
Proof. intros f [| | |]; reflexivity. Qed.

Lemma RF_int_pos : forall e, (0 < e)%Z -> 0 < RF F (IZR e).
Proof.
  intros e He. apply Rlt_le_trans with (bpow radix2 0); [simpl; lra|]. apply RF_ge_2; [lia|].
  simpl. apply (IZR_le 1). lia.
Qed.


Lemma RF_lt_2 : forall x k, (0 <= k < 128)%Z -> Rabs x <= bpow radix2 k -> Rabs (RF F x) <= bpow radix2 k.
Proof. intros x k Hk H. apply RF_abs_le; [|assumption]. apply FF_bpow. pose proof (fmt_pos F). lia. Qed.

Lemma g_pow_spec : forall t e, (n + 4 <= fprec F)%Z -> is_intn n t -> is_int64 e ->
  exists u, g_pow m t e = Val u /\ is_intn n u /\
  match value Logarithmic n t with
  | None => u = nar n
  | Some x => if Req_bool x 0 && (e <=? 0)%Z then u = nar n else rounds Logarithmic n (powerRZ x e) u
  end.
Proof.
  intros t e HF It He. unfold is_int64 in He. pose proof (mo_range m Hm) as Hn. pose proof (pow2_pos (n - 1) ltac:(lia)) as Hp.
  assert (is_intn n (nar n) /\ is_intn n 0) as [IN I0] by (unfold is_intn, nar; lia).
  assert (nar n <> 0%Z) as N0 by (unfold nar; lia). unfold g_pow.
  pose proof (isf_fint_round F e ltac:(lia)) as Hi.
  destruct (takum_cases n t It) as [->|[->|R]].
  - rewrite value_0, Req_bool_true by reflexivity. rewrite Z.eqb_refl. simpl andb.
    destruct (Z.leb_spec e 0).
    + exists (nar n). auto.
    + exists 0%Z. rewrite (mo_dec0 m Hm). cbv beta iota delta [bind].
      rewrite (fmul_ninf_pos _ _ _ Hi) by (apply RF_int_pos; assumption). unfold fninf.
      rewrite (mo_cast_inf m Hm), (mo_enc_ninf m Hm). split; [reflexivity|]. split; [assumption|]. left. split; [|reflexivity].
      destruct e as [|p|p]; try lia. simpl. apply pow_i. lia.
  - rewrite value_nar by lia. exists (nar n). rewrite (proj2 (Z.eqb_neq _ _) N0). simpl andb. cbv iota.
    rewrite (mo_decN m Hm). cbv beta iota delta [bind]. rewrite fmul_nan_l. unfold fnan.
    rewrite (mo_cast_nan m Hm), (mo_enc_nan m Hm). auto.
  - rewrite value_log_real by assumption. pose proof R as (_ & Z0 & _). apply Z.eqb_neq in Z0. rewrite Z0. simpl andb. cbv iota.
    rewrite Req_bool_false by (unfold sg; pose proof (exp_pos (l_ n t / 2)); destruct (t <? 0)%Z; lra).
    simpl andb. cbv iota.
    destruct (mo_dec m Hm t R) as (l & -> & Hl). cbv beta iota delta [bind].
    destruct (l_dyadic n t ltac:(lia) R) as [k Ek]. pose proof (l_abs n t ltac:(lia) R) as Hb.
    assert (Rabs (RF F (IZR e)) <= bpow radix2 63) as HR.
    { apply RF_lt_2; [lia|]. rewrite <- IZR_pow2, <- abs_IZR by lia. apply IZR_le. lia. }
    assert (isf (fmul l (fint F e)) (RF F (l_ n t * RF F (IZR e)))) as Hmul.
    { apply isf_fmul; [assumption|assumption|]. apply (RF_lt_emax F _ 71); [pose proof (fmt_pos F); lia|].
      replace 71%Z with (8 + 63)%Z by lia. rewrite bpow_plus, Rabs_mult.
      apply Rmult_le_compat; try apply Rabs_pos; [|assumption]. change (bpow radix2 8) with 256. lra. }
    apply (mo_cast m Hm) in Hmul. rewrite (mo_enc m Hm _ _ _ Hmul). eexists. split; [reflexivity|].
    split; [apply asm_enc_intn; lia|]. rewrite rem_odd. rewrite (pow_enc _ _ _ k) by (assumption || lia).
    rewrite powerRZ_value. apply rounds_log_sg. apply enc_nearest_sg. lia.
Qed.

(** ** Roots *)
Lemma root_side : forall l e k E M j, (n + 8 <= fprec F)%Z -> (n + 8 <= m_P m)%Z ->
  l = IZR k * bpow radix2 (- (n - 5)) -> Rabs l <= 255 -> e <> 0%Z ->
  (Z.abs e <= 2 ^ 63)%Z ->
  (forall x, FF F x -> Rabs (m_psi m x - x) < bpow radix2 (- E)) ->
  bpow radix2 (8 - fprec F) + bpow radix2 (- E) * (511 / 2 * bpow radix2 (n - 4)) <= bpow radix2 (- (n - 4)) ->
  M = IZR j * bpow radix2 (- (n - 4)) -> j <> 0%Z -> Rabs M <= 255 ->
  let q := l / IZR e in
  let y := m_psi m (RF F (l / RF F (IZR e))) in
  (q < M -> y < M) /\ (M < q -> M < y) /\ (q = M -> y = M).
Proof.
  intros l e k E M j HF HP El Hl He He63 Hpsi Hnum EM Hj HM q y.
  pose proof (mo_range m Hm) as Hn. pose proof (fmt_pos F) as HFp.
  set (B := bpow radix2 (- (n - 4))) in *.
  assert (0 < B) as HB by apply bpow_gt_0.
  assert (B <= Rabs M) as HMB.
  { rewrite EM, Rabs_mult, (Rabs_pos_eq B) by lra. rewrite <- (Rmult_1_l B) at 1.
    apply Rmult_le_compat_r; [lra|]. rewrite <- abs_IZR. apply IZR_le. lia. }
  assert (IZR e <> 0) as Hez by (apply not_0_IZR; assumption).
  assert (0 < Rabs (IZR e)) as Hea by (apply Rabs_pos_lt; assumption).
  (* large exponents: everything is close to zero *)
  set (T := 511 * bpow radix2 (n - 5)).
  assert (T = IZR (511 * 2 ^ (n - 5))) as ET by (unfold T; rewrite mult_IZR, IZR_pow2 by lia; reflexivity).
  assert (255 = T * (510 * / 511 * B)) as E255.
  { unfold T, B. replace (- (n - 4))%Z with (-1 + - (n - 5))%Z by lia. rewrite bpow_plus.
    assert (bpow radix2 (n - 5) * bpow radix2 (- (n - 5)) = 1) as Eb by (rewrite <- bpow_plus, Z.add_opp_diag_r; reflexivity).
    change (bpow radix2 (-1)) with (/ 2).
    replace (511 * bpow radix2 (n - 5) * (510 * / 511 * (/ 2 * bpow radix2 (- (n - 5))))) with
      (255 * (bpow radix2 (n - 5) * bpow radix2 (- (n - 5)))) by field. rewrite Eb. ring. }
  destruct (Rle_or_lt T (Rabs (IZR e))) as [C|C].
  - set (B' := IZR 1023 * bpow radix2 (- (n + 6))).
    assert (B' = 1023 / 1024 * B) as EB'.
    { unfold B', B. replace (- (n + 6))%Z with (-10 + - (n - 4))%Z by lia. rewrite bpow_plus.
      change (bpow radix2 (-10)) with (/ 1024). field. }
    assert (forall d, T <= Rabs d -> Rabs (l / d) <= B') as Hq.
    { intros d Hd. assert (0 < T) by (unfold T; pose proof (bpow_gt_0 radix2 (n - 5)); lra).
      unfold Rdiv. rewrite Rabs_mult, Rabs_inv.
      apply Rmult_le_reg_r with (Rabs d); [lra|].
      rewrite Rmult_assoc, Rinv_l, Rmult_1_r by lra.
      apply Rle_trans with 255; [assumption|]. rewrite E255 at 1. rewrite EB', (Rmult_comm _ (Rabs d)).
      apply Rmult_le_compat; nra. }
    assert (T <= Rabs (RF F (IZR e))) as Hd.
    { apply abs_round_ge_generic; [apply fexpo_valid|apply valid_rnd_N| |assumption].
      rewrite ET. apply FF_IZR. rewrite Z.abs_eq by lia.
      apply Z.le_trans with (2 ^ 9 * 2 ^ (n - 5))%Z; [apply Z.mul_le_mono_nonneg_r; lia|].
      rewrite <- Z.pow_add_r by lia. apply Z.pow_le_mono_r; lia. }
    pose proof (Hq _ C) as Q1. pose proof (Hq _ Hd) as Q2. fold q in Q1.
    assert (FF F B') as FB.
    { apply FF_dyadic; [|lia]. apply Z.le_trans with (2 ^ 10)%Z; [lia|]. apply Z.pow_le_mono_r; lia. }
    assert (Rabs (RF F (l / RF F (IZR e))) <= B') as Q3 by (apply RF_abs_le; assumption).
    assert (- B' <= y <= B') as Q4.
    { apply Rabs_le_inv in Q3. unfold y. split.
      - replace (- B') with (m_psi m (- B')); [apply (mo_psi_mono m Hm); lra|].
        unfold B'. rewrite Ropp_mult_distr_l, <- opp_IZR. apply psi_dyadic. lia.
      - replace B' with (m_psi m B'); [apply (mo_psi_mono m Hm); lra|].
        unfold B'. apply psi_dyadic. lia. }
    apply Rabs_le_inv in Q1.
    destruct (Rcase_abs M) as [S|S]; [rewrite Rabs_left in HMB by assumption|rewrite Rabs_right in HMB by assumption];
      repeat split; intros; lra.
  - (* the exponent is exact *)
    assert (Z.abs e < 511 * 2 ^ (n - 5))%Z as He2.
    { apply lt_IZR. rewrite abs_IZR, <- ET. assumption. }
    assert (Z.abs e <= 2 ^ fprec F)%Z as He3.
    { apply Z.le_trans with (2 ^ 9 * 2 ^ (n - 5))%Z; [pose proof (pow2_pos (n - 5) ltac:(lia)); lia|].
      rewrite <- Z.pow_add_r by lia. apply Z.pow_le_mono_r; lia. }
    assert (RF F (IZR e) = IZR e) as Ee by (apply RF_id, FF_IZR; assumption).
    unfold y. rewrite Ee. fold q. clear y.
    destruct (Req_dec q M) as [Q|Q].
    { rewrite Q. assert (FF F M) as HFM.
      { rewrite EM. apply FF_small_dyadic; try lia. fold B. rewrite <- EM. lra. }
      rewrite (RF_id F M) by assumption.
      assert (m_psi m M = M) as -> by (rewrite EM; apply psi_dyadic; lia).
      repeat split; intros; lra. }
    assert (B <= Rabs (q - M) * Rabs (IZR e)) as G1.
    { rewrite <- Rabs_mult. replace ((q - M) * IZR e) with (IZR (2 * k - j * e) * B).
      - rewrite Rabs_mult, (Rabs_pos_eq B) by lra. rewrite <- (Rmult_1_l B) at 1.
        apply Rmult_le_compat_r; [lra|]. rewrite <- abs_IZR. apply IZR_le.
        assert (2 * k - j * e <> 0)%Z; [|lia]. intros E0. apply Q. unfold q. rewrite El, EM. fold B.
        apply Rmult_eq_reg_r with (IZR e); [|assumption]. unfold Rdiv. rewrite Rmult_assoc, Rinv_l, Rmult_1_r by assumption.
        replace (- (n - 5))%Z with (1 + - (n - 4))%Z by lia. rewrite bpow_plus. fold B. change (bpow radix2 1) with (IZR 2).
        rewrite <- Rmult_assoc, <- mult_IZR. replace (k * 2)%Z with (j * e)%Z by lia. rewrite mult_IZR. ring.
      - unfold q. rewrite minus_IZR, !mult_IZR, El, EM. fold B.
        replace (- (n - 5))%Z with (1 + - (n - 4))%Z by lia. rewrite bpow_plus. fold B. change (bpow radix2 1) with 2.
        field. assumption. }
    assert (Rabs (RF F q - q) * Rabs (IZR e) <= bpow radix2 (8 - fprec F)) as G2.
    { assert (Rabs (RF F q - q) <= bpow radix2 (- fprec F) * Rabs q) as R1.
      { destruct (Req_dec q 0) as [Z|Z]; [rewrite Z, RF_0, Rminus_0_r, Rabs_R0; lra|].
        replace (bpow radix2 (- fprec F)) with (/ 2 * bpow radix2 (- fprec F + 1)).
        2:{ rewrite bpow_plus. change (bpow radix2 1) with 2. field. }
        apply (Relative.relative_error_N_FLT radix2 (femin F) (fprec F) (fprec_gt_0 F)).
        assert (bpow radix2 (- (2 * n - 1)) <= Rabs q) as Hqlow.
        { assert (k <> 0)%Z as Hk.
          { intros ->. apply Z. unfold q. rewrite El. unfold Rdiv. ring. }
          unfold q, Rdiv. rewrite Rabs_mult, Rabs_inv.
          apply Rmult_le_reg_r with (Rabs (IZR e)); [assumption|].
          rewrite Rmult_assoc, Rinv_l, Rmult_1_r by lra.
          apply Rle_trans with (bpow radix2 (- (2 * n - 1)) * bpow radix2 (n + 4)).
          - apply Rmult_le_compat_l; [apply bpow_ge_0|]. left. eapply Rlt_le_trans; [exact C|].
            unfold T. replace (n + 4)%Z with (9 + (n - 5))%Z by lia. rewrite bpow_plus.
            apply Rmult_le_compat_r; [apply bpow_ge_0|]. change (bpow radix2 9) with 512. lra.
          - rewrite <- bpow_plus. rewrite El, Rabs_mult, (Rabs_pos_eq (bpow _ _)) by apply bpow_ge_0.
            apply Rle_trans with (1 * bpow radix2 (- (n - 5))).
            + rewrite Rmult_1_l. apply bpow_le. lia.
            + apply Rmult_le_compat_r; [apply bpow_ge_0|]. rewrite <- abs_IZR. apply IZR_le. lia. }
        eapply Rle_trans; [|exact Hqlow]. apply bpow_le. unfold femin. pose proof HF as HF2; revert HF2; destruct F; cbn [fprec femax]; lia. }
      apply Rle_trans with (bpow radix2 (- fprec F) * Rabs q * Rabs (IZR e)); [apply Rmult_le_compat_r; [lra|assumption]|].
      rewrite Rmult_assoc, <- Rabs_mult. replace (q * IZR e) with l by (unfold q; field; assumption).
      replace (8 - fprec F)%Z with (- fprec F + 8)%Z by lia. rewrite bpow_plus.
      apply Rmult_le_compat_l; [apply bpow_ge_0|]. change (bpow radix2 8) with 256. lra. }
    specialize (Hpsi (RF F q) (RF_FF F q)).
    assert (bpow radix2 (- E) * Rabs (IZR e) <= bpow radix2 (- E) * (511 / 2 * bpow radix2 (n - 4))) as G3.
    { apply Rmult_le_compat_l; [apply bpow_ge_0|]. left. eapply Rlt_le_trans; [exact C|]. right. unfold T.
      replace (n - 4)%Z with (1 + (n - 5))%Z by lia. rewrite bpow_plus. change (bpow radix2 1) with 2. field. }
    assert (Rabs (RF F q - q) + bpow radix2 (- E) <= Rabs (q - M)) as G4.
    { apply Rmult_le_reg_r with (Rabs (IZR e)); [assumption|]. rewrite Rmult_plus_distr_r. lra. }
    revert G4 Hpsi. set (z := RF F q). set (w := m_psi m z). clearbody z w. clear - Q. intros G4 Hpsi.
    repeat split; intros D; try lra; revert G4 Hpsi; unfold Rabs; repeat destruct (Rcase_abs _); lra.
Qed.

(** what is needed for correctly rounded roots *)
Definition root_good : Prop :=
  (n + 8 <= fprec F)%Z /\ (n + 8 <= m_P m)%Z /\ exists E,
  (forall x, FF F x -> Rabs (m_psi m x - x) < bpow radix2 (- E)) /\
  bpow radix2 (8 - fprec F) + bpow radix2 (- E) * (511 / 2 * bpow radix2 (n - 4)) <= bpow radix2 (- (n - 4)).

Lemma root_enc : forall s l e k, root_good -> l = IZR k * bpow radix2 (- (n - 5)) -> Rabs l <= 255 ->
  e <> 0%Z -> (Z.abs e <= 2 ^ 63)%Z ->
  enc n (m_psi m (sg s * RF F (l / RF F (IZR e)))) = enc n (sg s * (l / IZR e)).
Proof.
  intros s l e k (HF & HP & E & Hpsi & Hnum) El Hl He He63. pose proof (mo_range m Hm) as Hn.
  rewrite <- RF_sg. unfold Rdiv. rewrite <- !Rmult_assoc. fold (Rdiv (sg s * l) (RF F (IZR e))). fold (Rdiv (sg s * l) (IZR e)).
  apply enc_stable; [lia|]. intros u Hu. destruct (mid_dyadic n ltac:(lia) u Hu) as (j & Hj & EM).
  pose proof (mid_bounds n ltac:(lia) u Hu) as HM.
  apply (root_side (sg s * l) e (if s then - k else k)%Z E (mid n u) j); try assumption.
  - rewrite El. unfold sg. destruct s; rewrite ?opp_IZR; ring.
  - rewrite Rabs_mult, sg_abs, Rmult_1_l. assumption.
  - apply Rabs_le. lra.
Qed.

Lemma is_root_value : forall s l e, e <> 0%Z -> (s = true -> Z.odd e = true) ->
  is_root e (sg s * exp (l / 2)) (sg s * exp ((l / IZR e) / 2)).
Proof.
  intros s l e He Hs. pose proof (exp_pos (l / 2)). pose proof (exp_pos (l / IZR e / 2)).
  split; [assumption|]. split; [intros _; unfold sg; destruct s; lra|].
  split; [|unfold sg; destruct s; lra]. rewrite powerRZ_value. f_equal.
  - destruct s; simpl; [rewrite Hs by reflexivity|]; reflexivity.
  - f_equal. field. apply not_0_IZR. assumption.
Qed.

Lemma is_root_0 : forall e, (0 < e)%Z -> is_root e 0 0.
Proof.
  intros e He. split; [lia|]. split; [lia|]. split; [|lra]. destruct e as [|p|p]; try lia. simpl. apply pow_i. lia.
Qed.

(** the roots that exist *)
Definition has_root (e : Z) (x : R) : bool :=
  negb (e =? 0)%Z && negb (Rlt_bool x 0 && Z.even e) && negb (Req_bool x 0 && (e <? 0)%Z).

Lemma no_root : forall e x y, has_root e x = false -> ~ is_root e x y.
Proof.
  intros e x y H (He & H0 & Hp & H1 & H2 & H3). unfold has_root in H.
  apply Z.eqb_neq in He. rewrite He in H. simpl negb in H. rewrite andb_true_l in H.
  apply andb_false_iff in H as [H|H]; apply negb_false_iff, andb_true_iff in H as [Ha Hb].
  - destruct (Rlt_bool_spec x 0) as [Ha'|]; [|discriminate].
    assert (0 < powerRZ y e); [|lra].
    rewrite (sg_Rabs y), powerRZ_mult, powerRZ_sg, <- Z.negb_even, Hb, andb_false_r.
    unfold sg. rewrite Rmult_1_l. apply powerRZ_lt, Rabs_pos_lt. specialize (H2 Ha'). lra.
  - destruct (Req_bool_spec x 0) as [Ha'|]; [|discriminate]. apply Z.ltb_lt in Hb. exact (H0 Hb (H3 Ha')).
Qed.

Lemma g_root_real : forall t e, is_real_takum n t -> is_int64 e -> root_nar t e = false ->
  g_root m t e = Val (asm n (t <? 0)%Z (enc n (m_psi m (sg (t <? 0)%Z * RF F (l_ n t / RF F (IZR e)))))).
Proof.
  intros t e R He Hr. unfold is_int64 in He. pose proof (mo_range m Hm) as Hn. unfold g_root. rewrite Hr.
  pose proof (isf_fint_round F e ltac:(lia)) as Hi.
  destruct (mo_dec m Hm t R) as (l & -> & Hl). cbv beta iota delta [bind].
  pose proof (l_abs n t ltac:(lia) R) as Hb.
  assert (e <> 0)%Z as E0 by (unfold root_nar in Hr; destruct (Z.eqb_spec e 0); [discriminate|assumption]).
  assert (1 <= Rabs (RF F (IZR e))) as HR.
  { apply abs_round_ge_generic; [apply fexpo_valid|apply valid_rnd_N|apply (FF_IZR F 1)|].
    - pose proof (fmt_pos F). change (Z.abs 1) with (2 ^ 0)%Z. apply Z.pow_le_mono_r; lia.
    - rewrite <- abs_IZR. apply IZR_le. lia. }
  assert (RF F (IZR e) <> 0) as HR0 by (intros Z; rewrite Z, Rabs_R0 in HR; lra).
  assert (isf (fdiv l (fint F e)) (RF F (l_ n t / RF F (IZR e)))) as Hdiv.
  { apply isf_fdiv; [assumption|assumption|assumption|]. apply (RF_510 m).
    unfold Rdiv. rewrite Rabs_mult, Rabs_inv. apply Rle_trans with (255 * 1); [|lra].
    apply Rmult_le_compat; [apply Rabs_pos|left; apply Rinv_0_lt_compat; lra|assumption|].
    rewrite <- Rinv_1. apply Rinv_le; lra. }
  apply (mo_cast m Hm) in Hdiv. apply (mo_enc m Hm _ _ _ Hdiv).
Qed.

Lemma g_root_spec : forall t e, is_intn n t -> is_int64 e ->
  exists u, g_root m t e = Val u /\ is_intn n u /\
  match value Logarithmic n t with
  | None => u = nar n
  | Some x => if has_root e x
              then exists y, is_root e x y /\
                   (root_good -> rounds Logarithmic n y u) /\
                   ((64 <= fprec F)%Z -> rounds_faithfully Logarithmic n y u)
              else u = nar n
  end.
Proof.
  intros t e It He. unfold is_int64 in He. pose proof (mo_range m Hm) as Hn. pose proof (pow2_pos (n - 1) ltac:(lia)) as Hp.
  assert (is_intn n (nar n) /\ is_intn n 0) as [IN I0] by (unfold is_intn, nar; lia).
  assert (nar n <> 0%Z) as N0 by (unfold nar; lia). unfold g_root, root_nar, has_root.
  pose proof (isf_fint_round F e ltac:(lia)) as Hi.
  destruct (Z.eqb_spec e 0) as [E0|E0].
  { simpl orb. cbv iota. exists (nar n). split; [reflexivity|]. split; [assumption|].
    destruct (value Logarithmic n t); reflexivity. }
  simpl negb. simpl orb. cbn [negb orb andb].
  assert ((Z.rem e 2 =? 0)%Z = Z.even e) as Erem.
  { pose proof (rem_odd e) as H. rewrite <- Z.negb_even in H. destruct (Z.rem e 2 =? 0)%Z, (Z.even e); simpl in H; congruence. }
  rewrite Erem.
  destruct (takum_cases n t It) as [->|[->|R]].
  - rewrite value_0, Rlt_bool_false by lra. rewrite Req_bool_true, Z.eqb_refl by reflexivity.
    change (0 <? 0)%Z with false. simpl andb. simpl orb. simpl negb. rewrite ?andb_true_l.
    destruct (Z.ltb_spec e 0); simpl negb; cbv iota.
    + exists (nar n). auto.
    + exists 0%Z. rewrite (mo_dec0 m Hm). cbv beta iota delta [bind].
      rewrite (fdiv_ninf_pos _ _ _ Hi) by (apply RF_int_pos; lia). unfold fninf.
      rewrite (mo_cast_inf m Hm), (mo_enc_ninf m Hm). split; [reflexivity|]. split; [assumption|].
      exists 0. split; [apply is_root_0; lia|]. split; intros _; left; auto.
  - rewrite value_nar by lia. exists (nar n). split; [|auto].
    destruct (((nar n <? 0)%Z && Z.even e) || ((nar n =? 0)%Z && (e <? 0)%Z)); [reflexivity|].
    rewrite (mo_decN m Hm). cbv beta iota delta [bind]. rewrite fdiv_nan_l. unfold fnan.
    rewrite (mo_cast_nan m Hm), (mo_enc_nan m Hm). reflexivity.
  - rewrite value_log_real by assumption. pose proof R as (_ & Z0 & _). apply Z.eqb_neq in Z0. rewrite Z0.
    assert (Rlt_bool (sg (t <? 0)%Z * exp (l_ n t / 2)) 0 = (t <? 0)%Z) as ->.
    { pose proof (exp_pos (l_ n t / 2)). unfold sg. destruct (t <? 0)%Z; [apply Rlt_bool_true|apply Rlt_bool_false]; lra. }
    rewrite Req_bool_false by (unfold sg; pose proof (exp_pos (l_ n t / 2)); destruct (t <? 0)%Z; lra).
    simpl andb. simpl negb. rewrite andb_true_r, orb_false_r.
    destruct ((t <? 0)%Z && Z.even e) eqn:Es; simpl negb; cbv iota; [exists (nar n); auto|].
    destruct (l_dyadic n t ltac:(lia) R) as [k Ek]. pose proof (l_abs n t ltac:(lia) R) as Hb.
    pose proof (g_root_real t e R He) as Hg. unfold g_root, root_nar in Hg.
    rewrite (proj2 (Z.eqb_neq _ _) E0), Erem, Z0, Es in Hg. specialize (Hg eq_refl). simpl orb in Hg. cbv iota in Hg.
    rewrite Hg. eexists. split; [reflexivity|].
    split; [apply asm_enc_intn; lia|]. eexists. split.
    { apply (is_root_value _ (l_ n t)); [assumption|]. intros Ht. rewrite Ht in Es. rewrite <- Z.negb_even.
      simpl in Es. rewrite Es. reflexivity. }
    split.
    + intros HG. rewrite (root_enc _ _ _ k) by (assumption || lia). apply rounds_log_sg. apply enc_nearest_sg. lia.
    + intros H64. rewrite (RF_id F (IZR e)).
      * apply (rounds_faithfully_sg Logarithmic). apply (enc_RF_faithful m Hm).
      * apply FF_IZR. assert (2 ^ 63 <= 2 ^ fprec F)%Z by (apply Z.pow_le_mono_r; lia). lia.
Qed.
End M.

Lemma mach8_root : root_good mach8.
Proof.
  split; [|split]; mach_cbn; try (simpl; lia). exists 64%Z. split.
  - intros x _. rewrite Rminus_diag_eq, Rabs_R0 by reflexivity. apply bpow_gt_0.
  - simpl. lra.
Qed.
Lemma FF_f32_f64 : forall x, FF f32 x -> FF f64 x.
Proof. intros x. apply FF_sub. split; simpl; lia. Qed.
Lemma FF_f64_f80 : forall x, FF f64 x -> FF f80 x.
Proof. intros x. apply FF_sub. split; simpl; lia. Qed.
Lemma mach16_root : root_good mach16.
Proof.
  split; [|split]; mach_cbn; try (simpl; lia). exists 53%Z. split.
  - intros x H. apply (phi_err f64); [simpl; lia|]. apply FF_f32_f64. assumption.
  - simpl. lra.
Qed.
Lemma mach32_root : root_good mach32.
Proof.
  split; [|split]; mach_cbn; try (simpl; lia). exists 64%Z. split.
  - intros x H. apply (phi_err f80); [simpl; lia|]. apply FF_f64_f80. assumption.
  - simpl. lra.
Qed.

Lemma log_root_inv : forall n f, log_root n f ->
  exists m, mach_ok m /\ m_n m = n /\ (forall a b, f a b = g_root m a b) /\
    (n <> 64%Z -> root_good m) /\ (n = 64%Z -> fprec (m_F m) = 64%Z).
Proof.
  intros n f [].
  - exists mach8. repeat (split; [first [apply mach8_ok|reflexivity|intros; apply mach8_root]|]). discriminate.
  - exists mach16. repeat (split; [first [apply mach16_ok|reflexivity|intros; apply mach16_root]|]). discriminate.
  - exists mach32. repeat (split; [first [apply mach32_ok|reflexivity|intros; apply mach32_root]|]). discriminate.
  - exists mach64. repeat (split; [first [apply mach64_ok|reflexivity|intros H; destruct H; reflexivity]|]). reflexivity.
Qed.
