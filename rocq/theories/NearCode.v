(** The conversions from floats round a coordinate with a small error. *)
From Coq Require Import ZArith Reals Bool Lia Lra.
From Flocq Require Import Core.Core IEEE754.BinarySingleNaN.
From Verif Require Import CModel FloatModel Libm LibmSpec WidthConv Spec CodeFacts SpecFacts ValueFacts RoundFacts WidthFacts WidthApi WidthProps FloatFacts DecodeFacts EncodeFacts Machine LogFacts PowFacts LogApi LinApi LinFacts LinProps MiscProps NearFacts WrapApi LogConv WrapSpec.
Local Open Scope R_scope.

(** ** The distance of a number from the nearest takum *)
Lemma cpm_step_up : forall n v, (6 <= n <= 64)%Z -> (0 <= v)%Z -> (v + 1 < 2 ^ (n - 1))%Z -> forall x, cpm n v <= x <= cpm n (v + 1) ->
  cpm n (v + 1) - cpm n v <= bpow radix2 (5 - n) * (Rabs x + 1).
Proof.
  intros n v Hn V0 V1 x Hx. destruct (u_split n Hn v ltac:(lia)) as (DR & y & Ev & Hy & HD).
  pose proof (cpm_affine n Hn DR y HD ltac:(lia) ltac:(lia)) as E1.
  pose proof (cpm_affine n Hn DR (y + 1) HD ltac:(lia) ltac:(lia)) as E2.
  replace (DR * 2 ^ (n - 5) + (y + 1))%Z with (v + 1)%Z in E2 by lia. rewrite <- Ev in E1.
  pose proof (regZ_bounds DR HD) as Hr. set (g := bpow radix2 (regZ DR - (n - 5))) in *. assert (0 < g) as Pg by apply bpow_gt_0.
  rewrite plus_IZR in E2. assert (g = bpow radix2 (5 - n) * bpow radix2 (regZ DR)) as Eg by (unfold g; rewrite <- bpow_plus; f_equal; lia).
  replace (cpm n (v + 1) - cpm n v) with g by (rewrite E1, E2; ring). rewrite Eg. apply Rmult_le_compat_l; [apply bpow_ge_0|].
  assert (0 <= IZR y * g) as Y0 by (apply Rmult_le_pos; [apply IZR_le; lia|lra]).
  assert ((IZR y + 1) * g <= bpow radix2 (regZ DR)) as Y1.
  { replace (bpow radix2 (regZ DR)) with (bpow radix2 (n - 5) * g) by (unfold g; rewrite <- bpow_plus; f_equal; lia).
    apply Rmult_le_compat_r; [lra|]. rewrite <- IZR_pow2 by lia. rewrite <- plus_IZR. apply IZR_le. lia. }
  destruct (Z_lt_le_dec DR 8) as [D|D].
  - assert (IZR (biasZ DR) = 1 - 2 * bpow radix2 (regZ DR)) as Eb.
    { unfold biasZ, regZ. rewrite (proj2 (Z.ltb_lt _ _) D). rewrite plus_IZR, opp_IZR, IZR_pow2 by lia. replace (8 - DR)%Z with (1 + (7 - DR))%Z by lia. rewrite bpow_plus. change (bpow radix2 1) with 2. ring. }
    assert (x <= 1 - bpow radix2 (regZ DR)) by lra. pose proof (Rle_abs (- x)) as A. rewrite Rabs_Ropp in A. lra.
  - assert (IZR (biasZ DR) = bpow radix2 (regZ DR) - 1) as Eb.
    { unfold biasZ, regZ. rewrite (proj2 (Z.ltb_ge _ _) D). rewrite minus_IZR, IZR_pow2 by lia. reflexivity. }
    pose proof (Rle_abs x). lra.
Qed.

Lemma sg_dist : forall s a b, Rabs (sg s * a - b) = Rabs (a - sg s * b).
Proof. intros s a b. replace (sg s * a - b) with (sg s * (a - sg s * b)) by (rewrite Rmult_minus_distr_l, <- Rmult_assoc, sg_sq; ring). rewrite Rabs_mult, sg_abs. ring. Qed.

Lemma near_dist : forall n s L T, (6 <= n <= 64)%Z -> nearest n s L T ->
  Rabs (l_ n T - L) <= bpow radix2 (4 - n) * (Rabs L + 1) \/
  (forall W, is_real_takum n W -> has_sign s W -> L <= l_ n T <= l_ n W) \/
  (forall W, is_real_takum n W -> has_sign s W -> l_ n W <= l_ n T <= L).
Proof.
  intros n s L T Hn NT. set (x := sg s * L). pose proof (pow2_pos (n - 6) ltac:(lia)) as P6.
  assert (2 ^ (n - 1) = 2 ^ (n - 6) * 32)%Z as P1 by (change 32%Z with (2 ^ 5)%Z; rewrite <- Z.pow_add_r by lia; f_equal; lia).
  assert (forall v, (0 < v < 2 ^ (n - 1))%Z -> is_real_takum n (asm n s v) /\ has_sign s (asm n s v) /\ l_ n (asm n s v) = sg s * cpm n v) as A.
  { intros v Hv. assert (is_real_takum n (asm n s v)) as R by (apply asm_real; assumption). split; [assumption|].
    assert (has_sign s (asm n s v)) as S. { unfold asm, has_sign. destruct s; lia. }
    split; [assumption|]. rewrite l_sg_cpm by assumption. rewrite (has_sign_ltb _ _ S) by apply R. rewrite low_asm by lia. reflexivity. }
  assert (forall v, (0 < v < 2 ^ (n - 1))%Z -> Rabs (l_ n T - L) <= Rabs (cpm n v - x)) as B.
  { intros v Hv. destruct (A v Hv) as (R & S & E). destruct NT as (_ & _ & M). destruct (M _ R S) as [D _]. rewrite E, sg_dist in D. exact D. }
  assert (forall W, is_real_takum n W -> has_sign s W -> exists v, (0 < v < 2 ^ (n - 1))%Z /\ l_ n W = sg s * cpm n v) as C.
  { intros W R S. exists (low n W). split; [apply real_low_pos; [lia|assumption]|]. rewrite l_sg_cpm by assumption. rewrite (has_sign_ltb _ _ S) by apply R. reflexivity. }
  destruct (C T) as (vT & HvT & ET); [apply NT|apply NT|].
  assert (umax n = 2 ^ (n - 1) - 1)%Z as EU by reflexivity.
  assert (L = sg s * x) as EL by (unfold x; rewrite <- Rmult_assoc, sg_sq; ring).
  assert (x <= cpm n 1 \/ cpm n (umax n) <= x \/ cpm n 1 < x < cpm n (umax n)) as D by lra.
  destruct D as [D|[D|D]].
  - right. assert (cpm n vT = cpm n 1) as E1.
    { pose proof (cpm_le n Hn 1 vT ltac:(lia) ltac:(lia)). pose proof (B 1%Z ltac:(lia)) as K. rewrite ET, sg_dist in K. fold x in K. rewrite !Rabs_pos_eq in K by lra. lra. }
    assert (forall W, is_real_takum n W -> has_sign s W -> exists v, l_ n W = sg s * cpm n v /\ cpm n 1 <= cpm n v) as C'.
    { intros W R S. destruct (C W R S) as (v & Hv & E). exists v. split; [assumption|]. apply cpm_le; lia. }
    destruct s; [right|left]; intros W R S; destruct (C' W R S) as (v & E & Hv); rewrite E, ET, EL, E1; unfold sg; lra.
  - right. assert (cpm n vT = cpm n (umax n)) as E1.
    { pose proof (cpm_le n Hn vT (umax n) ltac:(lia) ltac:(lia)). pose proof (B (umax n) ltac:(lia)) as K. rewrite ET, sg_dist in K. fold x in K. rewrite !Rabs_left1 in K by lra. lra. }
    assert (forall W, is_real_takum n W -> has_sign s W -> exists v, l_ n W = sg s * cpm n v /\ cpm n v <= cpm n (umax n)) as C'.
    { intros W R S. destruct (C W R S) as (v & Hv & E). exists v. split; [assumption|]. apply cpm_le; lia. }
    destruct s; [left|right]; intros W R S; destruct (C' W R S) as (v & E & Hv); rewrite E, ET, EL, E1; unfold sg; lra.
  - left. assert (exists v, (0 < v)%Z /\ (v + 1 < 2 ^ (n - 1))%Z /\ cpm n v <= x <= cpm n (v + 1)) as (v & V0 & V1 & Hx).
    { assert (forall k : nat, (Z.of_nat k < 2 ^ (n - 1) - 1)%Z -> x <= cpm n (Z.of_nat k + 1) -> exists v, (0 < v)%Z /\ (v + 1 < 2 ^ (n - 1))%Z /\ cpm n v <= x <= cpm n (v + 1)) as I.
      { induction k as [|k IH]; intros K1 K2; [simpl in K2; lra|]. destruct (Rle_or_lt x (cpm n (Z.of_nat k + 1))) as [Q|Q]; [apply IH; [lia|assumption]|].
        exists (Z.of_nat k + 1)%Z. replace (Z.of_nat k + 1 + 1)%Z with (Z.of_nat (S k) + 1)%Z by lia. split; [lia|]. split; [lia|]. split; [left; assumption|assumption]. }
      apply (I (Z.to_nat (umax n - 1))); rewrite Z2Nat.id by lia; [lia|]. replace (umax n - 1 + 1)%Z with (umax n) by lia. lra. }
    pose proof (cpm_step_up n v Hn ltac:(lia) V1 x Hx) as G. pose proof (B v ltac:(lia)) as B1. pose proof (B (v + 1)%Z ltac:(lia)) as B2.
    rewrite (Rabs_left1 (cpm n v - x)) in B1 by lra. rewrite (Rabs_pos_eq (cpm n (v + 1) - x)) in B2 by lra.
    assert (Rabs x = Rabs L) as EA by (unfold x; rewrite Rabs_mult, sg_abs; ring). rewrite EA in G.
    replace (5 - n)%Z with (1 + (4 - n))%Z in G by lia. rewrite bpow_plus in G. change (bpow radix2 1) with 2 in G. lra.
Qed.

Lemma far_nearest : forall n s L T t, (6 <= n < 64)%Z -> nearest n s (l_ 64 T) t ->
  (forall W, is_real_takum 64 W -> has_sign s W -> L <= l_ 64 T <= l_ 64 W) \/ (forall W, is_real_takum 64 W -> has_sign s W -> l_ 64 W <= l_ 64 T <= L) ->
  nearest n s L t.
Proof.
  intros n s L T t Hn (R & S & M) H. split; [assumption|]. split; [assumption|]. intros t' R' S'.
  assert (forall w, is_real_takum n w -> has_sign s w -> Rabs (l_ n w - L) = Rabs (l_ n w - l_ 64 T) + Rabs (l_ 64 T - L)) as D.
  { intros w Rw Sw. destruct (widen_real n w ltac:(lia) Rw) as (R6 & S6 & E6). assert (has_sign s (w * 2 ^ (64 - n))) as Q.
    { pose proof (pow2_pos (64 - n) ltac:(lia)). destruct s; simpl in *; nia. }
    destruct H as [H|H]; specialize (H _ R6 Q); rewrite E6 in H; [rewrite !Rabs_pos_eq by lra|rewrite !Rabs_left1 by lra]; ring. }
  destruct (M t' R' S') as [M1 M2]. rewrite !D by assumption. split; [lra|]. intros E. apply M2. lra.
Qed.

Theorem log_from_near : forall lm n g (y : flt f80), c99 lm -> log_from_float lm n f80 g ->
  is_finite y = true -> exists t, g y = Val t /\ rounds_nearly Logarithmic n (code_error Logarithmic n) (B2R y) t.
Proof.
  intros lm n g y C H Fy. destruct (log_from_faithful lm n f80 g y C H Fy) as (t & Et & Rt). exists t. split; [assumption|]. split; [assumption|].
  intros Na. set (a := B2R y) in *. assert (isf y a) as Hy by (split; [assumption|reflexivity]).
  assert (exists nw, (n = 64%Z /\ (forall t, nw t = Val t) \/ ((n < 64)%Z /\ narrowing Logarithmic 64 n nw)) /\
    forall y, g y = if feq y (fzero f80) then Val 0%Z else if negb (fisfinite y) then Val (NaR n) else bind (log_enc lm mach64 f80 (fun x => x) (fun x => x) y) nw) as (nw & Hnw & Hf).
  { clear -H. change (match f80 as F return (flt F -> outcome Z) -> Prop with f80 => fun g => exists nw, (n = 64%Z /\ (forall t, nw t = Val t) \/ ((n < 64)%Z /\ narrowing Logarithmic 64 n nw)) /\
    forall y, g y = if feq y (fzero f80) then Val 0%Z else if negb (fisfinite y) then Val (NaR n) else bind (log_enc lm mach64 f80 (fun x => x) (fun x => x) y) nw | _ => fun _ => True end g).
    destruct H; try exact Logic.I.
    - exists takum8_from_takum64. split; [right; split; [lia|constructor]|reflexivity].
    - exists takum16_from_takum64. split; [right; split; [lia|constructor]|reflexivity].
    - exists takum32_from_takum64. split; [right; split; [lia|constructor]|reflexivity].
    - exists (fun t => Val t). split; [left; split; reflexivity|]. intros y. rewrite bind_val. reflexivity. }
  rewrite Hf, (feq_isf y (fzero f80) a 0 Hy (FloatFacts.isf_zero f80)), Req_bool_false, (fisfinite_isf y a Hy) in Et by assumption. cbn [negb] in Et.
  destruct (log_enc_near lm mach64 f80 f80 (fun x => x) (fun x => x) 0 y a C mach64_ok psi_close64 (fun _ _ h => h) (cg_id f80) (Rle_refl 0)) as (L & T & ET & NT & E); [simpl; lra|assumption|assumption|].
  rewrite ET in Et. cbn [bind] in Et. change (m_n mach64) with 64%Z in *. rewrite Rmult_0_l, Rplus_0_r in E. change (2 - fprec f80)%Z with (-62)%Z in E.
  set (s := Rlt_bool a 0) in *. cbn [coord]. set (c := log_coord a) in *. pose proof (Rabs_pos c) as Pc.
  set (q := bpow radix2 (- (64))) in *. assert (0 < q) as Pq by apply bpow_gt_0. assert (q <= / 1024) as Qs by (unfold q; replace (/ 1024) with (bpow radix2 (-10)) by (simpl; lra); apply bpow_le; lia).
  assert (bpow radix2 (-62) = 4 * q) as E62 by (unfold q; change (-62)%Z with (2 + -64)%Z; rewrite bpow_plus; reflexivity).
  assert (bpow radix2 (-59) = 32 * q) as E59 by (unfold q; change (-59)%Z with (5 + -64)%Z; rewrite bpow_plus; reflexivity).
  rewrite E62 in E. unfold code_error.
  destruct Hnw as [[-> Hnw]|[Hlt HN]].
  - rewrite Hnw in Et. injection Et as <-. exists L. split; [assumption|]. rewrite Z.eqb_refl, E62. lra.
  - destruct (Z.eqb_spec n 64) as [K|_]; [lia|]. rewrite E59. apply narrowing_inv in HN as (HA & HB & _ & ->). pose proof (std_range n HB) as Hrn.
    destruct (reduce_real 64 n T HA HB Hlt (proj1 NT)) as (t' & Et' & Nn & _). rewrite Et' in Et. injection Et as ->.
    assert (nearest n s (l_ 64 T) t) as Nt. { replace s with (T <? 0)%Z; [assumption|]. destruct NT as (R1 & R2 & _). apply has_sign_ltb; [assumption|]. apply R1. }
    destruct (near_dist 64 s L T ltac:(lia) NT) as [D|D].
    + exists (l_ 64 T). split; [assumption|]. change (4 - 64)%Z with (-60)%Z in D.
      assert (bpow radix2 (-60) = 16 * q) as E60 by (unfold q; change (-60)%Z with (4 + -64)%Z; rewrite bpow_plus; reflexivity). rewrite E60 in D.
      assert (Rabs L <= Rabs c + Rabs (L - c)) by (replace L with (c + (L - c)) at 1 by ring; apply Rabs_triang).
      replace (l_ 64 T - c) with ((l_ 64 T - L) + (L - c)) by ring. eapply Rle_trans; [apply Rabs_triang|].
      assert (q * Rabs c <= / 1024 * Rabs c) by (apply Rmult_le_compat_r; assumption). assert (Rabs L + 1 <= 3 / 2 * (Rabs c + 1)) as BL by lra.
      assert (16 * q * (Rabs L + 1) <= 16 * q * (3 / 2 * (Rabs c + 1))) by (apply Rmult_le_compat_l; lra). pose proof (Rmult_le_pos q (Rabs c) ltac:(lra) Pc). lra.
    + exists L. split; [|pose proof (Rmult_le_pos q (Rabs c) ltac:(lra) Pc); lra]. eapply far_nearest; [|exact Nt|exact D]. lia.
Qed.

Lemma lin_from_near_main : forall n F g (f : flt F) t, linear_from_float n F g -> F <> f32 -> ~ (n = 16%Z /\ F = f80) -> is_finite f = true -> B2R f <> 0 -> g f = Val t ->
  exists L, nearest n (Rlt_bool (B2R f) 0) L t /\ Rabs (L - lin_coord (B2R f)) <= code_error Linear n * Rabs (lin_coord (B2R f)).
Proof.
  intros n F g f t H H32 HE Hfin Hx Et. pose proof (std_range n (from_std _ _ _ H)) as Hn.
  rewrite (lin_from_nearest n F g f (B2R f) H HE (conj Hfin eq_refl) Hx) in Et. injection Et as <-.
  exists (from_rho n F (lin_coord (B2R f))). split; [apply enc_nearest_sg; lia|].
  destruct (lin_coord_dyadic F f _ (conj Hfin eq_refl) Hx) as [k Hk]. rewrite Hk.
  pose proof (fmt_pos F) as Hp.
  assert (F <> f128) as N128 by (destruct H; discriminate).
  assert (0 <= fprec F - 1 <= 100)%Z as Hd by (destruct F; simpl; try lia; congruence).
  set (y := IZR k * bpow radix2 (- (fprec F - 1))) in *. pose proof (Rabs_pos y) as Py.
  assert (forall A q, (q <= fprec A)%Z -> Rabs (RF A y - y) <= bpow radix2 (- q) * Rabs y) as R.
  { intros A q Hq. eapply Rle_trans; [apply (MiscProps.RF_rel A k _ Hd)|]. fold y.
    apply Rmult_le_compat_r; [apply Rabs_pos|]. apply bpow_le. lia. }
  assert (forall q, Rabs (y - y) <= bpow radix2 (- q) * Rabs y) as R0.
  { intros q. unfold Rminus. rewrite Rplus_opp_r, Rabs_R0. apply Rmult_le_pos; [apply bpow_ge_0|apply Rabs_pos]. }
  assert (Rabs (RF f32 (RF f80 y) - y) <= bpow radix2 (-23) * Rabs y) as R2.
  { assert (y = 0 \/ bpow radix2 (-100) <= Rabs y) as [Z|B].
    - destruct (Z.eq_dec k 0) as [->|Nk]; [left; unfold y; ring|right]. unfold y. rewrite Rabs_mult, (Rabs_pos_eq (bpow _ _)), <- abs_IZR by apply bpow_ge_0.
      apply Rle_trans with (1 * bpow radix2 (- (fprec F - 1))); [rewrite Rmult_1_l; apply bpow_le; lia|]. apply Rmult_le_compat_r; [apply bpow_ge_0|]. apply IZR_le. lia.
    - rewrite Z, !RF_0, Rminus_0_r, Rabs_R0. lra.
    - pose proof (R f80 64%Z ltac:(simpl; lia)) as E1. change (- (64))%Z with (-64)%Z in E1.
      assert (bpow radix2 (-64) = / 2 * bpow radix2 (-63)) as E64 by (change (-63)%Z with (1 + -64)%Z; rewrite bpow_plus; change (bpow radix2 1) with 2; lra).
      assert (bpow radix2 (-64) <= / 1024) as Q by (replace (/ 1024) with (bpow radix2 (-10)) by (simpl; lra); apply bpow_le; lia). pose proof (bpow_gt_0 radix2 (-64)) as P64.
      assert (Rabs y <= Rabs (RF f80 y) + Rabs (RF f80 y - y)) as T1 by (replace y with (RF f80 y + - (RF f80 y - y)) at 1 by ring; eapply Rle_trans; [apply Rabs_triang|rewrite Rabs_Ropp; lra]).
      assert (Rabs (RF f80 y) <= Rabs y + Rabs (RF f80 y - y)) as T2 by (replace (RF f80 y) with (y + (RF f80 y - y)) at 1 by ring; apply Rabs_triang).
      assert (/ 2 * Rabs y <= Rabs (RF f80 y) <= (1 + / 1024) * Rabs y) as T3 by (split; nra).
      assert (bpow radix2 (-101) <= Rabs (RF f80 y)) as B2. { assert (bpow radix2 (-100) = 2 * bpow radix2 (-101)) by (change (-100)%Z with (1 + -101)%Z; rewrite bpow_plus; reflexivity). lra. }
      pose proof (LogConv.RF_rel f32 (RF f80 y) ltac:(eapply Rle_trans; [apply bpow_le|exact B2]; simpl; lia)) as E2. change (- fprec f32)%Z with (-24)%Z in E2.
      assert (bpow radix2 (-64) <= / 1024 * bpow radix2 (-24)) as Q2 by (replace (/ 1024) with (bpow radix2 (-10)) by (simpl; lra); rewrite <- bpow_plus; apply bpow_le; lia).
      assert (bpow radix2 (-23) = 2 * bpow radix2 (-24)) as E23 by (change (-23)%Z with (1 + -24)%Z; rewrite bpow_plus; reflexivity). rewrite E23. pose proof (bpow_gt_0 radix2 (-24)) as P24.
      replace (RF f32 (RF f80 y) - y) with ((RF f32 (RF f80 y) - RF f80 y) + (RF f80 y - y)) by ring. eapply Rle_trans; [apply Rabs_triang|].
      assert (bpow radix2 (-24) * Rabs (RF f80 y) <= bpow radix2 (-24) * ((1 + / 1024) * Rabs y)) by (apply Rmult_le_compat_l; lra).
      assert (bpow radix2 (-64) * Rabs y <= / 1024 * bpow radix2 (-24) * Rabs y) by (apply Rmult_le_compat_r; assumption). nra. }
  assert (forall p q, (p <= q)%Z -> bpow radix2 (- q) * Rabs y <= bpow radix2 (- p) * Rabs y) as W by (intros p q Hq; apply Rmult_le_compat_r; [assumption|apply bpow_le; lia]).
  unfold code_error. destruct H; cbn [Z.eqb Pos.eqb];
    first [(exfalso; apply H32; reflexivity) | exact (R0 64%Z) | exact R2 | exact (R f80 64%Z ltac:(simpl; lia)) | exact (R f64 51%Z ltac:(simpl; lia)) | exact (R f32 23%Z ltac:(simpl; lia)) | exact (R0 51%Z) | (exfalso; apply HE; split; reflexivity) | (eapply Rle_trans; [exact (R f32 24%Z ltac:(simpl; lia))|apply W; lia])].
Qed.

Lemma lin_from_near_16 : forall g (f : flt f80) t, linear_from_float 16 f80 g -> is_finite f = true -> B2R f <> 0 -> g f = Val t ->
  exists L, nearest 16 (Rlt_bool (B2R f) 0) L t /\ Rabs (L - lin_coord (B2R f)) <= code_error Linear 16 * (Rabs (lin_coord (B2R f)) + 1).
Proof.
  intros g f t H Hfin Hx Et. destruct (linear_from_form _ _ _ H) as (Hm & Hmn & Hrho & Hg & _). rewrite (Hg f _ (conj Hfin eq_refl) Hx) in Et.
  match type of Et with Val ?u = _ => assert (t = u) as -> by congruence end.
  destruct (lin_coord_dyadic f80 f _ (conj Hfin eq_refl) Hx) as [k Hk]. set (s := Rlt_bool (B2R f) 0) in *.
  set (y := lin_coord (B2R f)) in *. change (from_rho 16 f80 y) with (RF f64 (RF f80 y)). change (from_mach 16) with mach16. set (z := RF f64 (RF f80 y)).
  exists (sg s * m_psi mach16 (sg s * z)). split.
  { replace (m_psi mach16 (sg s * z)) with (sg s * (sg s * m_psi mach16 (sg s * z))) at 2 by (rewrite <- Rmult_assoc, sg_sq; ring). apply enc_nearest_sg. lia. }
  rewrite sg_dist. assert (FF f64 (sg s * z)) as Fz.
  { assert (FF f64 z) as Fz by apply RF_FF. unfold sg. destruct s; [replace (-1 * z) with (- z) by ring; apply FF_opp|rewrite Rmult_1_l]; assumption. }
  pose proof (phi_err f64 _ ltac:(simpl; lia) Fz) as Ep. change (PhiFacts.phi f64 (sg s * z)) with (m_psi mach16 (sg s * z)) in Ep. change (- fprec f64)%Z with (-53)%Z in Ep.
  change (code_error Linear 16) with (bpow radix2 (-51)).
  assert (bpow radix2 (-51) = 4 * bpow radix2 (-53)) as E51 by (change (-51)%Z with (2 + -53)%Z; rewrite bpow_plus; reflexivity). set (q := bpow radix2 (-53)) in *. assert (0 < q) as Pq by apply bpow_gt_0.
  pose proof (Rabs_pos y) as Py. rewrite E51.
  assert (Rabs (z - y) <= 2 * q * Rabs y) as Ez.
  { assert (y = 0 \/ bpow radix2 (-100) <= Rabs y) as [Z|B].
    - rewrite Hk. destruct (Z.eq_dec k 0) as [->|Nk]; [left; ring|right]. rewrite Rabs_mult, (Rabs_pos_eq (bpow _ _)), <- abs_IZR by apply bpow_ge_0.
      apply Rle_trans with (1 * bpow radix2 (- (fprec f80 - 1))); [rewrite Rmult_1_l; apply bpow_le; simpl; lia|]. apply Rmult_le_compat_r; [apply bpow_ge_0|]. apply IZR_le. lia.
    - unfold z. rewrite Z, !RF_0, Rminus_0_r, Rabs_R0. lra.
    - pose proof (LogConv.RF_rel f80 y ltac:(eapply Rle_trans; [apply bpow_le|exact B]; simpl; lia)) as E1. change (- fprec f80)%Z with (-64)%Z in E1.
      assert (bpow radix2 (-64) <= / 1024 * q) as Q by (unfold q; replace (/ 1024) with (bpow radix2 (-10)) by (simpl; lra); rewrite <- bpow_plus; apply bpow_le; lia). pose proof (bpow_gt_0 radix2 (-64)) as P64.
      assert (q <= / 1024) as Q1 by (unfold q; replace (/ 1024) with (bpow radix2 (-10)) by (simpl; lra); apply bpow_le; lia).
      assert (bpow radix2 (-64) * Rabs y <= / 1024 * q * Rabs y) as Q3 by (apply Rmult_le_compat_r; assumption).
      assert (q * Rabs y <= / 1024 * Rabs y) as Q4 by (apply Rmult_le_compat_r; assumption).
      assert (Rabs y <= Rabs (RF f80 y) + Rabs (RF f80 y - y)) as T1 by (replace y with (RF f80 y + - (RF f80 y - y)) at 1 by ring; eapply Rle_trans; [apply Rabs_triang|rewrite Rabs_Ropp; lra]).
      assert (Rabs (RF f80 y) <= Rabs y + Rabs (RF f80 y - y)) as T2 by (replace (RF f80 y) with (y + (RF f80 y - y)) at 1 by ring; apply Rabs_triang).
      assert (bpow radix2 (-101) <= Rabs (RF f80 y)) as B2. { assert (bpow radix2 (-100) = 2 * bpow radix2 (-101)) by (change (-100)%Z with (1 + -101)%Z; rewrite bpow_plus; reflexivity). lra. }
      pose proof (LogConv.RF_rel f64 (RF f80 y) ltac:(eapply Rle_trans; [apply bpow_le|exact B2]; simpl; lia)) as E2. change (- fprec f64)%Z with (-53)%Z in E2. fold z q in E2.
      replace (z - y) with ((z - RF f80 y) + (RF f80 y - y)) by ring. eapply Rle_trans; [apply Rabs_triang|].
      assert (q * Rabs (RF f80 y) <= q * ((1 + / 1024) * Rabs y)) by (apply Rmult_le_compat_l; lra). nra. }
  replace (m_psi mach16 (sg s * z) - sg s * y) with ((m_psi mach16 (sg s * z) - sg s * z) + sg s * (z - y)) by ring. eapply Rle_trans; [apply Rabs_triang|].
  rewrite (Rabs_mult (sg s)), sg_abs, Rmult_1_l. pose proof (Rmult_le_pos q (Rabs y) ltac:(lra) Py). lra.
Qed.

Theorem lin_from_near : forall n F g (f : flt F), linear_from_float n F g -> F <> f32 ->
  is_finite f = true -> exists t, g f = Val t /\ rounds_nearly Linear n (code_error Linear n) (B2R f) t.
Proof.
  intros n F g f H H32 Hfin. destruct (lin_from_faithful n F g f H Hfin) as (t & Et & _ & Rt). exists t. split; [assumption|]. split; [assumption|]. intros Hx. cbn [coord].
  assert ((n = 16%Z /\ F = f80) \/ ~ (n = 16%Z /\ F = f80)) as [[-> ->]|N].
  { destruct (Z.eq_dec n 16), F; try (right; intros [? ?]; (discriminate || contradiction)); left; split; (assumption || reflexivity). }
  - eapply lin_from_near_16; eassumption.
  - destruct (lin_from_near_main n F g f t H H32 N Hfin Hx Et) as (L & N1 & E). exists L. split; [assumption|]. eapply Rle_trans; [exact E|].
    apply Rmult_le_compat_l; [unfold code_error; apply bpow_ge_0|lra].
Qed.

(** ** Saturation *)
Lemma nearest_sat : forall n s L L' t, (6 <= n <= 64)%Z -> (255 < L /\ 255 < L') \/ (L < -255 /\ L' < -255) -> nearest n s L t -> nearest n s L' t.
Proof.
  intros n s L L' t Hn H (R & S & M). split; [assumption|]. split; [assumption|]. intros t' R' S'. destruct (M t' R' S') as [M1 M2].
  pose proof (l_abs n t ltac:(lia) R) as A. pose proof (l_abs n t' ltac:(lia) R') as A'. apply Rabs_le_inv in A, A'.
  destruct H as [[H1 H2]|[H1 H2]]; [rewrite !Rabs_left in * by lra|rewrite !Rabs_pos_eq in * by lra]; (split; [lra|]; intros E; apply M2; lra).
Qed.
Lemma code_error_rng : forall k n, 0 <= code_error k n <= / 2.
Proof. intros k n. unfold code_error. replace (/ 2) with (bpow radix2 (-1)) by (simpl; lra). destruct k; split; try apply bpow_ge_0; apply bpow_le; repeat destruct (Z.eqb _ _); lia. Qed.
Lemma code_error_lin_pos : forall k n, 0 < code_error k n.
Proof. intros [] n; apply bpow_gt_0. Qed.
