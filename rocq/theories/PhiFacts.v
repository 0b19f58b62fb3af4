(** The value the encoders actually round, and the resulting
    characterisation of codec_takumN_from_s_and_l. *)
From Coq Require Import ZArith Reals Bool Lia Lra List.
From Flocq Require Import Core.Core IEEE754.BinarySingleNaN.
From Verif Require Import CModel FloatModel WidthConv Codec Spec CodeFacts SpecFacts ValueFacts RoundFacts
  WidthFacts WidthProps FloatFacts DecodeFacts EncodeFacts.
Local Open Scope R_scope.

Definition fr (x : R) : R := x - IZR (Zfloor x).

Lemma fr_bounds : forall x, 0 <= fr x < 1.
Proof. intros x. unfold fr. pose proof (Zfloor_lb x). pose proof (Zfloor_ub x). lra. Qed.

(** characteristic plus fraction rounded to the format F and then truncated
    to 64 bits *)
Definition phi (F : fmt) (x : R) : R :=
  IZR (Zfloor x) + IZR (Zfloor (RF F (fr x) * bpow radix2 64)) * bpow radix2 (-64).

Lemma bpow64 : bpow radix2 64 * bpow radix2 (-64) = 1.
Proof. rewrite <- bpow_plus. reflexivity. Qed.

Lemma RF_fr_bounds : forall F x, 0 <= RF F (fr x) <= 1.
Proof.
  intros F x. pose proof (fr_bounds x). split.
  - rewrite <- (RF_0 F). apply RF_mono. lra.
  - rewrite <- (RF_id F 1) by (apply (FF_bpow F 0); pose proof (fmt_pos F); lia). apply RF_mono. lra.
Qed.

Lemma trunc64_bounds : forall r, 0 <= r <= 1 ->
  0 <= IZR (Zfloor (r * bpow radix2 64)) * bpow radix2 (-64) <= r.
Proof.
  intros r H. pose proof (bpow_gt_0 radix2 64). pose proof (bpow_gt_0 radix2 (-64)). pose proof bpow64. split.
  - apply Rmult_le_pos; [|lra]. apply IZR_le, Zfloor_lub. simpl. nra.
  - pose proof (Zfloor_lb (r * bpow radix2 64)). nra.
Qed.

Lemma phi_bounds : forall F x, IZR (Zfloor x) <= phi F x <= IZR (Zfloor x) + 1.
Proof.
  intros F x. unfold phi. pose proof (RF_fr_bounds F x). pose proof (trunc64_bounds _ H). lra.
Qed.

Lemma phi_mono : forall F x y, x <= y -> phi F x <= phi F y.
Proof.
  intros F x y H. pose proof (phi_bounds F x). pose proof (phi_bounds F y).
  assert (Zfloor x <= Zfloor y)%Z as Hf by (apply Zfloor_le; assumption).
  destruct (Z.eq_dec (Zfloor x) (Zfloor y)) as [E|E].
  - unfold phi. rewrite E. apply Rplus_le_compat_l. apply Rmult_le_compat_r; [apply bpow_ge_0|].
    apply IZR_le, Zfloor_le. apply Rmult_le_compat_r; [apply bpow_ge_0|]. apply RF_mono. unfold fr. rewrite E. lra.
  - assert (IZR (Zfloor x) + 1 <= IZR (Zfloor y)) by (rewrite <- plus_IZR; apply IZR_le; lia). lra.
Qed.

Lemma phi_fix : forall F x k, FF F (fr x) -> fr x = IZR k * bpow radix2 (-64) -> phi F x = x.
Proof.
  intros F x k HF Hk. unfold phi. rewrite RF_id by assumption. rewrite Hk.
  rewrite Rmult_assoc, (Rmult_comm (bpow radix2 (-64))), bpow64, Rmult_1_r, Zfloor_IZR.
  rewrite <- Hk. unfold fr. ring.
Qed.

(** fractions of format numbers *)
Lemma FF_fr : forall F x, FF F x -> (0 <= x \/ x <= - / 2) -> FF F (fr x).
Proof.
  intros F x HF Hx. pose proof (fmt_pos F) as (P1 & P2 & P3).
  apply FF_inv in HF as (m & e & Hm & He & ->).
  destruct (Z.le_gt_cases 0 e) as [H0|H0].
  - replace (fr (IZR m * bpow radix2 e)) with 0; [apply FF_0|].
    unfold fr. rewrite <- IZR_pow2, <- mult_IZR, Zfloor_IZR by assumption. ring.
  - replace e with (- - e)%Z in * by lia. set (d := (- e)%Z) in *.
    pose proof (pow2_pos d ltac:(lia)) as Hd.
    assert (fr (IZR m * bpow radix2 (- d)) = IZR (m mod 2 ^ d) * bpow radix2 (- d)) as ->.
    { unfold fr. rewrite Zfloor_div by lia. rewrite Z.mod_eq by lia.
      rewrite minus_IZR, mult_IZR, IZR_pow2 by lia.
      rewrite Rmult_minus_distr_r. f_equal.
      replace (bpow radix2 d * IZR (m / 2 ^ d) * bpow radix2 (- d))
        with (IZR (m / 2 ^ d) * (bpow radix2 d * bpow radix2 (- d))) by ring.
      rewrite <- bpow_plus, Z.add_opp_diag_r. simpl. ring. }
    pose proof (Z.mod_pos_bound m (2 ^ d) Hd) as Hb.
    apply FF_dyadic; [|lia]. rewrite Z.abs_eq by lia.
    destruct (Z.le_gt_cases d (fprec F)) as [Hle|Hgt].
    { assert (2 ^ d <= 2 ^ fprec F)%Z by (apply Z.pow_le_mono_r; lia). lia. }
    destruct Hx as [Hx|Hx].
    + assert (0 <= m)%Z.
      { apply le_IZR. pose proof (bpow_gt_0 radix2 (- d)).
        apply Rmult_le_reg_r with (bpow radix2 (- d)); [assumption|]. rewrite Rmult_0_l. assumption. }
      pose proof (Z.mod_le m (2 ^ d) ltac:(lia) Hd). lia.
    + exfalso. assert (IZR (- 2 ^ fprec F) < IZR m) as K by (apply IZR_lt; lia).
      rewrite opp_IZR, IZR_pow2 in K by lia.
      assert (bpow radix2 (fprec F) * bpow radix2 (- d) <= / 2).
      { rewrite <- bpow_plus. change (/ 2) with (bpow radix2 (-1)). apply bpow_le. lia. }
      pose proof (bpow_gt_0 radix2 (- d)). nra.
Qed.

Section Encoders.
Variables (F : fmt) (n : Z) (frac : flt F -> Z -> outcome Z) (bound : flt F).
Hypothesis Hn : (n = 16 \/ n = 32 \/ n = 64)%Z.
Hypothesis Hfrac : frac_ok frac.
Hypothesis Hbound : isf bound (cpm n (umax n)).

Hypothesis HF5 : (n - 5 <= fprec F)%Z.

Lemma cpm_umax_eq : cpm n (umax n) = 255 - bpow radix2 (12 - n).
Proof.
  unfold umax.
  assert (2 ^ (n - 1) = 16 * 2 ^ (n - 5))%Z as E1.
  { change 16%Z with (2 ^ 4)%Z. rewrite <- pow2_split by lia. f_equal. lia. }
  pose proof (pow2_pos (n - 5) ltac:(lia)).
  replace (2 ^ (n - 1) - 1)%Z with (15 * 2 ^ (n - 5) + (2 ^ (n - 5) - 1))%Z by lia.
  rewrite cpm_affine by lia. change (biasZ 15) with 127%Z. change (regZ 15) with 7%Z.
  rewrite minus_IZR, IZR_pow2 by lia. rewrite Rmult_minus_distr_r, <- bpow_plus.
  replace (n - 5 + (7 - (n - 5)))%Z with 7%Z by lia. replace (7 - (n - 5))%Z with (12 - n)%Z by lia.
  simpl (bpow radix2 7). lra.
Qed.

Lemma small_bpow : 0 < bpow radix2 (12 - n) <= / 16.
Proof. split; [apply bpow_gt_0|]. change (/ 16) with (bpow radix2 (-4)). apply bpow_le. lia. Qed.

(** the fraction of a takum is exact *)
Lemma cpm_fr : forall u, (0 <= u < 2 ^ (n - 1))%Z -> exists z, (0 <= z < 2 ^ (n - 5))%Z /\
  fr (cpm n u) = IZR z * bpow radix2 (- (n - 5)).
Proof.
  intros u Hu. destruct (u_split n ltac:(lia) u Hu) as (DR & y & -> & Hy & HD).
  rewrite cpm_affine by lia. pose proof (regZ_bounds DR HD) as Hr.
  set (d := (n - 5)%Z) in *. pose proof (pow2_pos d ltac:(lia)).
  set (a := (y * 2 ^ regZ DR)%Z).
  assert (IZR y * bpow radix2 (regZ DR - d) = IZR a * bpow radix2 (- d)) as ->.
  { unfold a. rewrite mult_IZR, IZR_pow2 by lia. rewrite Rmult_assoc, <- bpow_plus. f_equal. }
  exists (a mod 2 ^ d)%Z. split; [apply Z.mod_pos_bound; assumption|].
  unfold fr. replace (Zfloor (IZR (biasZ DR) + IZR a * bpow radix2 (- d))) with (biasZ DR + a / 2 ^ d)%Z.
  - rewrite Z.mod_eq by lia. rewrite plus_IZR, minus_IZR, mult_IZR, IZR_pow2 by lia.
    rewrite Rmult_minus_distr_r.
    replace (bpow radix2 d * IZR (a / 2 ^ d) * bpow radix2 (- d))
        with (IZR (a / 2 ^ d) * (bpow radix2 d * bpow radix2 (- d))) by ring.
    rewrite <- bpow_plus, Z.add_opp_diag_r. simpl. ring.
  - symmetry. apply Zfloor_imp. rewrite <- (Zfloor_div a d) by lia.
    pose proof (Zfloor_lb (IZR a * bpow radix2 (- d))). pose proof (Zfloor_ub (IZR a * bpow radix2 (- d))).
    rewrite !plus_IZR. lra.
Qed.

Lemma phi_cpm : forall u, (0 <= u < 2 ^ (n - 1))%Z -> phi F (cpm n u) = cpm n u.
Proof.
  intros u Hu. destruct (cpm_fr u Hu) as (z & Hz & Ez).
  apply (phi_fix F _ (z * 2 ^ (64 - (n - 5)))).
  - rewrite Ez. apply FF_dyadic.
    + assert (2 ^ (n - 5) <= 2 ^ fprec F)%Z by (apply Z.pow_le_mono_r; lia). lia.
    + pose proof (fmt_pos F). lia.
  - rewrite Ez, mult_IZR, IZR_pow2 by lia. rewrite Rmult_assoc, <- bpow_plus. f_equal. f_equal. lia.
Qed.

Definition clamp (b x : R) : R := if Rlt_bool x (- b) then - b else if Rlt_bool b x then b else x.

Lemma encode_finite : forall s (l : flt F) x, isf l x ->
  (let! r := encode_cm F n bound s l in
   match r with
   | inl t => Val t
   | inr (c, m) => encode_assemble n (n - 16) frac s c m
   end) = Val (asm n s (enc n (phi F ((if s then -1 else 1) * x)))).
Proof.
  intros s l x Hl. pose proof (fmt_pos F) as (P1 & P2 & P3).
  set (B := cpm n (umax n)) in *. pose proof cpm_umax_eq as EB. fold B in EB. pose proof small_bpow as Hsb.
  assert (32 <= 2 ^ (n - 1))%Z as H32 by (apply two_pow_ge; lia).
  assert (cpm n 1 = - B) as EB1 by (unfold B; rewrite cpm1_umax by lia; ring).
  assert (bpow radix2 8 = 256) as B8 by reflexivity.
  assert (bpow radix2 8 < bpow radix2 (femax F)) as Hmax by (apply bpow_lt; lia).
  unfold encode_cm. rewrite (fisnan_isf l x Hl), (fisinf_isf l x Hl). cbv [orb andb].
  (* clamping *)
  set (l' := if flt_ l (fneg bound) then fneg bound else if fgt l bound then bound else l).
  assert (isf l' (clamp B x)) as Hl'.
  { unfold l', clamp. rewrite (flt_isf l (fneg bound) x (- B)) by (try assumption; apply isf_fneg; assumption).
    destruct (Rlt_bool x (- B)); [apply isf_fneg; assumption|].
    rewrite (fgt_isf l bound x B) by assumption. destruct (Rlt_bool B x); assumption. }
  assert (- B <= clamp B x <= B) as Hcl.
  { unfold clamp. destruct (Rlt_bool_spec x (- B)); [lra|]. destruct (Rlt_bool_spec B x); lra. }
  set (sg := if s then -1 else 1) in *. set (y := sg * clamp B x).
  assert (- B <= y <= B) as Hy by (unfold y, sg; destruct s; lra).
  assert (isf (fint F (1 - 2 * b2z s)) sg) as Hsg.
  { eapply isf_eq; [apply isf_fint|unfold sg; destruct s; reflexivity].
    pose proof (pow2_pos (fprec F) ltac:(lia)). destruct s; cbv [b2z]; lia. }
  set (cpm_ := fmul (fint F (1 - 2 * b2z s)) l').
  assert (isf cpm_ y) as Hcpm.
  { unfold cpm_, y. apply isf_fmul_exact; [assumption|assumption| |].
    - pose proof (isf_FF _ _ _ Hl'). unfold sg. destruct s; [|rewrite Rmult_1_l; assumption].
      replace (-1 * clamp B x) with (- clamp B x) by ring. apply FF_opp; assumption.
    - fold y. apply Rabs_lt. lra. }
  (* floor *)
  assert (-255 <= Zfloor y <= 254)%Z as Hfl.
  { split; [apply Zfloor_lub; lra|]. apply Zlt_succ_le. apply lt_IZR. pose proof (Zfloor_lb y). simpl. lra. }
  rewrite (f2int_isf 16 (ffloor cpm_) (Zfloor y)).
  2:{ apply isf_ffloor. assumption. }
  2:{ unfold fits_s. change (16 - 1)%Z with 15%Z. change (2 ^ 15)%Z with 32768%Z. lia. }
  cbv beta iota delta [bind].
  set (m0 := fsub cpm_ (fint F (Zfloor y))).
  pose proof (RF_fr_bounds F y) as Hrf.
  assert (isf m0 (RF F (fr y))) as Hm0.
  { unfold m0, fr. apply isf_fsub; [assumption| |].
    - apply isf_fint. assert (2 ^ 8 <= 2 ^ fprec F)%Z by (apply Z.pow_le_mono_r; lia).
      change (2 ^ 8)%Z with 256%Z in *. lia.
    - fold (fr y). apply Rabs_lt. lra. }
  assert (isf (fint F 1) 1) as H1.
  { apply isf_fint. pose proof (pow2_pos (fprec F) ltac:(lia)). lia. }
  rewrite (feq_isf m0 (fint F 1) _ _ Hm0 H1).
  (* the encoded value *)
  assert (phi F (- B) = - B /\ phi F B = B) as [Phi1 Phi2].
  { rewrite <- EB1. unfold B. split; apply phi_cpm; unfold umax; lia. }
  assert (- B <= phi F y <= B) as Hphi.
  { assert (phi F (- B) <= phi F y) by (apply phi_mono; lra).
    assert (phi F y <= phi F B) by (apply phi_mono; lra). lra. }
  assert (enc n (phi F y) = enc n (phi F (sg * x))) as Eenc.
  { assert (umax n = enc n B) as Eu by (unfold B; rewrite enc_cpm; unfold umax; lia).
    assert (1%Z = enc n (- B)) as Eo by (rewrite <- EB1, enc_cpm; lia).
    assert (forall z, B <= z -> enc n (phi F z) = enc n (phi F B)) as Hup.
    { intros z Hz. rewrite Phi2. pose proof (enc_bounds n ltac:(lia) (phi F z)).
      assert (enc n B <= enc n (phi F z))%Z; [|lia]. apply enc_mono; [lia|]. rewrite <- Phi2. apply phi_mono. assumption. }
    assert (forall z, z <= - B -> enc n (phi F z) = enc n (phi F (- B))) as Hdn.
    { intros z Hz. rewrite Phi1. pose proof (enc_bounds n ltac:(lia) (phi F z)).
      assert (enc n (phi F z) <= enc n (- B))%Z; [|lia]. apply enc_mono; [lia|]. rewrite <- Phi1. apply phi_mono. assumption. }
    unfold y, clamp. destruct (Rlt_bool_spec x (- B)) as [K|K]; [|destruct (Rlt_bool_spec B x) as [K'|K']; [|reflexivity]].
    - unfold sg. destruct s.
      + replace (-1 * - B) with B by ring. symmetry. apply Hup. lra.
      + rewrite Rmult_1_l. symmetry. apply Hdn. lra.
    - unfold sg. destruct s.
      + replace (-1 * B) with (- B) by ring. symmetry. apply Hdn. lra.
      + rewrite Rmult_1_l. symmetry. apply Hup. lra. }
  rewrite <- Eenc.
  destruct (Req_bool_spec (RF F (fr y)) 1) as [K|K].
  - assert (Zfloor y < 254)%Z as Hlt.
    { destruct (Z.eq_dec (Zfloor y) 254) as [E|E]; [exfalso|lia].
      assert (RF F (fr y) <= B - 254); [|lra].
      rewrite <- (RF_id F (B - 254)).
      - apply RF_mono. unfold fr. rewrite E. lra.
      - rewrite EB. replace (255 - bpow radix2 (12 - n) - 254) with (IZR (2 ^ (n - 12) - 1) * bpow radix2 (12 - n)).
        + apply FF_dyadic; [|lia]. assert (2 ^ (n - 12) <= 2 ^ fprec F)%Z by (apply Z.pow_le_mono_r; lia).
          pose proof (pow2_pos (n - 12) ltac:(lia)). lia.
        + rewrite minus_IZR, IZR_pow2 by lia. rewrite Rmult_minus_distr_r, <- bpow_plus.
          replace (n - 12 + (12 - n))%Z with 0%Z by lia. simpl (bpow radix2 0). lra. }
    unfold s_arith, guard. replace (fits_s 16 (Zfloor y + 1)) with true.
    2:{ unfold fits_s. change (16 - 1)%Z with 15%Z. change (2 ^ 15)%Z with 32768%Z. lia. }
    cbv beta iota.
    assert (phi F y = IZR (Zfloor y + 1) + IZR (Zfloor (0 * bpow radix2 64)) * bpow radix2 (-64)) as Ep.
    { unfold phi. rewrite K, Rmult_1_l, Rmult_0_l, Zfloor_IZR, <- IZR_pow2, Zfloor_IZR, IZR_pow2, bpow64, plus_IZR by lia. lra. }
    rewrite Ep. apply assemble_eq; try assumption; try lia; try lra.
    + apply isf_zero.
    + cbv zeta. rewrite <- Ep. fold B. lra.
  - change (phi F y) with (IZR (Zfloor y) + IZR (Zfloor (RF F (fr y) * bpow radix2 64)) * bpow radix2 (-64)).
    apply assemble_eq; try assumption; try lra.
    cbv zeta. fold (phi F y). fold B. lra.
Qed.
End Encoders.

(** ** The encoders on x86-64 *)

Lemma bound16_isf : isf (fconst f64 4079 (-4)) (cpm 16 (umax 16)).
Proof.
  rewrite cpm_umax_eq by auto. eapply isf_eq.
  - apply isf_fconst; [apply FF_dyadic; [simpl; lia|unfold femin; simpl; lia]|].
    simpl (bpow radix2 (-4)). rewrite Rabs_pos_eq by lra.
    apply Rlt_trans with (bpow radix2 8); [simpl; lra|apply bpow_lt; reflexivity].
  - simpl. lra.
Qed.

Lemma isf_B2R_eq : forall f (x : flt f) s m e H, x = B754_finite s m e H ->
  isf x (IZR (cond_Zopp s (Zpos m)) * bpow radix2 e).
Proof. intros f x s m e H ->. split; reflexivity. Qed.

Lemma isf_SF : forall f (x : flt f) s m e, B2SF x = SpecFloat.S754_finite s m e ->
  isf x (IZR (cond_Zopp s (Zpos m)) * bpow radix2 e).
Proof.
  intros f x s m e H. destruct x as [| | |s' m' e' H']; try discriminate.
  simpl in H. injection H as -> -> ->. split; reflexivity.
Qed.

Lemma bound32_isf : isf (bound32 f80) (cpm 32 (umax 32)).
Proof.
  rewrite cpm_umax_eq by auto. eapply isf_eq.
  - apply isf_SF. vm_compute. reflexivity.
  - simpl cond_Zopp. change (12 - 32)%Z with (-20)%Z.
    apply Rmult_eq_reg_r with (bpow radix2 56); [|apply Rgt_not_eq, bpow_gt_0].
    rewrite Rmult_assoc, <- bpow_plus, Rmult_minus_distr_r, <- bpow_plus. simpl. lra.
Qed.

Lemma bound64_isf : isf (bound64 f80) (cpm 64 (umax 64)).
Proof.
  rewrite cpm_umax_eq by auto. eapply isf_eq.
  - apply isf_SF. vm_compute. reflexivity.
  - simpl cond_Zopp. change (12 - 64)%Z with (-52)%Z.
    apply Rmult_eq_reg_r with (bpow radix2 56); [|apply Rgt_not_eq, bpow_gt_0].
    rewrite Rmult_assoc, <- bpow_plus, Rmult_minus_distr_r, <- bpow_plus. simpl. lra.
Qed.

Lemma codec16_eq : forall s (l : flt f64) x, isf l x ->
  codec_takum16_from_s_and_l s l = Val (asm 16 s (enc 16 (phi f64 ((if s then -1 else 1) * x)))).
Proof.
  intros s l x Hl. unfold codec_takum16_from_s_and_l.
  apply (encode_finite f64 16 float64_fraction_to_rounded_bits (fconst f64 4079 (-4))).
  - auto.
  - exact frac64_eq.
  - exact bound16_isf.
  - simpl; lia.
  - assumption.
Qed.

Lemma codec32_eq : forall s (l : flt f80) x, isf l x ->
  codec_takum32_from_s_and_l x86_64 s l = Val (asm 32 s (enc 32 (phi f80 ((if s then -1 else 1) * x)))).
Proof.
  intros s l x Hl. unfold codec_takum32_from_s_and_l.
  apply (encode_finite f80 32 (extended_float_fraction_to_rounded_bits x86_64) (bound32 f80)).
  - auto.
  - exact frac80_eq.
  - exact bound32_isf.
  - simpl; lia.
  - assumption.
Qed.

Lemma codec64_eq : forall s (l : flt f80) x, isf l x ->
  codec_takum64_from_s_and_l x86_64 s l = Val (asm 64 s (enc 64 (phi f80 ((if s then -1 else 1) * x)))).
Proof.
  intros s l x Hl. unfold codec_takum64_from_s_and_l.
  apply (encode_finite f80 64 (extended_float_fraction_to_rounded_bits x86_64) (bound64 f80)).
  - auto.
  - exact frac80_eq.
  - exact bound64_isf.
  - simpl; lia.
  - assumption.
Qed.

(** ** Rounding properties of the encoders *)
Lemma enc_phi_faithful : forall F n (s : bool) L, (n = 16 \/ n = 32 \/ n = 64)%Z -> (n - 5 <= fprec F)%Z ->
  faithful n s L (asm n s (enc n (phi F ((if s then -1 else 1) * L)))).
Proof.
  intros F n s L Hn HF. apply faithful_of_mono; [lia| |].
  - intros u Hu H. rewrite <- (phi_cpm F n Hn HF u) by lia. apply phi_mono. assumption.
  - intros u Hu H. rewrite <- (phi_cpm F n Hn HF u) by lia. apply phi_mono. assumption.
Qed.

Lemma enc_phi_nearest : forall F n (s : bool) L k, (6 <= n <= 64)%Z -> 
  FF F (fr ((if s then -1 else 1) * L)) -> fr ((if s then -1 else 1) * L) = IZR k * bpow radix2 (-64) ->
  nearest n s L (asm n s (enc n (phi F ((if s then -1 else 1) * L)))).
Proof.
  intros F n s L k Hn HF Hk. rewrite (phi_fix F _ k) by assumption. apply enc_nearest. assumption.
Qed.

(** points of the grid are takums *)
Lemma on_grid : forall n y z, (12 <= n <= 64)%Z -> -255 <= y < 255 ->
  y * bpow radix2 (n - 5 - regZ (DRof (Zfloor y))) = IZR z ->
  exists u, (0 <= u < 2 ^ (n - 1))%Z /\ y = cpm n u.
Proof.
  intros n y z Hn Hy Hz. destruct (G_loc n ltac:(lia) y Hy) as (HD & Hb & HG).
  set (DR := DRof (Zfloor y)) in *. pose proof (regZ_bounds DR HD) as Hr.
  set (u := (DR * 2 ^ (n - 5) + z - biasZ DR * 2 ^ (n - 5 - regZ DR))%Z).
  assert (G n y = IZR u) as Hu.
  { unfold u, G. fold DR. rewrite minus_IZR, plus_IZR, !mult_IZR, !IZR_pow2 by lia. rewrite Rmult_minus_distr_r, Hz. ring. }
  assert (0 <= u < 2 ^ (n - 1))%Z as Hub.
  { rewrite Hu in HG. destruct HG as [G1 G2]. apply le_IZR in G1. apply lt_IZR in G2.
    assert (2 ^ (n - 1) = 16 * 2 ^ (n - 5))%Z as E1.
    { change 16%Z with (2 ^ 4)%Z. rewrite <- pow2_split by lia. f_equal. lia. }
    pose proof (pow2_pos (n - 5) ltac:(lia)). nia. }
  exists u. split; [assumption|].
  pose proof (cpm_bounds n ltac:(lia) u Hub) as Hc.
  assert (G n (cpm n u) = G n y) as EG by (rewrite G_cpm by lia; symmetry; assumption).
  destruct (Rtotal_order y (cpm n u)) as [K|[K|K]]; auto; exfalso.
  - assert (G n y < G n (cpm n u)) by (apply G_strict_mono; lia || lra). lra.
  - assert (G n (cpm n u) < G n y) by (apply G_strict_mono; lia || lra). lra.
Qed.
