(** Facts about the conversions between linear takums and floats. *)
From Coq Require Import ZArith Reals Bool Lia Lra List.
From Flocq Require Import Core.Core IEEE754.BinarySingleNaN.
From Flocq Require Sterbenz.
From Verif Require Import CModel FloatModel WidthConv Codec Spec CodeFacts SpecFacts ValueFacts RoundFacts
  WidthFacts WidthProps FloatFacts DecodeFacts EncodeFacts PhiFacts Codec8Facts Machine Libm Conversion LinApi.
Local Open Scope R_scope.

Lemma to_s16_id : forall z, (- 2 ^ 15 <= z < 2 ^ 15)%Z -> to_s 16 z = z.
Proof. intros z Hz. apply (to_s_eq 16 z 0 z); [lia|exact Hz|lia]. Qed.

Lemma FF_double : forall f x, FF f x -> FF f (2 * x).
Proof.
  intros f x H. apply FF_inv in H as (m & e & Hm & He & ->).
  replace (2 * (IZR m * bpow radix2 e)) with (IZR m * bpow radix2 (e + 1)).
  - apply FF_dyadic; lia.
  - rewrite bpow_plus. change (bpow radix2 1) with 2. ring.
Qed.

Lemma lin_coord_split : forall x, x <> 0 ->
  lin_coord x = IZR (mag radix2 x - 1) + (2 * (Rabs x * bpow radix2 (- mag radix2 x)) - 1) /\
  1 <= 2 * (Rabs x * bpow radix2 (- mag radix2 x)) < 2.
Proof.
  intros x Hx. split.
  - unfold lin_coord. f_equal. f_equal. unfold Rdiv. rewrite <- bpow_opp.
    replace (- (mag radix2 x - 1))%Z with (1 + - mag radix2 x)%Z by lia.
    rewrite bpow_plus. change (bpow radix2 1) with 2. ring.
  - destruct (mag radix2 x) as (e & He). simpl. specialize (He Hx).
    replace (2 * (Rabs x * bpow radix2 (- e))) with (Rabs x * bpow radix2 (- (e - 1))).
    + pose proof (bpow_gt_0 radix2 (- (e - 1))) as Hb. split.
      * replace 1 with (bpow radix2 (e - 1) * bpow radix2 (- (e - 1))).
        -- apply Rmult_le_compat_r; lra.
        -- rewrite <- bpow_plus. replace (e - 1 + - (e - 1))%Z with 0%Z by lia. reflexivity.
      * replace 2 with (bpow radix2 e * bpow radix2 (- (e - 1))).
        -- apply Rmult_lt_compat_r; lra.
        -- rewrite <- bpow_plus. replace (e + - (e - 1))%Z with 1%Z by lia. reflexivity.
    + replace (- (e - 1))%Z with (1 + - e)%Z by lia. rewrite bpow_plus. change (bpow radix2 1) with 2. ring.
Qed.

Lemma isf_mag : forall f (x : flt f) a, isf x a -> a <> 0 -> (-16494 < mag radix2 a <= 16384)%Z.
Proof.
  intros f x a Hx Ha. split.
  - destruct (FF_inv f a (isf_FF _ _ _ Hx)) as (m & e & Hm & He & E).
    assert (m <> 0%Z) as Hm0 by (intros ->; apply Ha; rewrite E; ring).
    pose proof (mag_F2R_Zdigits radix2 m e Hm0) as Hd. unfold F2R in Hd. simpl in Hd. rewrite <- E in Hd.
    rewrite Hd. pose proof (Zdigits_gt_0 radix2 m Hm0). unfold femin in He. destruct f; simpl in *; lia.
  - apply mag_le_bpow; [assumption|]. pose proof (isf_lt _ _ _ Hx). eapply Rlt_le_trans; [eassumption|].
    apply bpow_le. pose proof (fmt_pos f). lia.
Qed.

Lemma RF_small : forall f x k, (0 <= k < 128)%Z -> Rabs x <= bpow radix2 k -> Rabs (RF f x) < bpow radix2 (femax f).
Proof. intros f x k Hk. apply RF_lt_emax. pose proof (fmt_pos f). lia. Qed.

Lemma lin_coord_bound : forall f (x : flt f) a, isf x a -> a <> 0 -> Rabs (lin_coord a) <= bpow radix2 15.
Proof.
  intros f x a Hx Ha. destruct (lin_coord_split a Ha) as [-> Hg]. pose proof (isf_mag _ _ _ Hx Ha) as [M1 M2].
  apply IZR_lt in M1. apply IZR_le in M2. rewrite minus_IZR. change (bpow radix2 15) with 32768. apply Rabs_le. lra.
Qed.

(** the logarithm-like value l computed from a float, correctly rounded to
    the format of the computation *)
Lemma linl_isf : forall F G (f : flt F) x, fsub_fmt F G -> isf f x -> x <> 0 ->
  isf (codec_linear_l_from F G f) (RF G (lin_coord x)).
Proof.
  intros F G f x HFG Hf Hx. unfold codec_linear_l_from.
  rewrite (fisnan_isf _ _ Hf), (fisinf_isf _ _ Hf). cbn [orb].
  rewrite (feq_isf _ _ _ _ Hf (isf_zero F)). rewrite Req_bool_false by assumption.
  rewrite (flt_isf _ _ _ _ Hf (isf_zero F)).
  cbv zeta. set (s := Rlt_bool x 0). set (f' := if s then fneg f else f).
  assert (isf f' (Rabs x)) as Hf'.
  { unfold f', s. destruct (Rlt_bool_spec x 0).
    - rewrite Rabs_left by assumption. apply isf_fneg. assumption.
    - rewrite Rabs_pos_eq by assumption. assumption. }
  assert (Rabs x <> 0) as Hax by (apply Rabs_no_R0; assumption).
  destruct (ffrexp_isf _ _ _ Hf' Hax) as [Hg0 ->].
  apply (isf_fcast_up F G _ _ HFG) in Hg0. set (g0 := fcast G (fst (ffrexp f'))) in *. clearbody g0.
  rewrite mag_abs in *. set (h := (mag radix2 x - 1)%Z) in *.
  destruct (lin_coord_split x Hx) as [EL Hb]. fold h in EL.
  set (y := Rabs x * bpow radix2 (- mag radix2 x)) in *.
  assert (FF G (2 * y)) as F2y by (apply FF_double; apply isf_FF in Hg0; assumption).
  assert (forall z, Rabs z <= 2 -> Rabs z < bpow radix2 (femax G)) as small by (intros; apply lt_emax_512; lra).
  assert (isf (fint G 2) 2) as I2 by (apply isf_fint; pose proof (fmt_pos G); change (Z.abs 2) with (2 ^ 1)%Z; apply Z.pow_le_mono_r; lia).
  assert (isf (fint G 1) 1) as I1 by (apply isf_fint; pose proof (fmt_pos G); change (Z.abs 1) with (2 ^ 0)%Z; apply Z.pow_le_mono_r; lia).
  assert (isf (fmul (fint G 2) g0) (2 * y)) as H2y.
  { apply isf_fmul_exact; try assumption. apply small. rewrite Rabs_pos_eq; lra. }
  assert (FF G (2 * y - 1)) as F2ym.
  { apply (Sterbenz.sterbenz radix2 (fexpo G)); [assumption|apply isf_FF in I1; assumption|lra]. }
  assert (isf (fsub (fmul (fint G 2) g0) (fint G 1)) (2 * y - 1)) as Hg.
  { apply isf_fsub_exact; try assumption. apply small. rewrite Rabs_pos_eq; lra. }
  set (g := fsub (fmul (fint G 2) g0) (fint G 1)) in *. clearbody g.
  rewrite (feq_isf _ _ _ _ Hg (isf_zero G)).
  pose proof (isf_mag _ _ _ Hf Hx) as Hmag.
  assert (-16495 <= h <= 16383)%Z as Hh by (unfold h; lia).
  assert (forall c, (- 2 ^ 15 <= c < 2 ^ 15)%Z -> isf (fint G c) (IZR c)) as Ic.
  { intros c Hc. apply isf_fint. pose proof (fmt_pos G). assert (2 ^ 15 <= 2 ^ fprec G)%Z by (apply Z.pow_le_mono_r; lia). lia. }
  assert (forall (b : bool) (l : flt G) z, isf l (RF G z) -> Rabs z <= bpow radix2 16 ->
            isf (fmul (fint G (1 - 2 * b2z b)) l) (RF G (sg b * z))) as Hmulsg.
  { intros b l z Hl Hz.
    assert (Rabs (RF G z) < bpow radix2 (femax G)) as Hlt by (apply isf_lt in Hl; assumption).
    assert (isf (fint G (1 - 2 * b2z b)) (sg b)) as Isg by (destruct b; apply Ic; simpl; lia).
    assert (RF G (sg b * z) = sg b * RF G z) as ->.
    { unfold sg. destruct b; [|rewrite !Rmult_1_l; reflexivity].
      replace (-1 * z) with (- z) by ring. rewrite RF_opp. ring. }
    apply isf_fmul_exact; try assumption.
    - unfold sg. destruct b; [|rewrite Rmult_1_l; apply RF_FF].
      replace (-1 * RF G z) with (- RF G z) by ring. apply FF_opp, RF_FF.
    - rewrite Rabs_mult, sg_abs, Rmult_1_l. assumption. }
  assert (forall c (m : flt G) z, (- 16500 <= c <= 16500)%Z -> isf m z -> 0 <= z <= 1 ->
            isf (fadd (fint G c) m) (RF G (IZR c + z)) /\ Rabs (IZR c + z) <= bpow radix2 16) as Hadd.
  { intros c m z Hc Hm Hz.
    assert (Rabs (IZR c + z) <= bpow radix2 16) as B.
    { destruct Hc as [C1 C2]. apply IZR_le in C1, C2. change (bpow radix2 16) with 65536. apply Rabs_le. lra. }
    split; [|exact B]. apply isf_fadd; [apply Ic; lia|assumption|]. apply RF_small with 16%Z; [lia|assumption]. }
  clearbody s. destruct s; cbn [negb].
  - destruct (Req_bool_spec (2 * y - 1) 0) as [E0|E0].
    + rewrite to_s16_id by lia.
      destruct (Hadd (- h)%Z (fzero G) 0 ltac:(lia) (isf_zero G) ltac:(lra)) as [A B].
      replace (lin_coord x) with (sg true * (IZR (- h) + 0)).
      * apply Hmulsg; assumption.
      * rewrite EL, E0, opp_IZR. unfold sg. ring.
    + rewrite to_s16_id by lia.
      assert (FF G (1 - (2 * y - 1))) as Fm.
      { replace (1 - (2 * y - 1)) with (2 - 2 * y) by ring.
        apply (Sterbenz.sterbenz radix2 (fexpo G)); [apply isf_FF in I2; assumption|assumption|lra]. }
      assert (isf (fsub (fint G 1) g) (1 - (2 * y - 1))) as Hm.
      { apply isf_fsub_exact; try assumption. apply small. rewrite Rabs_pos_eq; lra. }
      destruct (Hadd (- h - 1)%Z _ _ ltac:(lia) Hm ltac:(lra)) as [A B].
      replace (lin_coord x) with (sg true * (IZR (- h - 1) + (1 - (2 * y - 1)))).
      * apply Hmulsg; assumption.
      * rewrite EL, minus_IZR, opp_IZR. unfold sg. ring.
  - rewrite to_s16_id by lia.
    destruct (Hadd h _ _ ltac:(lia) Hg ltac:(lra)) as [A B].
    replace (lin_coord x) with (sg false * (IZR h + (2 * y - 1))).
    + apply Hmulsg; assumption.
    + rewrite EL. unfold sg. ring.
Qed.

(** ** Encoding: takum_linearN_from_* *)

(** a rounding of l that is harmless up to the last rounding *)
Record rho_ok (n : Z) (rho : R -> R) : Prop := {
  rho_mono : forall x y, x <= y -> rho x <= rho y;
  rho_fix : forall u, (0 < u < 2 ^ (n - 1))%Z -> rho (cpm n u) = cpm n u;
  rho_opp : forall x, rho (- x) = - rho x
}.

Lemma FF_cpm_fmt : forall n F u, std_width n -> (n <= fprec F)%Z -> (0 < u < 2 ^ (n - 1))%Z -> FF F (cpm n u).
Proof.
  intros n F u [-> | [-> | [-> | ->]]] HF Hu.
  - apply FF_sub with f32; [destruct F; split; simpl in *; lia|]. apply (FF_cpm mach8 mach8_ok). exact Hu.
  - apply FF_sub with f32; [destruct F; split; simpl in *; lia|]. apply (FF_cpm mach16 mach16_ok). exact Hu.
  - apply FF_sub with f64; [destruct F; split; simpl in *; lia|]. apply (FF_cpm mach32 mach32_ok). exact Hu.
  - apply FF_sub with f80; [destruct F; split; simpl in *; lia|]. apply (FF_cpm mach64 mach64_ok). exact Hu.
Qed.

Lemma rho_RF : forall n F, std_width n -> (n <= fprec F)%Z -> rho_ok n (RF F).
Proof.
  intros n F Hn HF. split.
  - apply RF_mono.
  - intros u Hu. apply RF_id, FF_cpm_fmt; assumption.
  - apply RF_opp.
Qed.

Lemma rho_comp : forall n r1 r2, rho_ok n r1 -> rho_ok n r2 -> rho_ok n (fun x => r2 (r1 x)).
Proof.
  intros n r1 r2 [A1 A2 A3] [B1 B2 B3]. split.
  - auto.
  - intros u Hu. rewrite A2, B2; auto.
  - intros x. rewrite A3, B3. reflexivity.
Qed.

Lemma rho_sg : forall n rho s x, rho_ok n rho -> rho (sg s * x) = sg s * rho x.
Proof.
  intros n rho s x H. destruct s; unfold sg.
  - replace (-1 * x) with (- x) by ring. rewrite (rho_opp _ _ H). ring.
  - rewrite !Rmult_1_l. reflexivity.
Qed.

Definition from_form (n : Z) (F : fmt) (g : flt F -> outcome Z) (m : mach) (rho : R -> R) : Prop :=
  mach_ok m /\ m_n m = n /\ rho_ok n rho /\
  (forall f x, isf f x -> x <> 0 ->
     g f = Val (asm n (Rlt_bool x 0) (enc n (m_psi m (sg (Rlt_bool x 0) * rho (lin_coord x)))))) /\
  (forall s, g (B754_zero s) = Val 0%Z) /\ (forall s, g (B754_infinity s) = Val (nar n)) /\ g B754_nan = Val (nar n).

Definition from_mach (n : Z) : mach :=
  if (n =? 8)%Z then mach8 else if (n =? 16)%Z then mach16 else if (n =? 32)%Z then mach32 else mach64.
(** the roundings applied to l before the encoder *)
Definition from_rho (n : Z) (F : fmt) : R -> R :=
  let r := if (n =? 8)%Z then RF f32
           else if (n =? 16)%Z then match F with f32 => RF f32 | _ => RF f64 end
           else fun x => x in
  match F with f80 => fun x => r (RF f80 x) | _ => r end.

(** l of a float is dyadic with as many digits as the float *)
Lemma lin_coord_dyadic : forall F (f : flt F) x, isf f x -> x <> 0 ->
  exists k, lin_coord x = IZR k * bpow radix2 (- (fprec F - 1)).
Proof.
  intros F f x Hf Hx. destruct (lin_coord_split x Hx) as [-> Hb].
  pose proof (fmt_pos F) as Hp.
  assert (exists j, 2 * (Rabs x * bpow radix2 (- mag radix2 x)) = IZR j * bpow radix2 (- (fprec F - 1))) as [j Ej].
  { destruct (FF_inv F x (isf_FF _ _ _ Hf)) as (m & e & Hm & He & E).
    assert (m <> 0%Z) as Hm0 by (intros ->; apply Hx; rewrite E; ring).
    pose proof (mag_F2R_Zdigits radix2 m e Hm0) as Hd. unfold F2R in Hd. simpl in Hd. rewrite <- E in Hd.
    assert (Zdigits radix2 m <= fprec F)%Z as Hdig.
    { apply Zdigits_le_Zpower. simpl. exact Hm. }
    exists (Z.abs m * 2 ^ (fprec F - Zdigits radix2 m))%Z.
    rewrite E at 1. rewrite Rabs_mult, (Rabs_pos_eq (bpow radix2 e)) by apply bpow_ge_0.
    rewrite <- abs_IZR, Hd, mult_IZR, IZR_pow2 by lia. rewrite !Rmult_assoc, <- !bpow_plus.
    change 2 with (bpow radix2 1) at 1. rewrite (Rmult_comm (bpow radix2 1)), Rmult_assoc, <- bpow_plus.
    f_equal. f_equal. lia. }
  rewrite Ej. set (h := (mag radix2 x - 1)%Z). exists (h * 2 ^ (fprec F - 1) + j - 2 ^ (fprec F - 1))%Z.
  rewrite minus_IZR, plus_IZR, mult_IZR, !IZR_pow2 by lia.
  assert (bpow radix2 (fprec F - 1) * bpow radix2 (- (fprec F - 1)) = 1) as E1.
  { rewrite <- bpow_plus, Z.add_opp_diag_r. reflexivity. }
  rewrite Rmult_minus_distr_r, Rmult_plus_distr_r, Rmult_assoc, E1. ring.
Qed.

Lemma lin_coord_mag_bound : forall F (f : flt F) x, isf f x -> x <> 0 ->
  Rabs (lin_coord x) <= IZR (femax F + fprec F).
Proof.
  intros F f x Hf Hx. destruct (lin_coord_split x Hx) as [-> Hb].
  assert (femin F < mag radix2 x <= femax F)%Z as [M1 M2].
  { split.
    - destruct (FF_inv F x (isf_FF _ _ _ Hf)) as (m & e & Hm & He & E).
      assert (m <> 0%Z) as Hm0 by (intros ->; apply Hx; rewrite E; ring).
      pose proof (mag_F2R_Zdigits radix2 m e Hm0) as Hd. unfold F2R in Hd. simpl in Hd. rewrite <- E in Hd.
      rewrite Hd. pose proof (Zdigits_gt_0 radix2 m Hm0). lia.
    - apply mag_le_bpow; [assumption|]. eapply isf_lt; eassumption. }
  unfold femin in M1. assert (3 - femax F - fprec F + 1 <= mag radix2 x)%Z as M1' by lia.
  apply IZR_le in M1', M2. rewrite plus_IZR, !minus_IZR in M1'. rewrite minus_IZR, plus_IZR.
  pose proof (fmt_pos F) as (P1 & P2 & _). destruct P1 as [P1 _]. apply IZR_le in P1. apply Rabs_le. lra.
Qed.

Lemma lin_coord_exact : forall F G (f : flt F) x, (F = f32 /\ G = f64) \/ (F = f64 /\ G = f80) ->
  isf f x -> x <> 0 -> RF G (lin_coord x) = lin_coord x.
Proof.
  intros F G f x HFG Hf Hx. apply RF_id. pose proof (lin_coord_mag_bound _ _ _ Hf Hx) as B.
  destruct (lin_coord_dyadic _ _ _ Hf Hx) as [k Hk]. rewrite Hk in *.
  assert (exists b, (0 <= b)%Z /\ IZR (femax F + fprec F) <= bpow radix2 b /\ (fprec F - 1 + b <= fprec G)%Z) as (b & Hb & B2 & B3).
  { destruct HFG as [[-> ->]|[-> ->]]; [exists 8%Z|exists 11%Z]; (split; [lia|split; [|simpl; lia]]);
      simpl; apply IZR_le; lia. }
  pose proof (fmt_pos F). pose proof (fmt_pos G). apply FF_dyadic; [|lia].
  apply le_IZR. rewrite abs_IZR, IZR_pow2 by lia.
  rewrite Rabs_mult, (Rabs_pos_eq (bpow radix2 _)) in B by apply bpow_ge_0.
  apply Rmult_le_reg_r with (bpow radix2 (- (fprec F - 1))); [apply bpow_gt_0|].
  eapply Rle_trans; [exact B|]. eapply Rle_trans; [exact B2|]. rewrite <- bpow_plus. apply bpow_le. lia.
Qed.

Lemma RF_mid_bound : forall F G (f : flt F) x, isf f x -> x <> 0 -> Rabs (RF G (lin_coord x)) <= bpow radix2 15.
Proof.
  intros F G f x Hf Hx. apply RF_abs_le.
  - apply FF_bpow. pose proof (fmt_pos G). lia.
  - eapply lin_coord_bound; eassumption.
Qed.

Lemma isf_l_cast : forall F G H (f : flt F) x, isf f x -> x <> 0 -> fsub_fmt F G ->
  isf (fcast H (codec_linear_l_from F G f)) (RF H (RF G (lin_coord x))).
Proof.
  intros F G H f x Hf Hx HFG. apply isf_fcast.
  - apply linl_isf; assumption.
  - apply RF_small with 15%Z; [lia|]. eapply RF_mid_bound; eassumption.
Qed.

Lemma flt_zero : forall F (f : flt F) x, isf f x -> flt_ f (fzero F) = Rlt_bool x 0.
Proof. intros F f x H. apply flt_isf; [assumption|apply isf_zero]. Qed.

Lemma linear_from_form : forall n F g, linear_from_float n F g ->
  from_form n F g (from_mach n) (from_rho n F).
Proof.
  assert (std_width 8) as W8 by (left; reflexivity).
  assert (std_width 16) as W16 by (right; left; reflexivity).
  assert (std_width 32) as W32 by (right; right; left; reflexivity).
  assert (std_width 64) as W64 by (right; right; right; reflexivity).
  intros n F g H. unfold from_form.
  assert (rho_ok n (from_rho n F)) as Hrho.
  { assert (forall k A B, std_width k -> (k <= fprec A)%Z -> (k <= fprec B)%Z -> rho_ok k (fun x => RF B (RF A x))) as C
      by (intros; apply rho_comp; apply rho_RF; assumption).
    destruct H; first [exact (C 8%Z f80 f32 W8 ltac:(simpl; lia) ltac:(simpl; lia))
      |exact (C 16%Z f80 f64 W16 ltac:(simpl; lia) ltac:(simpl; lia))
      |exact (rho_RF 8 f32 W8 ltac:(simpl; lia))
      |exact (rho_RF 16 f32 W16 ltac:(simpl; lia))
      |exact (rho_RF 16 f64 W16 ltac:(simpl; lia))
      |exact (rho_RF 32 f80 W32 ltac:(simpl; lia))
      |exact (rho_RF 64 f80 W64 ltac:(simpl; lia))
      |split; auto]. }
  split; [destruct H; [apply mach8_ok|apply mach16_ok|apply mach32_ok|apply mach64_ok
                      |apply mach8_ok|apply mach16_ok|apply mach32_ok|apply mach64_ok
                      |apply mach8_ok|apply mach16_ok|apply mach32_ok|apply mach64_ok]|].
  split; [destruct H; reflexivity|]. split; [exact Hrho|]. clear Hrho.
  assert (fsub_fmt f32 f64 /\ fsub_fmt f64 f80 /\ fsub_fmt f80 f80) as (S1 & S2 & S3)
    by (unfold fsub_fmt; simpl; lia).
  split.
  { intros f x Hf Hx. destruct H.
    - unfold takum_linear8_from_float32. rewrite (flt_zero _ _ _ Hf).
      pose proof (mo_enc mach8 mach8_ok (Rlt_bool x 0) _ _ (isf_l_cast _ _ f32 _ _ Hf Hx S1)) as K.
      rewrite (lin_coord_exact f32 f64 f x ltac:(auto) Hf Hx) in K. exact K.
    - unfold takum_linear16_from_float32. rewrite (flt_zero _ _ _ Hf).
      pose proof (mo_enc mach16 mach16_ok (Rlt_bool x 0) _ _ (isf_fcast_up f32 f64 _ _ S1 (isf_l_cast _ _ f32 _ _ Hf Hx S1))) as K.
      rewrite (lin_coord_exact f32 f64 f x ltac:(auto) Hf Hx) in K. exact K.
    - unfold takum_linear32_from_float32. rewrite (flt_zero _ _ _ Hf).
      pose proof (mo_enc mach32 mach32_ok (Rlt_bool x 0) _ _ (isf_fcast_up f64 f80 _ _ S2 (linl_isf _ _ _ _ S1 Hf Hx))) as K.
      rewrite (lin_coord_exact f32 f64 f x ltac:(auto) Hf Hx) in K. exact K.
    - unfold takum_linear64_from_float32. rewrite (flt_zero _ _ _ Hf).
      pose proof (mo_enc mach64 mach64_ok (Rlt_bool x 0) _ _ (isf_fcast_up f64 f80 _ _ S2 (linl_isf _ _ _ _ S1 Hf Hx))) as K.
      rewrite (lin_coord_exact f32 f64 f x ltac:(auto) Hf Hx) in K. exact K.
    - unfold takum_linear8_from_float64. rewrite (flt_zero _ _ _ Hf).
      pose proof (mo_enc mach8 mach8_ok (Rlt_bool x 0) _ _ (isf_l_cast _ _ f32 _ _ Hf Hx S2)) as K.
      rewrite (lin_coord_exact f64 f80 f x ltac:(auto) Hf Hx) in K. exact K.
    - unfold takum_linear16_from_float64. rewrite (flt_zero _ _ _ Hf).
      pose proof (mo_enc mach16 mach16_ok (Rlt_bool x 0) _ _ (isf_l_cast _ _ f64 _ _ Hf Hx S2)) as K.
      rewrite (lin_coord_exact f64 f80 f x ltac:(auto) Hf Hx) in K. exact K.
    - unfold takum_linear32_from_float64. rewrite (flt_zero _ _ _ Hf).
      pose proof (mo_enc mach32 mach32_ok (Rlt_bool x 0) _ _ (linl_isf _ _ _ _ S2 Hf Hx)) as K.
      rewrite (lin_coord_exact f64 f80 f x ltac:(auto) Hf Hx) in K. exact K.
    - unfold takum_linear64_from_float64. rewrite (flt_zero _ _ _ Hf).
      pose proof (mo_enc mach64 mach64_ok (Rlt_bool x 0) _ _ (linl_isf _ _ _ _ S2 Hf Hx)) as K.
      rewrite (lin_coord_exact f64 f80 f x ltac:(auto) Hf Hx) in K. exact K.
    - unfold takum_linear8_from_extended_float. change (@flt_ (ld x86_64) f (fzero (ld x86_64))) with (@flt_ f80 f (fzero f80)). rewrite (flt_zero _ _ _ Hf).
      exact (mo_enc mach8 mach8_ok _ _ _ (isf_l_cast _ _ f32 _ _ Hf Hx S3)).
    - unfold takum_linear16_from_extended_float. change (@flt_ (ld x86_64) f (fzero (ld x86_64))) with (@flt_ f80 f (fzero f80)). rewrite (flt_zero _ _ _ Hf).
      exact (mo_enc mach16 mach16_ok _ _ _ (isf_l_cast _ _ f64 _ _ Hf Hx S3)).
    - unfold takum_linear32_from_extended_float. change (@flt_ (ld x86_64) f (fzero (ld x86_64))) with (@flt_ f80 f (fzero f80)). rewrite (flt_zero _ _ _ Hf).
      exact (mo_enc mach32 mach32_ok _ _ _ (linl_isf _ _ _ _ S3 Hf Hx)).
    - unfold takum_linear64_from_extended_float. change (@flt_ (ld x86_64) f (fzero (ld x86_64))) with (@flt_ f80 f (fzero f80)). rewrite (flt_zero _ _ _ Hf).
      exact (mo_enc mach64 mach64_ok _ _ _ (linl_isf _ _ _ _ S3 Hf Hx)). }
  destruct H; repeat split; intros; try (destruct s; reflexivity); reflexivity.
Qed.
