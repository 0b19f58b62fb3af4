(** Platforms other than x86-64: long double of 53 or 113 bits, and the
    little-endian struct with 64 bits (C36). *)
From Coq Require Import ZArith Reals Bool Lia Lra.
From Flocq Require Import Core.Core IEEE754.BinarySingleNaN.
From Verif Require Import CModel FloatModel Codec Conversion Spec FloatSpec FloatFacts CodeFacts RoundFacts SpecFacts DecodeFacts WidthConv WidthFacts EncodeFacts PhiFacts LinFacts.
Local Open Scope R_scope.

Definition no_80 (F : fmt) : Prop := F = f64 \/ F = f128.

Lemma frac_ub : forall F b (m : flt F) r p, no_80 F -> isf m r -> / 2 <= r < 1 -> p <> 0%Z ->
  extended_float_fraction_to_rounded_bits {| ld := F; big_endian_struct := b |} m p = UB.
Proof.
  intros F b m r p HF Hm Hr Hp. unfold extended_float_fraction_to_rounded_bits. cbn [ld].
  rewrite (feq_isf m (fzero F) r 0 Hm (FloatFacts.isf_zero _)). rewrite Req_bool_false by lra. replace (p =? 0)%Z with false by lia. cbn [orb].
  destruct (ffrexp_isf F m r Hm ltac:(lra)) as [_ Hq]. rewrite Hq.
  assert ((mag radix2 r : Z) = 0%Z) as ->.
  { apply mag_unique_pos. change (bpow radix2 (0 - 1)) with (/ 2). change (bpow radix2 0) with 1. lra. }
  destruct HF as [-> | ->]; reflexivity.
Qed.

Lemma enc_ub : forall F b n extra (bound : flt F) (s : bool) (l : flt F) x B e, no_80 F -> isf bound B -> 254 + 3 / 4 <= B ->
  (forall DR p, (0 <= DR < 16)%Z -> lookup p_lut DR = Val p -> (p + extra <> 0)%Z) ->
  isf l x -> (-254 <= e <= 253)%Z -> (if s then - x else x) >= IZR e + / 2 -> (if s then - x else x) <= IZR e + 3 / 4 ->
  (let! r := encode_cm F n bound s l in
   match r with
   | inl t => Val t
   | inr (c, m) => encode_assemble n extra (extended_float_fraction_to_rounded_bits {| ld := F; big_endian_struct := b |}) s c m
   end) = UB.
Proof.
  intros F b n extra bound s l x B e HF HB Hb Hp Hl He X1 X2.
  assert (-254 <= IZR e <= 253) as He' by (split; apply IZR_le; lia).
  assert (254 <= fprec F \/ True)%Z as _ by tauto. pose proof (fmt_pos F) as (P1 & P2 & P3).
  assert (bpow radix2 8 = 256) as B8 by reflexivity.
  assert (bpow radix2 8 < bpow radix2 (femax F)) as Hmax by (apply bpow_lt; lia).
  unfold encode_cm. rewrite (fisnan_isf l x Hl), (fisinf_isf l x Hl). cbv [orb andb].
  rewrite (flt_isf l (fneg bound) x (- B) Hl) by (apply isf_fneg; assumption).
  rewrite Rlt_bool_false by (destruct s; lra). rewrite (fgt_isf l bound x B Hl HB). rewrite Rlt_bool_false by (destruct s; lra).
  set (y := if s then - x else x) in *.
  set (cpm_ := fmul (fint F (1 - 2 * b2z s)) l).
  assert (isf cpm_ y) as Hcpm.
  { assert (isf (fint F (1 - 2 * b2z s)) (if s then -1 else 1)) as Hsg.
    { eapply isf_eq; [apply isf_fint|destruct s; reflexivity]. pose proof (pow2_pos (fprec F) ltac:(lia)). destruct s; cbv [b2z]; lia. }
    assert (y = (if s then -1 else 1) * x) as Ey by (unfold y; destruct s; ring). rewrite Ey.
    apply isf_fmul_exact; [assumption|assumption| |].
    - rewrite <- Ey. unfold y. pose proof (isf_FF _ _ _ Hl). destruct s; [apply FF_opp|]; assumption.
    - rewrite <- Ey. apply Rabs_lt. lra. }
  assert (Zfloor y = e) as Ef by (apply Zfloor_imp; rewrite plus_IZR; lra).
  rewrite (f2int_isf 16 (ffloor cpm_) e).
  2:{ rewrite <- Ef. apply isf_ffloor. assumption. }
  2:{ unfold fits_s. change (16 - 1)%Z with 15%Z. change (2 ^ 15)%Z with 32768%Z. lia. }
  cbv beta iota delta [bind].
  set (m0 := fsub cpm_ (fint F e)).
  assert (FF F (/ 2) /\ FF F (3 / 4)) as [F1 F2].
  { split; [replace (/ 2) with (IZR 1 * bpow radix2 (-1)) by (cbn; lra)|replace (3 / 4) with (IZR 3 * bpow radix2 (-2)) by (cbn; lra)]; apply FF_dyadic;
      destruct HF as [-> | ->]; vm_compute; discriminate. }
  assert (/ 2 <= RF F (y - IZR e) <= 3 / 4) as Hm.
  { split; [rewrite <- (RF_id F (/ 2) F1)|rewrite <- (RF_id F (3 / 4) F2)]; apply RF_mono; lra. }
  assert (isf m0 (RF F (y - IZR e))) as Hm0.
  { unfold m0. apply isf_fsub; [assumption| |].
    - apply isf_fint. assert (2 ^ 8 <= 2 ^ fprec F)%Z by (apply Z.pow_le_mono_r; lia). change (2 ^ 8)%Z with 256%Z in *. lia.
    - apply Rabs_lt. lra. }
  assert (isf (fint F 1) 1) as H1 by (apply isf_fint; pose proof (pow2_pos (fprec F) ltac:(lia)); lia).
  rewrite (feq_isf m0 (fint F 1) _ _ Hm0 H1). rewrite Req_bool_false by lra.
  unfold encode_assemble. rewrite get_DR_eq by lia. cbv beta iota delta [bind].
  destruct (DRof_spec e ltac:(lia)) as [HD _]. pose proof (Hp (DRof e)) as Hp'. rewrite lookup_p in * by assumption.
  rewrite (frac_ub F b m0 _ _ HF Hm0); [reflexivity|lra|]. apply Hp'; [assumption|reflexivity].
Qed.

Lemma bound32_ge : forall F, no_80 F -> exists B, isf (bound32 F) B /\ 254 + 3 / 4 <= B.
Proof.
  intros F HF. exists (B2R (bound32 F)).
  assert (is_finite (bound32 F) = true) as Fi by (destruct HF as [-> | ->]; vm_compute; reflexivity).
  split; [split; [assumption|reflexivity]|].
  assert (isf (fconst F 1019 (-2)) (254 + 3 / 4)) as Hc.
  { eapply isf_eq; [apply isf_fconst|].
    - apply FF_dyadic; destruct HF as [-> | ->]; vm_compute; discriminate.
    - apply Rabs_lt. pose proof (fmt_pos F). assert (bpow radix2 8 < bpow radix2 (femax F)) by (apply bpow_lt; lia). change (bpow radix2 8) with 256 in *. change (bpow radix2 (-2)) with (/ 4). lra.
    - change (bpow radix2 (-2)) with (/ 4). lra. }
  pose proof (flt_isf (bound32 F) (fconst F 1019 (-2)) _ _ (conj Fi eq_refl) Hc) as L.
  assert (flt_ (bound32 F) (fconst F 1019 (-2)) = false) as E by (destruct HF as [-> | ->]; vm_compute; reflexivity).
  rewrite E in L. symmetry in L. clear - L. generalize dependent (B2R (bound32 F)). intros B. case Rlt_bool_spec; [discriminate|trivial].
Qed.
Lemma bound64_ge : forall F, no_80 F -> exists B, isf (bound64 F) B /\ 254 + 3 / 4 <= B.
Proof.
  intros F HF. exists (B2R (bound64 F)).
  assert (is_finite (bound64 F) = true) as Fi by (destruct HF as [-> | ->]; vm_compute; reflexivity).
  split; [split; [assumption|reflexivity]|].
  assert (isf (fconst F 1019 (-2)) (254 + 3 / 4)) as Hc.
  { eapply isf_eq; [apply isf_fconst|].
    - apply FF_dyadic; destruct HF as [-> | ->]; vm_compute; discriminate.
    - apply Rabs_lt. pose proof (fmt_pos F). assert (bpow radix2 8 < bpow radix2 (femax F)) by (apply bpow_lt; lia). change (bpow radix2 8) with 256 in *. change (bpow radix2 (-2)) with (/ 4). lra.
    - change (bpow radix2 (-2)) with (/ 4). lra. }
  pose proof (flt_isf (bound64 F) (fconst F 1019 (-2)) _ _ (conj Fi eq_refl) Hc) as L.
  assert (flt_ (bound64 F) (fconst F 1019 (-2)) = false) as E by (destruct HF as [-> | ->]; vm_compute; reflexivity).
  rewrite E in L. symmetry in L. clear - L. generalize dependent (B2R (bound64 F)). intros B. case Rlt_bool_spec; [discriminate|trivial].
Qed.

(** linear takums of 32 and 64 bits from doubles *)
Lemma platform_ub : forall pf (f : flt f64) e, ld pf = f64 \/ ld pf = f128 -> is_finite f = true -> (-254 <= e <= 253)%Z ->
  3 / 2 * bpow radix2 e <= B2R f <= 7 / 4 * bpow radix2 e ->
  takum_linear32_from_float64 pf f = UB /\ takum_linear64_from_float64 pf f = UB.
Proof.
  intros [F b] f e HF Hf He Hx. cbn [ld] in HF. set (x := B2R f) in *. assert (isf f x) as If by (split; [assumption|reflexivity]).
  pose proof (bpow_gt_0 radix2 e) as Pb. assert (0 < x) as Px by lra.
  assert ((mag radix2 x : Z) = e + 1)%Z as Em.
  { apply mag_unique_pos. replace (e + 1 - 1)%Z with e by lia. rewrite bpow_plus. change (bpow radix2 1) with 2. lra. }
  assert (isf (codec_linear_l_from f64 F f) (RF F (lin_coord x))) as Hl.
  { apply linl_isf; [destruct HF as [-> | ->]; repeat split; vm_compute; discriminate|assumption|lra]. }
  assert (lin_coord x = IZR e + (x / bpow radix2 e - 1)) as Ec.
  { unfold lin_coord. cbv zeta. rewrite Em, Rabs_pos_eq by lra. replace (e + 1 - 1)%Z with e by lia. reflexivity. }
  assert (3 / 2 <= x / bpow radix2 e <= 7 / 4) as Hq.
  { assert (x / bpow radix2 e * bpow radix2 e = x) as K by (field; lra). split; apply Rmult_le_reg_r with (bpow radix2 e); lra. }
  assert (FF F (IZR e + / 2) /\ FF F (IZR e + 3 / 4)) as [F1 F2].
  { split; [replace (IZR e + / 2) with (IZR (2 * e + 1) * bpow radix2 (-1))|replace (IZR e + 3 / 4) with (IZR (4 * e + 3) * bpow radix2 (-2))].
    1, 3: apply FF_dyadic; [destruct HF as [-> | ->]; cbn [fprec]; lia|destruct HF as [-> | ->]; vm_compute; discriminate].
    - rewrite plus_IZR, mult_IZR. change (bpow radix2 (-1)) with (/ 2). lra.
    - rewrite plus_IZR, mult_IZR. change (bpow radix2 (-2)) with (/ 4). lra. }
  assert (IZR e + / 2 <= RF F (lin_coord x) <= IZR e + 3 / 4) as Hr.
  { split; [rewrite <- (RF_id F _ F1)|rewrite <- (RF_id F _ F2)]; apply RF_mono; lra. }
  assert (flt_ f (fzero f64) = false) as Es by (rewrite (flt_isf f (fzero f64) x 0 If (FloatFacts.isf_zero _)); apply Rlt_bool_false; lra).
  unfold takum_linear32_from_float64, takum_linear64_from_float64, codec_linear_l_from_float64, codec_takum32_from_s_and_l, codec_takum64_from_s_and_l. cbn [ld]. rewrite Es.
  split.
  - destruct (bound32_ge F HF) as (B & HB & Hb). apply (enc_ub F b 32 16 _ false _ (RF F (lin_coord x)) B e HF HB Hb); [|exact Hl|assumption|cbv iota; lra|cbv iota; lra].
    intros DR p HD. rewrite lookup_p by assumption. intros E. assert (p = 11 - regZ DR)%Z by congruence. pose proof (regZ_bounds DR HD). lia.
  - destruct (bound64_ge F HF) as (B & HB & Hb). apply (enc_ub F b 64 48 _ false _ (RF F (lin_coord x)) B e HF HB Hb); [|exact Hl|assumption|cbv iota; lra|cbv iota; lra].
    intros DR p HD. rewrite lookup_p by assumption. intros E. assert (p = 11 - regZ DR)%Z by congruence. pose proof (regZ_bounds DR HD). lia.
Qed.

(** 80 bits and the little-endian struct: 3/2 becomes something else *)
Lemma struct_wrong : exists t, takum_linear64_from_float64 {| ld := f80; big_endian_struct := false |} (fconst f64 3 (-1)) = Val t /\
  takum_linear64_from_float64 x86_64 (fconst f64 3 (-1)) <> Val t.
Proof.
  exists 4755788012363710464%Z. split; [vm_compute; reflexivity|]. vm_compute. discriminate.
Qed.
