(** What the decoder and encoder of each width do, in one interface. *)
From Coq Require Import ZArith Reals Bool Lia Lra List.
From Flocq Require Import Core.Core IEEE754.BinarySingleNaN.
From Verif Require Import CModel FloatModel WidthConv Codec Spec CodeFacts SpecFacts ValueFacts RoundFacts
  WidthFacts WidthProps FloatFacts DecodeFacts EncodeFacts PhiFacts Codec8Facts.
Local Open Scope R_scope.

Definition sg (s : bool) : R := if s then -1 else 1.

Lemma sg_sq : forall s, sg s * sg s = 1.
Proof. intros []; unfold sg; lra. Qed.
Lemma sg_xorb : forall s s', sg (xorb s s') = sg s * sg s'.
Proof. intros [] []; unfold sg; simpl; lra. Qed.
Lemma sg_negb : forall s, sg (negb s) = - sg s.
Proof. intros []; unfold sg; simpl; lra. Qed.
Lemma sg_abs : forall s, Rabs (sg s) = 1.
Proof. intros []; unfold sg; [rewrite Rabs_left by lra|rewrite Rabs_pos_eq by lra]; lra. Qed.

(** decoder and encoder of one width: format of l, format of the encoder's
    parameter, conversion between the two, the function applied by the encoder
    to c + m before rounding, and the number of binary digits after the point
    on which that function is the identity *)
Record mach := {
  m_n : Z; m_F : fmt; m_G : fmt;
  m_dec : Z -> outcome (flt m_F);
  m_enc : bool -> flt m_G -> outcome Z;
  m_cast : flt m_F -> flt m_G;
  m_psi : R -> R; m_P : Z
}.

Record mach_ok (m : mach) : Prop := {
  mo_n : std_width (m_n m);
  mo_dec : forall t, is_real_takum (m_n m) t -> exists l, m_dec m t = Val l /\ isf l (l_ (m_n m) t);
  mo_dec0 : m_dec m 0 = Val (fninf _);
  mo_decN : m_dec m (nar (m_n m)) = Val (fnan _);
  mo_cast : forall l x, isf l x -> isf (m_cast m l) x;
  mo_cast_inf : forall s, m_cast m (B754_infinity s) = B754_infinity s;
  mo_cast_nan : m_cast m B754_nan = B754_nan;
  mo_enc : forall s l x, isf l x ->
     m_enc m s l = Val (asm (m_n m) s (enc (m_n m) (m_psi m (sg s * x))));
  mo_enc_nan : forall s, m_enc m s B754_nan = Val (nar (m_n m));
  mo_enc_pinf : forall s, m_enc m s (B754_infinity false) = Val (nar (m_n m));
  mo_enc_ninf : forall s, m_enc m s (B754_infinity true) = Val 0%Z;
  mo_psi_mono : forall x y, x <= y -> m_psi m x <= m_psi m y;
  mo_psi_fix : forall k, m_psi m (IZR k * bpow radix2 (- m_P m)) = IZR k * bpow radix2 (- m_P m);
  mo_psi_grid : forall u, (0 <= u < 2 ^ (m_n m - 1))%Z -> m_psi m (cpm (m_n m) u) = cpm (m_n m) u;
  mo_P : (m_n m <= m_P m)%Z;
  mo_prec : (m_n m <= fprec (m_F m))%Z
}.

Lemma phi_dyadic : forall F k P, (0 <= P <= 64)%Z -> (P <= fprec F)%Z ->
  phi F (IZR k * bpow radix2 (- P)) = IZR k * bpow radix2 (- P).
Proof.
  intros F k P HP HF. pose proof (pow2_pos P ltac:(lia)) as Hp.
  pose proof (Z.mod_pos_bound k (2 ^ P) Hp) as Hb.
  assert (fr (IZR k * bpow radix2 (- P)) = IZR (k mod 2 ^ P) * bpow radix2 (- P)) as Ef.
  { unfold fr. rewrite Zfloor_div by lia. rewrite Z.mod_eq by lia.
    rewrite minus_IZR, mult_IZR, IZR_pow2 by lia. rewrite Rmult_minus_distr_r. f_equal.
    replace (bpow radix2 P * IZR (k / 2 ^ P) * bpow radix2 (- P))
      with (IZR (k / 2 ^ P) * (bpow radix2 P * bpow radix2 (- P))) by ring.
    rewrite <- bpow_plus, Z.add_opp_diag_r. simpl. ring. }
  apply (phi_fix F _ (k mod 2 ^ P * 2 ^ (64 - P))).
  - rewrite Ef. apply FF_dyadic.
    + assert (2 ^ P <= 2 ^ fprec F)%Z by (apply Z.pow_le_mono_r; lia). lia.
    + pose proof (fmt_pos F). lia.
  - rewrite Ef, mult_IZR, IZR_pow2 by lia. rewrite Rmult_assoc, <- bpow_plus. f_equal. f_equal. lia.
Qed.

Definition mach8 : mach := {| m_n := 8; m_F := f32; m_G := f32;
  m_dec := codec_takum8_to_l; m_enc := codec_takum8_from_s_and_l x86_64; m_cast := fun l => l;
  m_psi := fun x => x; m_P := 64 |}.
Definition mach16 : mach := {| m_n := 16; m_F := f32; m_G := f64;
  m_dec := codec_takum16_to_l; m_enc := codec_takum16_from_s_and_l; m_cast := fcast f64;
  m_psi := phi f64; m_P := 53 |}.
Definition mach32 : mach := {| m_n := 32; m_F := f64; m_G := f80;
  m_dec := codec_takum32_to_l; m_enc := codec_takum32_from_s_and_l x86_64; m_cast := fcast f80;
  m_psi := phi f80; m_P := 64 |}.
Definition mach64 : mach := {| m_n := 64; m_F := f80; m_G := f80;
  m_dec := codec_takum64_to_l x86_64; m_enc := codec_takum64_from_s_and_l x86_64; m_cast := fun l => l;
  m_psi := phi f80; m_P := 64 |}.

Ltac mach_cbn := cbn [m_n m_F m_G m_dec m_enc m_cast m_psi m_P mach8 mach16 mach32 mach64].

Lemma mach8_ok : mach_ok mach8.
Proof.
  split; mach_cbn; try (intros; reflexivity || lia || assumption).
  - left; reflexivity.
  - exact to_l_8.
  - exact codec8_eq.
  - simpl. lia.
Qed.

Lemma mach16_ok : mach_ok mach16.
Proof.
  split; mach_cbn; try (intros; reflexivity || lia || assumption).
  - right; left; reflexivity.
  - exact to_l_16.
  - intros l x. apply isf_fcast_up. split; simpl; lia.
  - exact codec16_eq.
  - exact (phi_mono f64).
  - intros k. apply phi_dyadic; simpl; lia.
  - intros u. apply phi_cpm; simpl; lia.
  - simpl. lia.
Qed.

Lemma mach32_ok : mach_ok mach32.
Proof.
  split; mach_cbn; try (intros; reflexivity || lia || assumption).
  - right; right; left; reflexivity.
  - exact to_l_32.
  - intros l x. apply isf_fcast_up. split; simpl; lia.
  - exact codec32_eq.
  - exact (phi_mono f80).
  - intros k. apply phi_dyadic; simpl; lia.
  - intros u. apply phi_cpm; simpl; lia.
  - simpl. lia.
Qed.

Lemma mach64_ok : mach_ok mach64.
Proof.
  split; mach_cbn; try (intros; reflexivity || lia || assumption).
  - right; right; right; reflexivity.
  - intros t. apply (to_l_64 x86_64). simpl; lia.
  - exact codec64_eq.
  - exact (phi_mono f80).
  - intros k. apply phi_dyadic; simpl; lia.
  - intros u. apply phi_cpm; simpl; lia.
Qed.

(** ** Facts about l *)
Lemma cpm_dyadic : forall n u, (6 <= n <= 64)%Z -> (0 <= u < 2 ^ (n - 1))%Z ->
  exists k, cpm n u = IZR k * bpow radix2 (- (n - 5)).
Proof.
  intros n u Hn Hu. destruct (u_split n ltac:(lia) u Hu) as (DR & y & -> & Hy & HD).
  rewrite cpm_affine by lia. pose proof (regZ_bounds DR HD) as Hr.
  exists (biasZ DR * 2 ^ (n - 5) + y * 2 ^ regZ DR)%Z.
  rewrite plus_IZR, !mult_IZR, !IZR_pow2 by lia.
  rewrite Rmult_plus_distr_r, !Rmult_assoc, <- !bpow_plus, Z.add_opp_diag_r. simpl (bpow radix2 0).
  replace (regZ DR + - (n - 5))%Z with (regZ DR - (n - 5))%Z by lia. ring.
Qed.

Lemma l_sg_cpm : forall n t, (6 <= n <= 64)%Z -> is_real_takum n t ->
  l_ n t = sg (t <? 0)%Z * cpm n (low n t).
Proof. intros n t Hn Hr. unfold sg. apply l_cpm; assumption. Qed.

Lemma l_dyadic : forall n t, (6 <= n <= 64)%Z -> is_real_takum n t ->
  exists k, l_ n t = IZR k * bpow radix2 (- (n - 5)).
Proof.
  intros n t Hn Hr. rewrite l_sg_cpm by assumption.
  pose proof (real_low_pos n t ltac:(lia) Hr).
  destruct (cpm_dyadic n (low n t) Hn ltac:(lia)) as [k ->].
  exists (if (t <? 0)%Z then (- k)%Z else k). unfold sg. destruct (t <? 0)%Z; rewrite ?opp_IZR; ring.
Qed.

Lemma l_abs : forall n t, (6 <= n <= 64)%Z -> is_real_takum n t -> Rabs (l_ n t) <= 255.
Proof.
  intros n t Hn Hr. rewrite l_sg_cpm, Rabs_mult, sg_abs, Rmult_1_l by assumption.
  pose proof (real_low_pos n t ltac:(lia) Hr). pose proof (cpm_bounds n Hn (low n t) ltac:(lia)).
  apply Rabs_le. lra.
Qed.

Lemma FF_small_dyadic : forall F k d, (0 <= d)%Z -> (d + 9 <= fprec F)%Z ->
  Rabs (IZR k * bpow radix2 (- d)) <= 512 -> FF F (IZR k * bpow radix2 (- d)).
Proof.
  intros F k d Hd Hp H. pose proof (fmt_pos F). apply FF_dyadic; [|lia].
  apply le_IZR. rewrite abs_IZR, IZR_pow2 by lia.
  rewrite Rabs_mult, (Rabs_pos_eq (bpow radix2 (- d))) in H by apply bpow_ge_0.
  apply Rmult_le_reg_r with (bpow radix2 (- d)); [apply bpow_gt_0|].
  eapply Rle_trans; [exact H|]. rewrite <- bpow_plus. change 512 with (bpow radix2 9). apply bpow_le. lia.
Qed.

Lemma lt_emax_512 : forall F x, Rabs x <= 512 -> Rabs x < bpow radix2 (femax F).
Proof.
  intros F x H. eapply Rle_lt_trans; [exact H|]. change 512 with (bpow radix2 9). apply bpow_lt.
  pose proof (fmt_pos F). lia.
Qed.

(** ** Encoding *)
Lemma enc_nearest_sg : forall n s L, (6 <= n <= 64)%Z -> nearest n s L (asm n s (enc n (sg s * L))).
Proof. intros n s L Hn. unfold sg. apply enc_nearest. assumption. Qed.

Lemma asm_enc_intn : forall n s x, (6 <= n <= 64)%Z -> is_real_takum n (asm n s (enc n x)).
Proof. intros n s x Hn. apply asm_real. apply enc_range. assumption. Qed.

Section M.
Variable m : mach.
Hypothesis Hm : mach_ok m.
Local Notation n := (m_n m).

Lemma mo_range : (8 <= n <= 64)%Z.
Proof. apply std_range. apply Hm. Qed.

(** encoding of a real computed exactly *)
Lemma enc_exact : forall s (l : flt (m_G m)) k d, (0 <= d <= m_P m)%Z -> isf l (IZR k * bpow radix2 (- d)) ->
  m_enc m s l = Val (asm n s (enc n (sg s * (IZR k * bpow radix2 (- d))))).
Proof.
  intros s l k d Hd Hl. rewrite (mo_enc m Hm s l _ Hl).
  assert (exists k', sg s * (IZR k * bpow radix2 (- d)) = IZR k' * bpow radix2 (- m_P m)) as [k' ->].
  { exists ((if s then - k else k) * 2 ^ (m_P m - d))%Z. unfold sg.
    assert (bpow radix2 (- d) = bpow radix2 (m_P m - d) * bpow radix2 (- m_P m)) as ->.
    { rewrite <- bpow_plus. f_equal. lia. }
    rewrite mult_IZR, IZR_pow2 by lia. destruct s; rewrite ?opp_IZR; ring. }
  rewrite (mo_psi_fix m Hm). reflexivity.
Qed.

Lemma enc_faithful : forall (rho : R -> R) s L,
  (forall x y, x <= y -> rho x <= rho y) -> (forall u, (0 < u < 2 ^ (n - 1))%Z -> rho (cpm n u) = cpm n u) ->
  (forall x, rho (sg s * x) = sg s * rho x) ->
  faithful n s L (asm n s (enc n (m_psi m (sg s * rho L)))).
Proof.
  intros rho s L Hmono Hfix Hodd. pose proof mo_range. rewrite <- Hodd. unfold sg.
  apply (faithful_of_mono n ltac:(lia) s L); fold (sg s).
  - intros u Hu K. rewrite <- (mo_psi_grid m Hm u) by lia. apply (mo_psi_mono m Hm).
    rewrite <- (Hfix u) by lia. apply Hmono. assumption.
  - intros u Hu K. rewrite <- (mo_psi_grid m Hm u) by lia. apply (mo_psi_mono m Hm).
    rewrite <- (Hfix u) by lia. apply Hmono. assumption.
Qed.

(** grid points are numbers of the format of l *)
Lemma FF_cpm : forall u, (0 < u < 2 ^ (n - 1))%Z -> FF (m_F m) (cpm n u).
Proof.
  intros u Hu. pose proof mo_range.
  assert (is_real_takum n (asm n false u)) as Hr by (apply asm_real; assumption).
  destruct (mo_dec m Hm _ Hr) as (l & _ & Hl). apply isf_FF in Hl.
  rewrite l_sg_cpm, asm_neg, low_asm in Hl by (assumption || lia). unfold sg in Hl. rewrite Rmult_1_l in Hl. assumption.
Qed.

End M.
