(** Proofs for the test programs test/codec.c and test/conversion.c. *)
From Coq Require Import ZArith Reals List Bool Lia Lra.
From Flocq Require Import Core.Core IEEE754.BinarySingleNaN.
From Verif Require Import CModel FloatModel Codec Libm LinApi Conversion Spec Wrappers WrapApi LibmSpec CodeFacts SpecFacts ValueFacts RoundFacts
  FloatFacts WidthFacts WidthProps FloatSpec Machine LinFacts LinProps LogProps LogConv TestHarness HarnessSpec TestBlocks TestBlocksSpec HarnessResults.
Local Open Scope R_scope.

(** ** The round trips *)
Lemma codec_trip : forall m t, mach_ok m -> is_intn (m_n m) t -> (let! l := m_dec m t in m_enc m (t <? 0)%Z (m_cast m l)) = Val t.
Proof.
  intros m t M It. pose proof (std_range _ (mo_n _ M)) as Hn. destruct (takum_cases (m_n m) t It) as [->|[->|Hr]].
  - rewrite (mo_dec0 _ M). cbn [bind]. unfold fninf. rewrite (mo_cast_inf _ M). apply (mo_enc_ninf _ M).
  - rewrite (mo_decN _ M). cbn [bind]. unfold fnan. rewrite (mo_cast_nan _ M). apply (mo_enc_nan _ M).
  - destruct (mo_dec _ M t Hr) as (l & -> & Hl). cbn [bind]. rewrite (mo_enc _ M _ _ _ (mo_cast _ M _ _ Hl)).
    assert (sg (t <? 0)%Z * l_ (m_n m) t = cpm (m_n m) (low (m_n m) t)) as ->.
    { rewrite l_sg_cpm by (assumption || lia). rewrite <- Rmult_assoc, sg_sq. apply Rmult_1_l. }
    pose proof (real_low_pos (m_n m) t ltac:(lia) Hr) as Hl'. rewrite (mo_psi_grid _ M) by lia. rewrite enc_cpm by lia. rewrite asm_low by (assumption || lia). reflexivity.
Qed.

Lemma codec_accepts : forall k w t, is_intn (bits w) t -> exists f, match codec_utb with ROUNDTRIP g => g k w = Some f | _ => False end /\ f t = Val t.
Proof.
  intros k w t It. destruct k, w; (eexists; split; [reflexivity|]).
  - exact (codec_trip mach8 t mach8_ok It).
  - exact (codec_trip mach16 t mach16_ok It).
  - exact (codec_trip mach32 t mach32_ok It).
  - exact (codec_trip mach64 t mach64_ok It).
  - exact (lin_trip 8 f64 _ _ t lin8_from_float64 lin8_to_float64 ltac:(right; split; [reflexivity|discriminate]) It).
  - exact (lin_trip 16 f64 _ _ t lin16_from_float64 lin16_to_float64 ltac:(right; split; [reflexivity|discriminate]) It).
  - exact (lin_trip 32 f64 _ _ t lin32_from_float64 lin32_to_float64 ltac:(right; split; [reflexivity|discriminate]) It).
  - exact (lin_trip 64 f80 _ _ t lin64_from_extended_float lin64_to_extended_float ltac:(unfold exact_pair; left; reflexivity) It).
Qed.

Lemma float64_accepts : forall lm k w t, c99 lm -> w <> W64 -> is_intn (bits w) t -> exists f, match conversion_float64_utb lm with ROUNDTRIP g => g k w = Some f | _ => False end /\ f t = Val t.
Proof.
  intros lm k w t C Nw It. destruct k, w; try (exfalso; apply Nw; reflexivity); (eexists; split; [reflexivity|]).
  - exact (log_trip lm 8 f64 _ _ t C (log8_to_float64 lm) (log8_from_float64 lm) ltac:(cbn; lia) It ltac:(discriminate)).
  - exact (log_trip lm 16 f64 _ _ t C (log16_to_float64 lm) (log16_from_float64 lm) ltac:(cbn; lia) It ltac:(discriminate)).
  - exact (log_trip lm 32 f64 _ _ t C (log32_to_float64 lm) (log32_from_float64 lm) ltac:(cbn; lia) It ltac:(discriminate)).
  - exact (lin_trip 8 f64 _ _ t lin8_from_float64 lin8_to_float64 ltac:(right; split; [reflexivity|discriminate]) It).
  - exact (lin_trip 16 f64 _ _ t lin16_from_float64 lin16_to_float64 ltac:(right; split; [reflexivity|discriminate]) It).
  - exact (lin_trip 32 f64 _ _ t lin32_from_float64 lin32_to_float64 ltac:(right; split; [reflexivity|discriminate]) It).
Qed.

Lemma extended_accepts : forall lm k w t, c99 lm -> is_intn (bits w) t -> exists f, match conversion_extended_float_utb lm with ROUNDTRIP g => g k w = Some f | _ => False end /\ f t = Val t.
Proof.
  intros lm k w t C It. destruct k, w; (eexists; split; [reflexivity|]).
  - exact (log_trip lm 8 f80 _ _ t C (log8_to_extended_float lm) (log8_from_extended_float lm) ltac:(cbn; lia) It ltac:(discriminate)).
  - exact (log_trip lm 16 f80 _ _ t C (log16_to_extended_float lm) (log16_from_extended_float lm) ltac:(cbn; lia) It ltac:(discriminate)).
  - exact (log_trip lm 32 f80 _ _ t C (log32_to_extended_float lm) (log32_from_extended_float lm) ltac:(cbn; lia) It ltac:(discriminate)).
  - exact (log_trip lm 64 f80 _ _ t C (log64_to_extended_float lm) (log64_from_extended_float lm) ltac:(cbn; lia) It ltac:(discriminate)).
  - exact (lin_trip 8 f80 _ _ t lin8_from_extended_float lin8_to_extended_float ltac:(left; reflexivity) It).
  - exact (lin_trip 16 f80 _ _ t lin16_from_extended_float lin16_to_extended_float ltac:(left; reflexivity) It).
  - exact (lin_trip 32 f80 _ _ t lin32_from_extended_float lin32_to_extended_float ltac:(left; reflexivity) It).
  - exact (lin_trip 64 f80 _ _ t lin64_from_extended_float lin64_to_extended_float ltac:(left; reflexivity) It).
Qed.

(** ** Doubles from their bits *)
Open Scope Z_scope.
Lemma bounded_double : forall p e, Zpos p < 2 ^ 53 -> (e = -1074 \/ 2 ^ 52 <= Zpos p) -> -1074 <= e <= 971 -> SpecFloat.bounded 53 1024 p e = true.
Proof.
  intros p e Hp Hn He. unfold SpecFloat.bounded, SpecFloat.canonical_mantissa. apply andb_true_intro. split; [|apply Z.leb_le; lia].
  rewrite Zpos_digits2_pos. unfold SpecFloat.fexp, SpecFloat.emin.
  assert (Zdigits radix2 (Zpos p) <= 53) as Hd by (apply Zdigits_le_Zpower; exact Hp).
  assert (Zeq_bool (Z.max (Zdigits radix2 (Zpos p) + e - 53) (3 - 1024 - 53)) e = true) as ->; [|reflexivity].
  apply Zeq_is_eq_bool. destruct Hn as [-> |Hn]; [lia|].
  assert (52 < Zdigits radix2 (Zpos p)) by (apply Zdigits_gt_Zpower; exact Hn). lia.
Qed.
Lemma finite_double_image : forall (s : bool) m e, (0 <= m < 2 ^ 53) -> (e = -1074 \/ 2 ^ 52 <= m) -> -1074 <= e <= 971 ->
  is_finite (finite_double s m e) = true /\
  image (finite_double s m e) = b2z s * 2 ^ 63 + (if 2 ^ 52 <=? m then (e + 1075) * 2 ^ 52 + (m - 2 ^ 52) else m).
Proof.
  intros s m e Hm Hn He. unfold finite_double. destruct m as [|p|p].
  - split; [reflexivity|]. destruct s; reflexivity.
  - destruct (bool_dec (SpecFloat.bounded 53 1024 p e) true) as [H|H].
    + split; [reflexivity|]. unfold image, exp_bits, frac_bits. cbn [fprec femax]. unfold SpecFloat.emin. change (53 - 1) with 52. change (11 + 52) with 63. rewrite Z.add_0_r.
      destruct (2 ^ 52 <=? Zpos p); lia.
    + exfalso. apply H. apply bounded_double; assumption || lia.
  - lia.
Qed.
Lemma double_bits : forall t, is_intn 64 t -> is_finite (double_of_bits t) = true -> image (double_of_bits t) = to_u 64 t.
Proof.
  intros t It F. unfold double_of_bits in *. assert (0 <= to_u 64 t < 2 ^ 64) as Hu by (unfold to_u; apply Z.mod_pos_bound; lia). revert F Hu. generalize (to_u 64 t). intros u F Hu.
  cbv zeta in *. pose proof (Z.div_mod u (2 ^ 52) ltac:(lia)) as D. pose proof (Z.mod_pos_bound u (2 ^ 52) ltac:(lia)) as Hm.
  pose proof (Z.div_mod (u / 2 ^ 52) (2 ^ 11) ltac:(lia)) as D'. pose proof (Z.mod_pos_bound (u / 2 ^ 52) (2 ^ 11) ltac:(lia)) as He.
  set (q := u / 2 ^ 52) in *. set (m := u mod 2 ^ 52) in *. set (e := q mod 2 ^ 11) in *. clearbody m e q. set (h := q / 2 ^ 11) in *. clearbody h.
  assert (u = b2z (2 ^ 63 <=? u) * 2 ^ 63 + e * 2 ^ 52 + m) as E.
  { assert (h = 0 \/ h = 1) as Hh by lia. destruct Hh as [-> | ->]; destruct (Z.leb_spec (2 ^ 63) u); cbn [b2z]; lia. }
  destruct (Z.eqb_spec e (2 ^ 11 - 1)) as [E1|N]; [destruct (m =? 0); discriminate F|].
  destruct (Z.eqb_spec e 0) as [E0|N0].
  - destruct (finite_double_image (2 ^ 63 <=? u) m (-1074)) as [_ ->]; try lia. destruct (Z.leb_spec (2 ^ 52) m); lia.
  - destruct (finite_double_image (2 ^ 63 <=? u) (m + 2 ^ 52) (e - 1075)) as [_ ->]; try lia. destruct (Z.leb_spec (2 ^ 52) (m + 2 ^ 52)); lia.
Qed.

Lemma full_accepts : forall t, is_intn 64 t -> float64_conversion_takum_linear64_roundtrip t = Val t.
Proof.
  intros t It. unfold float64_conversion_takum_linear64_roundtrip. cbv zeta.
  destruct (fisfinite (double_of_bits t)) eqn:F; [|reflexivity]. cbn [negb orb].
  pose proof (double_bits t It F) as B. set (f := double_of_bits t) in *. clearbody f.
  assert (isf f (B2R f)) as Kf by (split; [exact F|reflexivity]).
  assert (isf (ffabs f) (Rabs (B2R f))) as Ka by (split; [unfold ffabs; rewrite is_finite_Babs; exact F|apply B2R_Babs]).
  assert (forall e, (e = 255 \/ e = -255) -> isf (fconst f64 1 e) (bpow radix2 e)) as Kc.
  { intros e He. rewrite <- (Rmult_1_l (bpow radix2 e)). apply (isf_fconst (f := f64) 1 e).
    - rewrite Rmult_1_l. apply FF_bpow. cbn. lia.
    - rewrite Rmult_1_l, Rabs_pos_eq by apply bpow_ge_0. apply bpow_lt. cbn. lia. }
  rewrite (fge_isf _ _ _ _ Ka (Kc 255 ltac:(auto))), (fle_isf _ _ _ _ Ka (Kc (-255) ltac:(auto))).
  destruct (Rle_bool_spec (bpow radix2 255) (Rabs (B2R f))) as [H1|H1]; [reflexivity|].
  destruct (Rle_bool_spec (Rabs (B2R f)) (bpow radix2 (-255))) as [H2|H2]; [reflexivity|]. cbn [orb].
  pose proof (lin64_trip f64 _ _ f ltac:(right; reflexivity) lin64_from_float64 lin64_to_float64 F (conj H2 H1)) as T.
  destruct (takum_linear64_from_float64 x86_64 f) as [x|]; [|discriminate T]. cbn [bind] in *. rewrite T. cbn [bind]. rewrite B. f_equal.
  apply to_s_to_u; [lia|exact It].
Qed.

(** ** The runs *)
Lemma checks_pass : forall utb k w, well_formed utb -> (forall a b, test_case utb w a b -> check_unary_binary_case utb a b k w = Val 0) -> type_passes utb k w.
Proof.
  intros utb k w Hw H rnd. assert (1 <= maximum_sample_count <= 2 ^ 63) as Hm by (unfold maximum_sample_count; lia).
  destruct (terminates utb k w maximum_sample_count rnd Hw) as (l & passed & target & result & R & Et & El & Hc & U).
  - intros a b T. rewrite (H a b T). discriminate.
  - exact Hm.
  - exists l. cbv zeta. change maximum_sample_count with (2 ^ 22) in Et at 1. rewrite <- Et.
    destruct (verdict utb k w _ _ _ _ _ _ Hw Hm R) as (V & _ & Vp & Vr & _).
    assert (forall a b c, In (a, b, c) l -> accepted utb k w a b) as A.
    { intros a b c Hi. destruct (check_accepted utb k w a b 0 (Hc a b c Hi) (H a b (Hc a b c Hi))) as [[_ K]|[K _]]; [exact K|discriminate K]. }
    assert (result = 0) as E0.
    { apply Vr. intros a b Hi. apply in_map_iff in Hi. destruct Hi as ([[a' b'] c] & E & Hi). cbn in E. injection E as -> ->. apply (A a b c Hi). }
    assert (passed = target) as Ep.
    { rewrite Vp, filter_true; [exact El|]. intros [[a b] c] Hi. cbn. destruct (V a b c Hi) as [[-> _]|[_ Q]]; [reflexivity|]. exfalso. apply Q, (A a b c Hi). }
    rewrite E0, Ep in R. split; [exact R|]. split; [exact El|exact U].
Qed.
Lemma roundtrip_passes : forall g, (forall k w a, is_intn (bits w) a -> match g k w with Some f => f a = Val a | None => True end) -> passes (ROUNDTRIP g).
Proof.
  intros g H k w. apply checks_pass; [exact I|]. intros a b [Ia _]. cbn [check_unary_binary_case]. pose proof (H k w a Ia) as A. destruct (g k w) as [f|]; [|reflexivity].
  rewrite to_s_same, A by exact Ia. cbn [bind]. rewrite Z.eqb_refl. reflexivity.
Qed.

Lemma passes_block : forall utb, passes utb -> run_unit_test_block utb 0.
Proof.
  intros utb P. pose proof (fun k w => P k w (fun _ => 1)) as R.
  destruct (R Logarithmic W8) as (l1 & R1 & _). destruct (R Logarithmic W16) as (l2 & R2 & _). destruct (R Logarithmic W32) as (l3 & R3 & _). destruct (R Logarithmic W64) as (l4 & R4 & _).
  destruct (R Linear W8) as (l5 & R5 & _). destruct (R Linear W16) as (l6 & R6 & _). destruct (R Linear W32) as (l7 & R7 & _). destruct (R Linear W64) as (l8 & R8 & _).
  exists (fun _ _ _ => 1),
    (fun k w => match k, w with Logarithmic, W8 => l1 | Logarithmic, W16 => l2 | Logarithmic, W32 => l3 | Logarithmic, W64 => l4 | Linear, W8 => l5 | Linear, W16 => l6 | Linear, W32 => l7 | Linear, W64 => l8 end),
    (fun k w => Z.min (test_cases utb w) (2 ^ 22)), (fun k w => Z.min (test_cases utb w) (2 ^ 22)), (fun _ _ => 0).
  split; [|reflexivity]. intros k w. destruct k, w; assumption.
Qed.
Lemma passes_zero : forall utb result, well_formed utb -> (forall k w a b, test_case utb w a b -> accepted utb k w a b) -> run_unit_test_block utb result -> result = 0.
Proof. intros utb result Hw H R. apply (block_verdict utb result Hw R). exact H. Qed.
Lemma run_zero : forall g result, (forall k w a, is_intn (bits w) a -> match g k w with Some f => f a = Val a | None => True end) ->
  run_unit_test_block (ROUNDTRIP g) result -> result = 0.
Proof.
  intros g result H R. destruct (block_verdict (ROUNDTRIP g) result I R) as (_ & _ & B). apply B. intros k w a b [Ia _]. exact (H k w a Ia).
Qed.

Lemma codec_all : forall k w a, is_intn (bits w) a -> match codec_utb with ROUNDTRIP g => match g k w with Some f => f a = Val a | None => True end | _ => False end.
Proof. intros k w a Ia. destruct (codec_accepts k w a Ia) as (f & E & A). unfold codec_utb in *. cbv beta iota in *. rewrite E. exact A. Qed.
Lemma width_w64 : forall w, w = W64 \/ w <> W64.
Proof. intros []; [right|right|right|left]; try discriminate; reflexivity. Qed.
Lemma float64_all : forall lm k w a, c99 lm -> is_intn (bits w) a -> match conversion_float64_utb lm with ROUNDTRIP g => match g k w with Some f => f a = Val a | None => True end | _ => False end.
Proof.
  intros lm k w a C Ia. destruct (width_w64 w) as [-> |Nw]; [destruct k; exact I|].
  destruct (float64_accepts lm k w a C Nw Ia) as (f & E & A). unfold conversion_float64_utb in *. cbv beta iota in *. rewrite E. exact A.
Qed.
Lemma extended_all : forall lm k w a, c99 lm -> is_intn (bits w) a -> match conversion_extended_float_utb lm with ROUNDTRIP g => match g k w with Some f => f a = Val a | None => True end | _ => False end.
Proof. intros lm k w a C Ia. destruct (extended_accepts lm k w a C Ia) as (f & E & A). unfold conversion_extended_float_utb in *. cbv beta iota in *. rewrite E. exact A. Qed.
Lemma full_all : forall k w a, is_intn (bits w) a -> match conversion_float64_full_utb with ROUNDTRIP g => match g k w with Some f => f a = Val a | None => True end | _ => False end.
Proof. intros k w a Ia. destruct k, w; try exact I. exact (full_accepts a Ia). Qed.

Theorem codec_test : passes codec_utb /\ forall result, test_codec result <-> result = 0.
Proof.
  assert (passes codec_utb) as P by (apply roundtrip_passes; exact codec_all). split; [exact P|]. intros result. split.
  - intros R. exact (run_zero _ _ codec_all R).
  - intros ->. exact (passes_block _ P).
Qed.
Theorem conversion_test : forall lm, c99 lm ->
  passes (conversion_float64_utb lm) /\ passes (conversion_extended_float_utb lm) /\ passes conversion_float64_full_utb /\
  forall result, test_conversion lm result <-> result = 0.
Proof.
  intros lm C. assert (passes (conversion_float64_utb lm)) as P1 by (apply roundtrip_passes; intros k w a; exact (float64_all lm k w a C)).
  assert (passes (conversion_extended_float_utb lm)) as P2 by (apply roundtrip_passes; intros k w a; exact (extended_all lm k w a C)).
  assert (passes conversion_float64_full_utb) as P3 by (apply roundtrip_passes; exact full_all).
  split; [exact P1|]. split; [exact P2|]. split; [exact P3|]. intros result. split.
  - intros (r1 & r2 & r3 & R1 & R2 & R3 & ->).
    rewrite (run_zero _ r1 (fun k w a => float64_all lm k w a C) R1), (run_zero _ r2 (fun k w a => extended_all lm k w a C) R2), (run_zero _ r3 full_all R3). reflexivity.
  - intros ->. exists 0, 0, 0. split; [exact (passes_block _ P1)|]. split; [exact (passes_block _ P2)|]. split; [exact (passes_block _ P3)|reflexivity].
Qed.

Lemma nan_not_finite : forall y : flt f64, is_finite y = true -> y <> B754_nan.
Proof. intros y F E. rewrite E in F. discriminate F. Qed.
Theorem double_of_bits_image : forall t, is_intn 64 t ->
  (double_of_bits t = B754_nan <-> to_u 64 t / 2 ^ 52 mod 2 ^ 11 = 2 ^ 11 - 1 /\ to_u 64 t mod 2 ^ 52 <> 0) /\
  (double_of_bits t <> B754_nan -> image (double_of_bits t) = to_u 64 t).
Proof.
  intros t It. pose proof (double_bits t It) as F. unfold double_of_bits in *. assert (0 <= to_u 64 t < 2 ^ 64) as Hu by (unfold to_u; apply Z.mod_pos_bound; lia). revert F Hu. generalize (to_u 64 t). intros u F Hu.
  cbv zeta in *. pose proof (Z.div_mod u (2 ^ 52) ltac:(lia)) as D. pose proof (Z.mod_pos_bound u (2 ^ 52) ltac:(lia)) as Hm.
  pose proof (Z.div_mod (u / 2 ^ 52) (2 ^ 11) ltac:(lia)) as D'. pose proof (Z.mod_pos_bound (u / 2 ^ 52) (2 ^ 11) ltac:(lia)) as He.
  set (q := u / 2 ^ 52) in *. set (m := u mod 2 ^ 52) in *. set (e := q mod 2 ^ 11) in *. clearbody m e q. set (h := q / 2 ^ 11) in *. clearbody h.
  assert (u = b2z (2 ^ 63 <=? u) * 2 ^ 63 + e * 2 ^ 52 + m) as E.
  { assert (h = 0 \/ h = 1) as Hh by lia. destruct Hh as [-> | ->]; destruct (Z.leb_spec (2 ^ 63) u); cbn [b2z]; lia. }
  destruct (Z.eqb_spec e (2 ^ 11 - 1)) as [E1|N].
  { destruct (Z.eqb_spec m 0) as [E2|N2].
    - split; [split; [discriminate|lia]|]. intros _. unfold image, exp_bits, frac_bits. cbn [fprec]. change (11 + (53 - 1)) with 63. change (53 - 1) with 52. lia.
    - split; [split; auto|intros K; exfalso; apply K; reflexivity]. }
  assert (is_finite (if e =? 0 then finite_double (2 ^ 63 <=? u) m (-1074) else finite_double (2 ^ 63 <=? u) (m + 2 ^ 52) (e - 1075)) = true) as Fin.
  { destruct (Z.eqb_spec e 0) as [E0|N0].
    - apply (finite_double_image (2 ^ 63 <=? u) m (-1074)); lia.
    - apply (finite_double_image (2 ^ 63 <=? u) (m + 2 ^ 52) (e - 1075)); lia. }
  split; [|intros _; exact (F Fin)]. split; [|tauto]. intros K. exfalso. revert K. apply nan_not_finite. exact Fin.
Qed.
