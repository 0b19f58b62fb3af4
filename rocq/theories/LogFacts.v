(** Logarithmic multiplication, division and square root. *)
From Coq Require Import ZArith Reals Bool Lia Lra List.
From Flocq Require Import Core.Core IEEE754.BinarySingleNaN.
From Flocq Require Mult_error.
From Verif Require Import CModel FloatModel WidthConv Codec Spec CodeFacts SpecFacts ValueFacts RoundFacts
  WidthFacts WidthProps FloatFacts DecodeFacts EncodeFacts PhiFacts Codec8Facts Arith LogApi Machine.
Local Open Scope R_scope.

(** ** Special operands of the float operations *)
Lemma fadd_ninf_isf : forall f (x : flt f) a, isf x a -> fadd (fninf f) x = fninf f.
Proof. intros f [| | |] a [H _]; try discriminate; reflexivity. Qed.
Lemma fadd_isf_ninf : forall f (x : flt f) a, isf x a -> fadd x (fninf f) = fninf f.
Proof. intros f [| | |] a [H _]; try discriminate; reflexivity. Qed.
Lemma fsub_ninf_isf : forall f (x : flt f) a, isf x a -> fsub (fninf f) x = fninf f.
Proof. intros f [| | |] a [H _]; try discriminate; reflexivity. Qed.
Lemma fsub_isf_ninf : forall f (x : flt f) a, isf x a -> fsub x (fninf f) = finf f.
Proof. intros f [| | |] a [H _]; try discriminate; reflexivity. Qed.
Lemma fadd_nan_l : forall f (x : flt f), fadd (fnan f) x = fnan f.
Proof. intros f [| | |]; reflexivity. Qed.
Lemma fadd_nan_r : forall f (x : flt f), fadd x (fnan f) = fnan f.
Proof. intros f [| | |]; reflexivity. Qed.
Lemma fsub_nan_l : forall f (x : flt f), fsub (fnan f) x = fnan f.
Proof. intros f [| | |]; reflexivity. Qed.
Lemma fsub_nan_r : forall f (x : flt f), fsub x (fnan f) = fnan f.
Proof. intros f [| | |]; reflexivity. Qed.

Lemma isf_pos : forall f (x : flt f) a, isf x a -> 0 < a -> exists m e H, x = B754_finite false m e H.
Proof.
  intros f [s|s| |s m e H] a [Hf Hb] Ha; simpl in *; try discriminate; [lra|].
  destruct s; [|eauto]. exfalso. revert Hb Ha. unfold F2R. simpl. intros <-.
  pose proof (bpow_gt_0 radix2 e). assert (IZR (Z.neg m) < 0) by (apply (IZR_lt _ 0); lia). nra.
Qed.

Lemma exp_half_add : forall a b, exp (a / 2) * exp (b / 2) = exp ((a + b) / 2).
Proof. intros a b. rewrite <- exp_plus. f_equal. field. Qed.
Lemma exp_half_sub : forall a b, exp (a / 2) / exp (b / 2) = exp ((a - b) / 2).
Proof.
  intros a b. unfold Rdiv at 1. rewrite <- exp_Ropp, <- exp_plus. f_equal. field.
Qed.

Lemma sg_mul_value : forall s s' a b,
  sg s * exp (a / 2) * (sg s' * exp (b / 2)) = sg (xorb s s') * exp ((a + b) / 2).
Proof. intros s s' a b. rewrite sg_xorb, <- exp_half_add. ring. Qed.
Lemma sg_div_value : forall s s' a b,
  sg s * exp (a / 2) / (sg s' * exp (b / 2)) = sg (xorb s s') * exp ((a - b) / 2).
Proof.
  intros s s' a b. rewrite sg_xorb, <- exp_half_sub. pose proof (exp_pos (b / 2)).
  assert (/ sg s' = sg s') as E by (unfold sg; destruct s'; field).
  unfold Rdiv. rewrite Rinv_mult. rewrite E. ring.
Qed.

Lemma rounds_log_sg : forall n s L t, nearest n s L t -> rounds Logarithmic n (sg s * exp (L / 2)) t.
Proof. intros n s L t H. exact (rounds_sg Logarithmic n s L t H). Qed.

Lemma rounds_faithfully_sg : forall k n s L t, faithful n s L t -> rounds_faithfully k n (sg s * E k L) t.
Proof.
  intros k n s L t H. right. unfold sg. split; [apply sg_nonzero|].
  rewrite sg_Rlt_bool, coord_sg. assumption.
Qed.

Lemma value_log_real : forall n t, (8 <= n <= 64)%Z -> is_real_takum n t ->
  value Logarithmic n t = Some (sg (t <? 0)%Z * exp (l_ n t / 2)).
Proof. intros n t Hn Hr. rewrite value_real by (assumption || lia). reflexivity. Qed.

Lemma value_some : forall k n t, (5 <= n <= 64)%Z -> is_intn n t -> t <> nar n -> value k n t <> None.
Proof.
  intros k n t Hn It Nt. unfold value. destruct (Z.eq_dec t 0); [discriminate|].
  destruct (Z.eq_dec t (nar n)); [contradiction|discriminate].
Qed.

Lemma sign_differs_real : forall n a b, is_real_takum n a -> is_real_takum n b ->
  sign_differs a b = xorb (a <? 0)%Z (b <? 0)%Z.
Proof.
  intros n a b (_ & Ha & _) (_ & Hb & _). unfold sign_differs.
  destruct (Z.ltb_spec 0 a), (Z.ltb_spec 0 b), (Z.ltb_spec a 0), (Z.ltb_spec b 0); simpl; try reflexivity; lia.
Qed.

Definition g_mul (m : mach) (a b : Z) : outcome Z :=
  let! la := m_dec m a in let! lb := m_dec m b in m_enc m (sign_differs a b) (m_cast m (fadd la lb)).
Definition g_div (m : mach) (a b : Z) : outcome Z :=
  let! la := m_dec m a in let! lb := m_dec m b in m_enc m (sign_differs a b) (m_cast m (fsub la lb)).
Definition g_sqrt (m : mach) (t : Z) : outcome Z :=
  if (t <? 0)%Z then Val (NaR (m_n m)) else
  let! l := m_dec m t in m_enc m false (m_cast m (fldexp l (-1))).

Lemma log_multiplication_inv : forall n f, log_multiplication n f ->
  exists m, mach_ok m /\ m_n m = n /\ (forall a b, f a b = g_mul m a b) /\
    (n <> 64%Z -> (n + 4 <= fprec (m_F m))%Z).
Proof.
  intros n f [].
  - exists mach8. split; [apply mach8_ok|]. repeat split; simpl; lia.
  - exists mach16. split; [apply mach16_ok|]. repeat split; simpl; lia.
  - exists mach32. split; [apply mach32_ok|]. repeat split; simpl; lia.
  - exists mach64. split; [apply mach64_ok|]. repeat split; simpl; lia.
Qed.
Lemma log_division_inv : forall n f, log_division n f ->
  exists m, mach_ok m /\ m_n m = n /\ (forall a b, f a b = g_div m a b) /\
    (n <> 64%Z -> (n + 4 <= fprec (m_F m))%Z).
Proof.
  intros n f [].
  - exists mach8. split; [apply mach8_ok|]. repeat split; simpl; lia.
  - exists mach16. split; [apply mach16_ok|]. repeat split; simpl; lia.
  - exists mach32. split; [apply mach32_ok|]. repeat split; simpl; lia.
  - exists mach64. split; [apply mach64_ok|]. repeat split; simpl; lia.
Qed.
Lemma log_square_root_inv : forall n f, log_square_root n f ->
  exists m, mach_ok m /\ m_n m = n /\ (forall t, f t = g_sqrt m t).
Proof.
  intros n f [].
  - exists mach8. split; [apply mach8_ok|]. repeat split; simpl; lia.
  - exists mach16. split; [apply mach16_ok|]. repeat split; simpl; lia.
  - exists mach32. split; [apply mach32_ok|]. repeat split; simpl; lia.
  - exists mach64. split; [apply mach64_ok|]. repeat split; simpl; lia.
Qed.

Section M.
Variable m : mach.
Hypothesis Hm : mach_ok m.
Local Notation n := (m_n m).
Local Notation F := (m_F m).

Lemma sum_dyadic : forall a b, is_real_takum n a -> is_real_takum n b ->
  (exists k, l_ n a + l_ n b = IZR k * bpow radix2 (- (n - 5))) /\ Rabs (l_ n a + l_ n b) <= 510.
Proof.
  intros a b Ha Hb. pose proof (mo_range m Hm).
  destruct (l_dyadic n a ltac:(lia) Ha) as [ka Ea]. destruct (l_dyadic n b ltac:(lia) Hb) as [kb Eb].
  pose proof (l_abs n a ltac:(lia) Ha). pose proof (l_abs n b ltac:(lia) Hb). split.
  - exists (ka + kb)%Z. rewrite Ea, Eb, plus_IZR. ring.
  - eapply Rle_trans; [apply Rabs_triang|]. lra.
Qed.
Lemma diff_dyadic : forall a b, is_real_takum n a -> is_real_takum n b ->
  (exists k, l_ n a - l_ n b = IZR k * bpow radix2 (- (n - 5))) /\ Rabs (l_ n a - l_ n b) <= 510.
Proof.
  intros a b Ha Hb. pose proof (mo_range m Hm).
  destruct (l_dyadic n a ltac:(lia) Ha) as [ka Ea]. destruct (l_dyadic n b ltac:(lia) Hb) as [kb Eb].
  pose proof (l_abs n a ltac:(lia) Ha). pose proof (l_abs n b ltac:(lia) Hb). split.
  - exists (ka - kb)%Z. rewrite Ea, Eb, minus_IZR. ring.
  - unfold Rminus. eapply Rle_trans; [apply Rabs_triang|]. rewrite Rabs_Ropp. lra.
Qed.

Lemma RF_510 : forall x, Rabs x <= 510 -> Rabs (RF F x) < bpow radix2 (femax F).
Proof.
  intros x H. apply (RF_lt_emax F x 9); [pose proof (fmt_pos F); lia|].
  change (bpow radix2 9) with 512. lra.
Qed.

(** the exact result of the operation, on l *)
Lemma g_mul_real : forall a b, is_real_takum n a -> is_real_takum n b ->
  g_mul m a b = Val (let s := xorb (a <? 0) (b <? 0) in
                     asm n s (enc n (m_psi m (sg s * RF F (l_ n a + l_ n b)))))%Z.
Proof.
  intros a b Ha Hb. destruct (mo_dec m Hm a Ha) as (la & Ea & Ia). destruct (mo_dec m Hm b Hb) as (lb & Eb & Ib).
  unfold g_mul. rewrite Ea, Eb. cbv beta iota delta [bind]. rewrite (sign_differs_real n) by assumption.
  apply (mo_enc m Hm), (mo_cast m Hm), isf_fadd; try assumption. apply RF_510. apply sum_dyadic; assumption.
Qed.
Lemma g_div_real : forall a b, is_real_takum n a -> is_real_takum n b ->
  g_div m a b = Val (let s := xorb (a <? 0) (b <? 0) in
                     asm n s (enc n (m_psi m (sg s * RF F (l_ n a - l_ n b)))))%Z.
Proof.
  intros a b Ha Hb. destruct (mo_dec m Hm a Ha) as (la & Ea & Ia). destruct (mo_dec m Hm b Hb) as (lb & Eb & Ib).
  unfold g_div. rewrite Ea, Eb. cbv beta iota delta [bind]. rewrite (sign_differs_real n) by assumption.
  apply (mo_enc m Hm), (mo_cast m Hm), isf_fsub; try assumption. apply RF_510. apply diff_dyadic; assumption.
Qed.

Lemma g_mul_special : forall a b, is_intn n a -> is_intn n b ->
  a = 0%Z \/ a = nar n \/ b = 0%Z \/ b = nar n ->
  g_mul m a b = Val (if (a =? nar n)%Z || (b =? nar n)%Z then nar n else 0%Z).
Proof.
  intros a b Ia Ib H. pose proof (mo_range m Hm).
  assert (nar n <> 0%Z) as N0 by (unfold nar; pose proof (pow2_pos (n - 1) ltac:(lia)); lia).
  unfold g_mul.
  destruct (takum_cases n a Ia) as [Ea|[Ea|Ra]]; [subst a|subst a|]; rewrite ?(mo_dec0 m Hm), ?(mo_decN m Hm).
  - replace (0 =? nar n)%Z with false by (symmetry; apply Z.eqb_neq; congruence).
    destruct (takum_cases n b Ib) as [Eb|[Eb|Rb]]; [subst b|subst b|];
      rewrite ?(mo_dec0 m Hm), ?(mo_decN m Hm); cbv beta iota delta [bind].
    + replace (0 =? nar n)%Z with false by (symmetry; apply Z.eqb_neq; congruence).
      change (fadd (fninf F) (fninf F)) with (fninf F).
      unfold fninf. rewrite (mo_cast_inf m Hm), (mo_enc_ninf m Hm). reflexivity.
    + rewrite Z.eqb_refl, fadd_nan_r. unfold fnan. rewrite (mo_cast_nan m Hm), (mo_enc_nan m Hm). reflexivity.
    + destruct (mo_dec m Hm b Rb) as (lb & -> & Il). cbv beta iota delta [bind]. rewrite (fadd_ninf_isf _ _ _ Il).
      destruct Rb as (_ & _ & Nb). apply Z.eqb_neq in Nb. rewrite Nb.
      unfold fninf. rewrite (mo_cast_inf m Hm), (mo_enc_ninf m Hm). reflexivity.
  - rewrite Z.eqb_refl. simpl orb. cbv iota. cbv beta iota delta [bind].
    destruct (takum_cases n b Ib) as [Eb|[Eb|Rb]]; [subst b|subst b|];
      rewrite ?(mo_dec0 m Hm), ?(mo_decN m Hm); [| |destruct (mo_dec m Hm b Rb) as (lb & -> & _)]; cbv beta iota delta [bind];
      rewrite fadd_nan_l; unfold fnan; rewrite (mo_cast_nan m Hm), (mo_enc_nan m Hm); reflexivity.
  - destruct (mo_dec m Hm a Ra) as (la & -> & Il). cbv beta iota delta [bind]. destruct Ra as (_ & Za & Na).
    rewrite (proj2 (Z.eqb_neq _ _) Na). simpl orb.
    destruct H as [H|[H|[H|H]]]; try contradiction; subst b; rewrite ?(mo_dec0 m Hm), ?(mo_decN m Hm); cbv beta iota delta [bind].
    + rewrite (fadd_isf_ninf _ _ _ Il). unfold fninf. rewrite (mo_cast_inf m Hm), (mo_enc_ninf m Hm).
      destruct (Z.eqb_spec 0 (nar n)); congruence.
    + rewrite Z.eqb_refl, fadd_nan_r. unfold fnan. rewrite (mo_cast_nan m Hm), (mo_enc_nan m Hm). reflexivity.
Qed.

Lemma g_div_special : forall a b, is_intn n a -> is_intn n b ->
  a = 0%Z \/ a = nar n \/ b = 0%Z \/ b = nar n ->
  g_div m a b = Val (if (a =? nar n)%Z || (b =? nar n)%Z || (b =? 0)%Z then nar n else 0%Z).
Proof.
  intros a b Ia Ib H. pose proof (mo_range m Hm).
  assert (nar n <> 0%Z) as N0 by (unfold nar; pose proof (pow2_pos (n - 1) ltac:(lia)); lia).
  unfold g_div.
  destruct (takum_cases n a Ia) as [Ea|[Ea|Ra]]; [subst a|subst a|]; rewrite ?(mo_dec0 m Hm), ?(mo_decN m Hm).
  - replace (0 =? nar n)%Z with false by (symmetry; apply Z.eqb_neq; congruence).
    destruct (takum_cases n b Ib) as [Eb|[Eb|Rb]]; [subst b|subst b|];
      rewrite ?(mo_dec0 m Hm), ?(mo_decN m Hm); cbv beta iota delta [bind].
    + rewrite Z.eqb_refl, orb_true_r. change (fsub (fninf F) (fninf F)) with (fnan F).
      unfold fnan. rewrite (mo_cast_nan m Hm), (mo_enc_nan m Hm). reflexivity.
    + rewrite Z.eqb_refl, fsub_nan_r. unfold fnan. rewrite (mo_cast_nan m Hm), (mo_enc_nan m Hm). reflexivity.
    + destruct (mo_dec m Hm b Rb) as (lb & -> & Il). cbv beta iota delta [bind]. rewrite (fsub_ninf_isf _ _ _ Il).
      destruct Rb as (_ & Zb & Nb). apply Z.eqb_neq in Nb, Zb. rewrite Nb, Zb.
      unfold fninf. rewrite (mo_cast_inf m Hm), (mo_enc_ninf m Hm). reflexivity.
  - rewrite Z.eqb_refl. simpl orb. cbv iota. cbv beta iota delta [bind].
    destruct (takum_cases n b Ib) as [Eb|[Eb|Rb]]; [subst b|subst b|];
      rewrite ?(mo_dec0 m Hm), ?(mo_decN m Hm); [| |destruct (mo_dec m Hm b Rb) as (lb & -> & _)]; cbv beta iota delta [bind];
      rewrite fsub_nan_l; unfold fnan; rewrite (mo_cast_nan m Hm), (mo_enc_nan m Hm); reflexivity.
  - destruct (mo_dec m Hm a Ra) as (la & -> & Il). cbv beta iota delta [bind]. destruct Ra as (_ & Za & Na).
    rewrite (proj2 (Z.eqb_neq _ _) Na). simpl orb.
    destruct H as [H|[H|[H|H]]]; try contradiction; subst b; rewrite ?(mo_dec0 m Hm), ?(mo_decN m Hm); cbv beta iota delta [bind].
    + rewrite (fsub_isf_ninf _ _ _ Il). unfold finf. rewrite (mo_cast_inf m Hm), (mo_enc_pinf m Hm).
      rewrite orb_true_r. reflexivity.
    + rewrite Z.eqb_refl, fsub_nan_r. unfold fnan. rewrite (mo_cast_nan m Hm), (mo_enc_nan m Hm). reflexivity.
Qed.

(** real result, exactly computed *)
Lemma enc_dyadic_nearest : forall s L k, L = IZR k * bpow radix2 (- (n - 5)) -> Rabs L <= 510 ->
  (n + 4 <= fprec F)%Z ->
  nearest n s L (asm n s (enc n (m_psi m (sg s * RF F L)))).
Proof.
  intros s L k E HL HF. pose proof (mo_range m Hm). pose proof (mo_P m Hm).
  rewrite RF_id.
  2:{ rewrite E. apply FF_small_dyadic; try lia. rewrite <- E. lra. }
  replace (m_psi m (sg s * L)) with (sg s * L); [apply enc_nearest_sg; lia|]. symmetry.
  assert (exists k', sg s * L = IZR k' * bpow radix2 (- m_P m)) as [k' ->]; [|apply (mo_psi_fix m Hm)].
  exists ((if s then - k else k) * 2 ^ (m_P m - (n - 5)))%Z. rewrite E. unfold sg.
  assert (bpow radix2 (- (n - 5)) = bpow radix2 (m_P m - (n - 5)) * bpow radix2 (- m_P m)) as ->.
  { rewrite <- bpow_plus. f_equal. lia. }
  rewrite mult_IZR, IZR_pow2 by lia. destruct s; rewrite ?opp_IZR; ring.
Qed.

Lemma enc_RF_faithful : forall s L, faithful n s L (asm n s (enc n (m_psi m (sg s * RF F L)))).
Proof.
  intros s L. apply (enc_faithful m Hm).
  - apply RF_mono.
  - intros u Hu. apply RF_id. apply (FF_cpm m Hm). assumption.
  - intros x. unfold sg. destruct s.
    + replace (-1 * x) with (- x) by ring. rewrite RF_opp. ring.
    + rewrite !Rmult_1_l. reflexivity.
Qed.

Lemma half_facts : forall t, is_real_takum n t ->
  FF F (l_ n t / 2) /\ exists k, l_ n t / 2 = IZR k * bpow radix2 (- (n - 4)).
Proof.
  intros t R. pose proof (mo_range m Hm) as Hn. pose proof (mo_P m Hm). pose proof (mo_prec m Hm).
  destruct (mo_dec m Hm t R) as (l & _ & Hl).
  destruct (l_dyadic n t ltac:(lia) R) as [k Ek].
  replace (l_ n t / 2) with (l_ n t * bpow radix2 (-1)) by reflexivity. split.
  - apply isf_FF in Hl. destruct (Z.eq_dec k 0) as [K|K].
    { rewrite Ek, K, !Rmult_0_l. apply FF_0. }
    apply (Mult_error.mult_bpow_exact_FLT radix2 (femin F) (fprec F)); [exact Hl|].
    assert (- (n - 5) < mag radix2 (l_ n t))%Z.
    { apply mag_gt_bpow. rewrite Ek, Rabs_mult, (Rabs_pos_eq (bpow _ _)) by apply bpow_ge_0.
      rewrite <- (Rmult_1_l (bpow radix2 (- (n - 5)))) at 1. apply Rmult_le_compat_r; [apply bpow_ge_0|].
      rewrite <- abs_IZR. apply IZR_le. lia. }
    assert (femin F + fprec F <= -125)%Z by (unfold femin; destruct F; simpl; lia). lia.
  - exists k. rewrite Ek, Rmult_assoc, <- bpow_plus. f_equal. f_equal. lia.
Qed.

Lemma g_sqrt_real : forall t, is_real_takum n t -> (0 < t)%Z ->
  g_sqrt m t = Val (asm n false (enc n (sg false * (l_ n t / 2)))).
Proof.
  intros t R Ht. pose proof (mo_range m Hm) as Hn. pose proof (mo_P m Hm).
  unfold g_sqrt. destruct (Z.ltb_spec t 0); [lia|].
  destruct (mo_dec m Hm t R) as (l & -> & Hl). cbv beta iota delta [bind].
  pose proof (l_abs n t ltac:(lia) R) as Hb. destruct (half_facts t R) as (HF & k & Ek).
  assert (isf (fldexp l (-1)) (IZR k * bpow radix2 (- (n - 4)))) as Hl2.
  { rewrite <- Ek. replace (l_ n t / 2) with (l_ n t * bpow radix2 (-1)) in * by reflexivity.
    apply isf_fldexp_exact; [assumption|assumption|].
    apply lt_emax_512. rewrite Rabs_mult, (Rabs_pos_eq (bpow _ _)) by apply bpow_ge_0.
    change (bpow radix2 (-1)) with (/ 2). lra. }
  apply (mo_cast m Hm) in Hl2. rewrite (enc_exact m Hm false _ k (n - 4)) by (assumption || lia).
  rewrite <- Ek. reflexivity.
Qed.

Lemma g_sqrt_spec : forall t, is_intn n t -> exists u, g_sqrt m t = Val u /\ is_intn n u /\
  match value Logarithmic n t with
  | None => u = nar n
  | Some x => if Rlt_bool x 0 then u = nar n else rounds Logarithmic n (sqrt x) u
  end.
Proof.
  intros t It. pose proof (mo_range m Hm) as Hn.
  pose proof (pow2_pos (n - 1) ltac:(lia)) as Hp.
  destruct (takum_cases n t It) as [->|[->|R]].
  - rewrite value_0, Rlt_bool_false by lra. unfold g_sqrt. change (0 <? 0)%Z with false. cbv iota. exists 0%Z.
    rewrite (mo_dec0 m Hm). cbv beta iota delta [bind]. change (fldexp (fninf F) (-1)) with (B754_infinity true : flt F).
    rewrite (mo_cast_inf m Hm), (mo_enc_ninf m Hm). split; [reflexivity|].
    split; [unfold is_intn; lia|]. left. rewrite sqrt_0. auto.
  - rewrite value_nar by lia. exists (nar n). split; [|split; [unfold is_intn, nar; lia|reflexivity]].
    unfold g_sqrt. destruct (Z.ltb_spec (nar n) 0); [reflexivity|unfold nar in *; lia].
  - rewrite value_log_real by assumption. pose proof R as (_ & Z0 & _).
    destruct (Z.ltb_spec t 0).
    + exists (nar n). split; [unfold g_sqrt; rewrite (proj2 (Z.ltb_lt _ _)) by assumption; reflexivity|].
      split; [unfold is_intn, nar; lia|].
      rewrite Rlt_bool_true; [reflexivity|]. unfold sg. pose proof (exp_pos (l_ n t / 2)). lra.
    + rewrite Rlt_bool_false by (unfold sg; pose proof (exp_pos (l_ n t / 2)); lra).
      rewrite g_sqrt_real by (assumption || lia).
      eexists. split; [reflexivity|]. split; [apply asm_enc_intn; lia|].
      replace (sqrt (sg false * exp (l_ n t / 2))) with (sg false * exp ((l_ n t / 2) / 2)).
      { apply rounds_log_sg. apply enc_nearest_sg. lia. }
      unfold sg. rewrite !Rmult_1_l.
      apply Rsqr_inj; [left; apply exp_pos|apply sqrt_pos|]. rewrite Rsqr_sqrt by (left; apply exp_pos).
      unfold Rsqr. rewrite <- exp_plus. f_equal. field.
Qed.

Lemma g_mul_spec : forall a b, is_intn n a -> is_intn n b -> exists t, (g_mul m a b = Val t /\ is_intn n t /\
  match value Logarithmic n a, value Logarithmic n b with
  | Some x, Some y => rounds_faithfully Logarithmic n (x * y) t /\
      ((n + 4 <= fprec F)%Z -> rounds Logarithmic n (x * y) t)
  | _, _ => t = nar n
  end).
Proof.
  intros a b Ia Ib. pose proof (mo_range m Hm) as Hn. pose proof (pow2_pos (n - 1) ltac:(lia)) as Hp.
  assert (is_intn n (nar n) /\ is_intn n 0) as [IN I0] by (unfold is_intn, nar; lia).
  assert (nar n <> 0%Z) as N0 by (unfold nar; lia).
  destruct (takum_cases n a Ia) as [Ea|[Ea|Ra]].
  - rewrite g_mul_special by auto. subst a. rewrite value_0, (proj2 (Z.eqb_neq _ _) (not_eq_sym N0)). simpl orb.
    eexists. split; [reflexivity|]. destruct (Z.eqb_spec b (nar n)) as [->|Nb]; (split; [assumption|]).
    + rewrite value_nar by lia. reflexivity.
    + destruct (value Logarithmic n b) eqn:V; [|exfalso; revert V; apply value_some; lia || assumption].
      rewrite Rmult_0_l. split; [|intros _]; left; auto.
  - rewrite g_mul_special by auto. subst a. rewrite value_nar, Z.eqb_refl by lia. eauto.
  - rewrite (value_log_real n a) by assumption.
    destruct (takum_cases n b Ib) as [Eb|[Eb|Rb]].
    + rewrite g_mul_special by auto. subst b. rewrite value_0. destruct Ra as (_ & _ & Na).
      rewrite (proj2 (Z.eqb_neq _ _) Na), (proj2 (Z.eqb_neq _ _) (not_eq_sym N0)). simpl orb.
      rewrite Rmult_0_r. eexists. split; [reflexivity|]. split; [assumption|]. split; [|intros _]; left; auto.
    + rewrite g_mul_special by auto. subst b. rewrite value_nar, Z.eqb_refl, orb_true_r by lia. eauto.
    + rewrite (value_log_real n b) by assumption. rewrite g_mul_real by assumption.
      eexists. split; [reflexivity|]. split; [apply asm_enc_intn; lia|]. rewrite sg_mul_value.
      destruct (sum_dyadic a b Ra Rb) as [[k Ek] Hb]. split.
      * apply (rounds_faithfully_sg Logarithmic). apply enc_RF_faithful.
      * intros K. apply rounds_log_sg. eapply enc_dyadic_nearest; eassumption.
Qed.

Lemma g_div_spec : forall a b, is_intn n a -> is_intn n b -> exists t, (g_div m a b = Val t /\ is_intn n t /\
  match value Logarithmic n a, value Logarithmic n b with
  | Some x, Some y => if Req_bool y 0 then t = nar n else rounds_faithfully Logarithmic n (x / y) t /\
      ((n + 4 <= fprec F)%Z -> rounds Logarithmic n (x / y) t)
  | _, _ => t = nar n
  end).
Proof.
  intros a b Ia Ib. pose proof (mo_range m Hm) as Hn. pose proof (pow2_pos (n - 1) ltac:(lia)) as Hp.
  assert (is_intn n (nar n) /\ is_intn n 0) as [IN I0] by (unfold is_intn, nar; lia).
  assert (nar n <> 0%Z) as N0 by (unfold nar; lia).
  destruct (takum_cases n b Ib) as [Eb|[Eb|Rb]].
  - rewrite g_div_special by auto. subst b. rewrite value_0, Z.eqb_refl, orb_true_r, Req_bool_true by reflexivity.
    destruct (value _ n a); eauto.
  - rewrite g_div_special by auto. subst b. rewrite value_nar, Z.eqb_refl, orb_true_r by lia.
    destruct (value _ n a); eauto.
  - rewrite (value_log_real n b) by assumption. rewrite Req_bool_false.
    2:{ unfold sg. pose proof (exp_pos (l_ n b / 2)). destruct (b <? 0)%Z; lra. }
    destruct (takum_cases n a Ia) as [Ea|[Ea|Ra]].
    + rewrite g_div_special by auto. subst a. rewrite value_0. destruct Rb as (_ & Zb & Nb).
      rewrite (proj2 (Z.eqb_neq _ _) Nb), (proj2 (Z.eqb_neq _ _) (not_eq_sym N0)), (proj2 (Z.eqb_neq _ _) Zb). simpl orb.
      unfold Rdiv. rewrite Rmult_0_l. eexists. split; [reflexivity|]. split; [assumption|].
      split; [|intros _]; left; auto.
    + rewrite g_div_special by auto. subst a. rewrite value_nar, Z.eqb_refl by lia. eauto.
    + rewrite (value_log_real n a) by assumption. rewrite g_div_real by assumption.
      eexists. split; [reflexivity|]. split; [apply asm_enc_intn; lia|]. rewrite sg_div_value.
      destruct (diff_dyadic a b Ra Rb) as [[k Ek] Hb]. split.
      * apply (rounds_faithfully_sg Logarithmic). apply enc_RF_faithful.
      * intros K. apply rounds_log_sg. eapply enc_dyadic_nearest; eassumption.
Qed.

End M.
