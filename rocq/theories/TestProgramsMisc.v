(** Proofs about the test programs for sign, absolute and precision, and the results
    for all modelled test programs. *)
From Coq Require Import ZArith Reals Bool Lia Lra List.
From Flocq Require Import Core.Core IEEE754.BinarySingleNaN.
From Verif Require Import CModel FloatModel Libm Arith WidthConv Codec Spec FloatSpec CodeFacts SpecFacts ValueFacts RoundFacts
  WidthFacts WidthProps FloatFacts EncodeFacts Machine Conversion Wrappers LinApi LinFacts LinDec LinProps LogApi LogProps LogConv LibmSpec LogAlgebra MiscProps Exactly FunSym2 LinOps LinArith WrapApi WrapTotal
  TestHarness HarnessSpec HarnessResults TestBlocksSpec TestBlocks TestBlocksProofs TestPrograms TestProgramsProofs TestProgramsLog.
Import ListNotations.
Local Open Scope R_scope.

(** ** The conversions of the harness *)
Lemma ext_cases : forall lm k w t, c99 lm -> is_intn (bits w) t ->
  (t = 0%Z /\ int64_takum_to_extended_float lm k w t = Val (B754_zero false)) \/
  (t = nar (bits w) /\ int64_takum_to_extended_float lm k w t = Val B754_nan) \/
  (is_real_takum (bits w) t /\ exists y p, int64_takum_to_extended_float lm k w t = Val y /\ isf y (sg (t <? 0)%Z * p) /\ 0 < p).
Proof.
  intros lm k w t C It. unfold int64_takum_to_extended_float. rewrite !to_s_same by assumption. destruct k.
  - destruct (ld_cases lm w t C It) as [(E & Ex & _)|[(E & Ex & _)|(R & _ & y & p & Ex & Hx & Pp & _)]]; [left; auto|right; left; auto|right; right].
    split; [assumption|]. exists y, p. auto.
  - destruct (ld_operand w t It) as (y & Ey & K). assert (6 <= bits w <= 64)%Z as Hn by (destruct w; cbn; lia). destruct (takum_cases (bits w) t It) as [-> | [-> | R]].
    + rewrite value_0 in K. left. split; [reflexivity|]. rewrite Ey. f_equal. apply K. reflexivity.
    + rewrite value_nar in K by lia. right. left. split; [reflexivity|]. rewrite Ey, K. reflexivity.
    + rewrite lin_value in K by assumption. right. right. split; [assumption|]. exists y, (Lin (l_ (bits w) t)). split; [assumption|]. split; [apply K|apply Lin_pos].
Qed.
Lemma ext_from_nan : forall lm k w (y : flt f80), is_finite y = false -> int64_takum_from_extended_float lm k w y = Val (nar (bits w)).
Proof. intros lm [] w y H; [exact (ref_nan lm w y H)|exact (lin_nan w y H)]. Qed.
Lemma ext_from_zero : forall lm k w s, int64_takum_from_extended_float lm k w (B754_zero s) = Val 0%Z.
Proof.
  intros lm [] w s; [exact (ref_zero lm w s)|]. destruct (linear_from_form _ _ _ (lin_ld_from w)) as (_ & _ & _ & _ & Hz & _). apply Hz.
Qed.
Lemma ext_from_exact : forall lm k w (y : flt f80) x t, c99 lm -> isf y x -> is_intn (bits w) t -> value k (bits w) t = Some x ->
  int64_takum_from_extended_float lm k w y = Val t.
Proof.
  intros lm k w y x t C [Fy Vy] It V. assert (exists t', int64_takum_from_extended_float lm k w y = Val t' /\ rounds_faithfully k (bits w) (B2R y) t') as (t' & E & F).
  { destruct k.
    - exact (log_from_faithful lm (bits w) f80 _ y C (log_ld_from lm w) Fy).
    - destruct (lin_from_faithful (bits w) f80 _ y (lin_ld_from w) Fy) as (t' & E & _ & F). exists t'. split; assumption. }
  rewrite E. f_equal. rewrite Vy in F. exact (exact_result k (bits w) x t' t (w_std w) It F V).
Qed.
Lemma ext_trip : forall lm k w t, c99 lm -> is_intn (bits w) t -> (let! y := int64_takum_to_extended_float lm k w t in int64_takum_from_extended_float lm k w y) = Val t.
Proof.
  intros lm k w t C It. unfold int64_takum_to_extended_float, int64_takum_from_extended_float. rewrite !to_s_same by assumption. destruct k.
  - apply (log_trip lm (bits w) f80 _ _ t C (log_ld_to lm w) (log_ld_from lm w)); [destruct w; cbn; lia|assumption|discriminate].
  - exact (lin_trip (bits w) f80 _ _ t (lin_ld_from w) (lin_ld_to w) (or_introl eq_refl) It).
Qed.
Lemma ext_neg : forall lm k w t y, c99 lm -> is_real_takum (bits w) t -> int64_takum_to_extended_float lm k w t = Val y ->
  int64_takum_to_extended_float lm k w (- t) = Val (fneg y).
Proof.
  intros lm k w t y C R E. assert (is_intn (bits w) (- t)) as In by (destruct R as (I & _ & N); unfold is_intn, nar in *; lia).
  unfold int64_takum_to_extended_float in *. rewrite !to_s_same in * by (assumption || apply R). destruct k.
  - apply (log_to_neg lm (bits w) f80 _ t y C (log_ld_to lm w)); (assumption || apply R).
  - assert (6 <= bits w <= 64)%Z as Hn by (destruct w; cbn; lia).
    destruct (lin_to_sym (bits w) f80 _ t _ (lin_ld_to w) (or_introl eq_refl) (proj1 R) (lin_value _ t Hn R) (sg_nonzero _ _ (Lin_pos _))) as (y' & E1 & _ & E2).
    rewrite E1 in E. injection E as ->. exact E2.
Qed.

(** ** Sign *)
Lemma exact_check : forall (f r : outcome Z) t, f = Val t -> r = Val t -> (let! e := r in let! o := f in deviates o e) = Val 0%Z.
Proof. intros f r t -> ->. cbn [bind]. apply deviates_same. Qed.
Lemma sign_check : forall lm k w a b, c99 lm -> test_case (sign_utb lm) w a b -> check_unary_binary_case (sign_utb lm) a b k w = Val 0%Z.
Proof.
  intros lm k w a b C [Ia _]. cbn [check_unary_binary_case sign_utb]. rewrite !to_s_same by assumption.
  assert (8 <= bits w <= 64)%Z as Hn by (destruct w; cbn; lia). destruct (value_one_k k (bits w) (w_std w)) as [V1 I1].
  assert (is_intn (bits w) (- 2 ^ (bits w - 2))) as I2. { unfold is_intn in *. pose proof (pow2_pos (bits w - 2) ltac:(lia)). lia. }
  pose proof (value_neg (bits w) ltac:(lia) k _ 1 I1 V1) as V2.
  unfold evaluate_takum. destruct (ext_cases lm k w a C Ia) as [(-> & Ex)|[(-> & Ex)|(R & x & p & Ex & Hx & Pp)]]; rewrite Ex; cbn [bind].
  - apply (exact_check _ _ 0%Z); [|apply (ext_from_zero lm k w false)]. unfold sign. destruct (Z.eqb_spec 0 (NaR (bits w))) as [K|_]; [|reflexivity]. unfold NaR in K. pose proof (pow2_pos (bits w - 1) ltac:(lia)). lia.
  - apply (exact_check _ _ (nar (bits w))); [|apply ext_from_nan; reflexivity]. unfold sign. change (NaR (bits w)) with (nar (bits w)). rewrite Z.eqb_refl. reflexivity.
  - assert (sign (bits w) a = Val (if (a <? 0)%Z then - 2 ^ (bits w - 2) else 2 ^ (bits w - 2))%Z) as ES.
    { destruct R as (_ & Z0 & N). unfold sign, ONE. change (NaR (bits w)) with (nar (bits w)). destruct (Z.eqb_spec a (nar (bits w))); [contradiction|]. destruct (Z.ltb_spec a 0); [reflexivity|]. destruct (Z.ltb_spec 0 a); [reflexivity|lia]. }
    eapply exact_check; [exact ES|].
    assert (sign_reference x = if (a <? 0)%Z then fneg (one f80) else one f80) as ER.
    { unfold sign_reference. rewrite (fisfinite_isf x _ Hx), (feq_isf x (fzero f80) _ 0 Hx (FloatFacts.isf_zero f80)), (fgt_isf x (fzero f80) _ 0 Hx (FloatFacts.isf_zero f80)).
      rewrite Req_bool_false by (apply sg_nonzero; assumption). unfold sg. destruct (a <? 0)%Z; [rewrite Rlt_bool_false by lra|rewrite Rlt_bool_true by lra]; reflexivity. }
    rewrite ER. destruct (a <? 0)%Z.
    + apply (ext_from_exact lm k w _ (- (1)) _ C); [apply isf_fneg, (isf_1 f80)|assumption|assumption].
    + apply (ext_from_exact lm k w _ 1 _ C); [apply (isf_1 f80)|assumption|assumption].
Qed.

(** ** Absolute value *)
Lemma exact_ref : forall r t, r = Val t -> (let! e := r in deviates t e) = Val 0%Z.
Proof. intros r t ->. cbn [bind]. apply deviates_same. Qed.
Lemma absolute_check : forall lm k w a b, c99 lm -> (a <> nar (bits w) \/ (bits w < 32)%Z) -> test_case (absolute_utb lm) w a b -> check_unary_binary_case (absolute_utb lm) a b k w = Val 0%Z.
Proof.
  intros lm k w a b C Na [Ia _]. cbn [check_unary_binary_case absolute_utb]. rewrite !to_s_same by assumption. assert (8 <= bits w <= 64)%Z as Hn by (destruct w; cbn; lia).
  rewrite absolute_eq by assumption. unfold evaluate_takum. pose proof (ext_trip lm k w a C Ia) as T.
  destruct (ext_cases lm k w a C Ia) as [(-> & Ex)|[(-> & Ex)|(R & x & p & Ex & Hx & Pp)]]; rewrite Ex in *; cbn [bind] in *.
  - change (Z.abs 0) with 0%Z. rewrite to_s_same by assumption. apply exact_ref. apply (ext_from_zero lm k w false).
  - apply exact_ref. transitivity (Val (nar (bits w))); [apply ext_from_nan; reflexivity|]. destruct Na as [K|K]; [contradiction|]. destruct w; cbn in K; (lia || reflexivity).
  - assert (is_intn (bits w) (Z.abs a)) as Ib by (destruct R as (I & _ & N); unfold is_intn, nar in *; lia). rewrite to_s_same by assumption.
    apply exact_ref. unfold absolute_reference. rewrite (fisfinite_isf x _ Hx), (flt_isf x (fzero f80) _ 0 Hx (FloatFacts.isf_zero f80)), sg_lt by assumption.
    destruct (Z.ltb_spec a 0); [|rewrite Z.abs_eq by lia; exact T]. rewrite Z.abs_neq in * by lia. pose proof (ext_trip lm k w (- a) C Ib) as T'. rewrite (ext_neg lm k w a x C R Ex) in T'. exact T'.
Qed.

(** ** Precision *)
Definition w_precision (w : Wrappers.width) : Z -> outcome Z :=
  match w with W8 => takum8_precision | W16 => takum16_precision | W32 => takum32_precision | W64 => takum64_precision end.
Lemma w_precision_fun : forall w, precision_function Logarithmic (bits w) (w_precision w).
Proof. intros []; constructor. Qed.
(** the code of the reference function for the bits of a takum *)
Definition region (w : Wrappers.width) (t : Z) : outcome Z :=
  let! bits_ := match w with W64 => Val (to_u 64 t) | _ => shl_u 64 (to_u 64 t) (64 - bits w) end in
  let! b := shr_u 64 bits_ 48 in
  let prefix := to_u 16 (Z.land b 0xffff) in
  let! R := shr_promoted 16 (Z.land prefix 0x3800) 11 in
  let R := to_u 8 R in
  let r := if (Z.land prefix 0x4000 =? 0)%Z then (7 - R)%Z else R in
  Val (if (bits w - 5 <? to_u 8 r)%Z then 0%Z else to_u 8 (bits w - 5 - to_u 8 r)).
Lemma prefix_region : forall P, (0 <= P < 2 ^ 16)%Z -> (P mod 2 ^ 15 / 2 ^ 11 =? P / 2 ^ 11 mod 16)%Z = true /\
  Z.land P 0x3800 = (P / 2 ^ 11 mod 8 * 2 ^ 11)%Z /\ ((Z.land P 0x4000 =? 0) = (P / 2 ^ 11 mod 16 <? 8))%Z.
Proof.
  intros P HP. split; [apply Z.eqb_eq; change (2 ^ 15)%Z with (2 ^ 11 * 16)%Z; apply div_mod_mul; lia|]. split.
  - change 0x3800%Z with (Z.shiftl (Z.ones 3) 11). replace P with (Z.lor (Z.shiftl (P / 2 ^ 11) 11) (P mod 2 ^ 11)) at 1.
    + rewrite Z.land_lor_distr_l, <- Z.shiftl_land, Z.land_ones by lia. rewrite Z.shiftl_mul_pow2 by lia.
      replace (Z.land (P mod 2 ^ 11) (Z.shiftl (Z.ones 3) 11)) with 0%Z; [rewrite Z.lor_0_r; reflexivity|].
      symmetry. apply Z.bits_inj'. intros i Hi. rewrite Z.land_spec, Z.bits_0. destruct (Z.lt_ge_cases i 11).
      * rewrite Z.shiftl_spec_low by lia. apply andb_false_r.
      * rewrite Z.mod_pow2_bits_high by lia. reflexivity.
    + rewrite Z.shiftl_mul_pow2 by lia. rewrite <- Z.land_ones by lia. apply Z.bits_inj'. intros i Hi. rewrite Z.lor_spec, Z.land_spec. destruct (Z.lt_ge_cases i 11).
      * rewrite Z.mul_pow2_bits_low, Z.ones_spec_low by lia. rewrite andb_true_r. reflexivity.
      * rewrite Z.mul_pow2_bits by lia. rewrite Z.ones_spec_high by lia. rewrite Z.div_pow2_bits by lia. rewrite andb_false_r, orb_false_r. f_equal. lia.
  - assert (Z.testbit P 14 = negb (P / 2 ^ 11 mod 16 <? 8)%Z) as T.
    { rewrite <- (Z.mod_pow2_bits_low (P) 15 14) by lia. rewrite Z.testbit_odd, Z.shiftr_div_pow2 by lia.
      change (2 ^ 15)%Z with (2 ^ 14 * 2)%Z. rewrite div_mod_mul by lia. replace (P / 2 ^ 14)%Z with (P / 2 ^ 11 / 8)%Z by (rewrite Z.div_div by lia; reflexivity).
      change 16%Z with (8 * 2)%Z. set (q := (P / 2 ^ 11)%Z). rewrite Z.rem_mul_r by lia. pose proof (Z.mod_pos_bound q 8 ltac:(lia)). pose proof (Z.mod_pos_bound (q / 8) 2 ltac:(lia)).
      assert ((q / 8) mod 2 = 0 \/ (q / 8) mod 2 = 1)%Z as [-> | ->] by lia; [destruct (Z.ltb_spec (q mod 8 + 8 * 0) 8)|destruct (Z.ltb_spec (q mod 8 + 8 * 1) 8)]; (reflexivity || lia). }
    change 0x4000%Z with (2 ^ 14)%Z. assert (Z.land P (2 ^ 14) = if Z.testbit P 14 then 2 ^ 14 else 0)%Z as ->.
    { apply Z.bits_inj'. intros i Hi. rewrite Z.land_spec, Z.pow2_bits_eqb by lia. destruct (Z.eqb_spec 14 i) as [<-|N].
      - rewrite andb_true_r. destruct (Z.testbit P 14); [symmetry; apply Z.pow2_bits_true; lia|symmetry; apply Z.bits_0].
      - rewrite andb_false_r. destruct (Z.testbit P 14); [symmetry; apply Z.pow2_bits_false; lia|symmetry; apply Z.bits_0]. }
    rewrite T. destruct (P / 2 ^ 11 mod 16 <? 8)%Z; reflexivity.
Qed.
Lemma top_bits : forall n t, (8 <= n <= 64)%Z -> ((to_u 64 t * 2 ^ (64 - n)) mod 2 ^ 64 / 2 ^ 48 / 2 ^ 11 mod 16 = DRn n t)%Z.
Proof.
  intros n t Hn. unfold to_u, DRn, low. pose proof (pow2_pos (n - 5) ltac:(lia)). pose proof (pow2_pos (64 - n) ltac:(lia)).
  rewrite Z.div_div by lia. change (2 ^ 48 * 2 ^ 11)%Z with (2 ^ 59)%Z. rewrite Z.mul_mod_idemp_l by lia.
  replace (2 ^ 64)%Z with (2 ^ 59 * 32)%Z by reflexivity. rewrite div_mod_mul by lia.
  replace (2 ^ 59)%Z with (2 ^ (n - 5) * 2 ^ (64 - n))%Z by (rewrite <- pow2_split by lia; f_equal; lia).
  rewrite Z.div_mul_cancel_r by lia.
  replace (2 ^ (n - 1))%Z with (2 ^ (n - 5) * 16)%Z by (change 16%Z with (2 ^ 4)%Z; rewrite <- pow2_split by lia; f_equal; lia).
  rewrite div_mod_mul by lia. change 32%Z with (16 * 2)%Z. rewrite Z.rem_mul_r, Z.mul_comm, Z.mod_add by lia. apply Z.mod_mod. lia.
Qed.
Lemma region_correct : forall w t, is_real_takum (bits w) t -> region w t = Val (Z.max 0 (bits w - 5 - r_ (bits w) t)).
Proof.
  intros w t R. assert (8 <= bits w <= 64)%Z as Hn by (destruct w; cbn; lia). pose proof (top_bits (bits w) t Hn) as T.
  set (X := ((to_u 64 t * 2 ^ (64 - bits w)) mod 2 ^ 64)%Z) in *. assert (0 <= X < 2 ^ 64)%Z as HX by (apply Z.mod_pos_bound; lia).
  assert (match w with W64 => Val (to_u 64 t) | _ => shl_u 64 (to_u 64 t) (64 - bits w) end = Val X) as E.
  { destruct w; try reflexivity. unfold X. change (64 - bits W64)%Z with 0%Z. rewrite Z.mul_1_r. unfold to_u. rewrite Z.mod_mod by lia. reflexivity. }
  unfold region. rewrite E. cbn [bind]. change (shr_u 64 X 48) with (Val (X / 2 ^ 48)%Z). cbn [bind].
  assert (0 <= X / 2 ^ 48 < 2 ^ 16)%Z as HP by (split; [apply Z.div_pos; lia|apply Z.div_lt_upper_bound; lia]).
  set (P := (X / 2 ^ 48)%Z) in *. clearbody P. replace (Z.land P 65535) with P by (change 65535%Z with (Z.ones 16); rewrite Z.land_ones, Z.mod_small by lia; reflexivity).
  rewrite (to_u_small 16 P) by lia. cbv zeta. destruct (prefix_region P HP) as (_ & E1 & E2). rewrite E1, E2, T.
  change (shr_promoted 16 (P / 2 ^ 11 mod 8 * 2 ^ 11) 11) with (Val ((P / 2 ^ 11 mod 8 * 2 ^ 11) / 2 ^ 11)%Z). cbn [bind]. rewrite Z.div_mul by lia.
  rewrite r_eq by (lia || apply R). fold (DRn (bits w) t). pose proof (DRn_bounds (bits w) ltac:(lia) t) as KD.
  assert (P / 2 ^ 11 mod 8 = DRn (bits w) t mod 8)%Z as E3.
  { rewrite <- T. change 16%Z with (8 * 2)%Z. rewrite Z.rem_mul_r, Z.mul_comm, Z.mod_add by lia. rewrite Z.mod_mod by lia. reflexivity. }
  rewrite E3. pose proof (Z.mod_pos_bound (DRn (bits w) t) 8 ltac:(lia)) as B8. rewrite (to_u_small 8 (_ mod 8)) by lia.
  assert ((if DRn (bits w) t <? 8 then 7 - DRn (bits w) t mod 8 else DRn (bits w) t mod 8) = regZ (DRn (bits w) t))%Z as E4.
  { unfold regZ. destruct (Z.ltb_spec (DRn (bits w) t) 8); [rewrite Z.mod_small by lia; reflexivity|]. replace (DRn (bits w) t) with (DRn (bits w) t - 8 + 1 * 8)%Z at 1 by lia. rewrite Z.mod_add, Z.mod_small by lia. reflexivity. }
  rewrite E4. pose proof (regZ_bounds _ KD) as Kb. rewrite (to_u_small 8 (regZ _)) by lia. f_equal. destruct (Z.ltb_spec (bits w - 5) (regZ (DRn (bits w) t))); [lia|]. rewrite to_u_small by lia. lia.
Qed.
Lemma precision_check : forall lm k w a b, c99 lm -> test_case (precision_utb lm) w a b -> check_unary_binary_case (precision_utb lm) a b k w = Val 0%Z.
Proof.
  intros lm k w a b C [Ia _]. cbn [check_unary_binary_case precision_utb]. rewrite !to_s_same by assumption. fold (w_precision w).
  assert (forall r o, r = Val o -> w_precision w a = Val o -> (let! e := r in let! o := w_precision w a in Val (b2z (negb (o =? e)%Z))) = Val 0%Z) as F.
  { intros r o -> ->. cbn [bind]. rewrite Z.eqb_refl. reflexivity. }
  destruct (precision_special Logarithmic (bits w) _ (w_precision_fun w)) as [S1 S2].
  assert (Val (if (bits w <? 12)%Z then 0%Z else to_u 8 (bits w - 12)) = Val (Z.max 0 (bits w - 12))) as S3 by (destruct w; reflexivity).
  unfold evaluate_uint8. pose proof (ext_trip lm k w a C Ia) as T.
  destruct (ext_cases lm k w a C Ia) as [(-> & Ex)|[(-> & Ex)|(R & x & p & Ex & Hx & Pp)]]; rewrite Ex in *; cbn [bind] in *.
  - exact (F _ _ S3 S1).
  - exact (F _ _ S3 S2).
  - eapply F; [|exact (precision_correct Logarithmic (bits w) _ a (w_precision_fun w) R)].
    unfold precision_reference. rewrite (fisfinite_isf x _ Hx), (feq_isf x (fzero f80) _ 0 Hx (FloatFacts.isf_zero f80)), Req_bool_false by (apply sg_nonzero; assumption).
    cbn [negb orb]. rewrite T. cbn [bind]. exact (region_correct w a R).
Qed.

(** ** The programs *)
Lemma program : forall utb, well_formed utb -> (forall k w a b, test_case utb w a b -> check_unary_binary_case utb a b k w = Val 0%Z) ->
  passes utb /\ forall result, test_main utb result <-> result = 0%Z.
Proof.
  intros utb Hw H. assert (passes utb) as P by (intros k w; apply checks_pass; [assumption|apply H]). split; [exact P|]. intros result. split.
  - intros R. apply (passes_zero utb result Hw); [|exact R]. intros k w a b T. destruct (check_accepted utb k w a b 0 T (H k w a b T)) as [[_ K]|[K _]]; [exact K|discriminate K].
  - intros ->. exact (passes_block utb P).
Qed.
Theorem addition_test : forall lm, passes (addition_utb lm) /\ forall result, test_main (addition_utb lm) result <-> result = 0%Z.
Proof. intros lm. apply program; [exact I|]. intros k w a b. apply add_check. Qed.
Theorem subtraction_test : forall lm, passes (subtraction_utb lm) /\ forall result, test_main (subtraction_utb lm) result <-> result = 0%Z.
Proof. intros lm. apply program; [exact I|]. intros k w a b. apply sub_check. Qed.
Theorem sign_test : forall lm, c99 lm -> passes (sign_utb lm) /\ forall result, test_main (sign_utb lm) result <-> result = 0%Z.
Proof. intros lm C. apply program; [exact I|]. intros k w a b. apply sign_check. assumption. Qed.
Theorem precision_test : forall lm, c99 lm -> passes (precision_utb lm) /\ forall result, test_main (precision_utb lm) result <-> result = 0%Z.
Proof. intros lm C. apply program; [exact I|]. intros k w a b. apply precision_check. assumption. Qed.
Theorem arithmetic_test : forall lm k w utb, c99 lm -> In utb [multiplication_utb lm; division_utb lm; square_root_utb lm; inversion_utb lm] -> (k = Linear \/ w <> W64) -> type_passes utb k w.
Proof.
  intros lm k w utb C Hi Hk. assert (k = Linear \/ (k = Logarithmic /\ w <> W64)) as [-> |[-> Nw]] by (destruct k; tauto).
  - destruct Hi as [<-|[<-|[<-|[<-|[]]]]]; apply checks_pass; try exact I; intros a b T;
      [apply mul_check|apply div_check|apply sqrt_lin_check|apply inv_lin_check]; assumption.
  - destruct Hi as [<-|[<-|[<-|[<-|[]]]]]; apply checks_pass; try exact I; intros a b T;
      [apply mul_log_check|apply div_log_check|apply sqrt_log_check|apply inv_log_check]; assumption.
Qed.
Theorem linear_arithmetic_test : forall lm w utb, In utb [multiplication_utb lm; division_utb lm; square_root_utb lm; inversion_utb lm] -> type_passes utb Linear w.
Proof.
  intros lm w utb Hi. destruct Hi as [<-|[<-|[<-|[<-|[]]]]]; apply checks_pass; try exact I; intros a b T;
    [apply mul_check|apply div_check|apply sqrt_lin_check|apply inv_lin_check]; assumption.
Qed.
Theorem absolute_small_test : forall lm k w, c99 lm -> w = W8 \/ w = W16 -> type_passes (absolute_utb lm) k w.
Proof. intros lm k w C Hw. apply checks_pass; [exact I|]. intros a b T. apply absolute_check; [assumption| |assumption]. right. destruct Hw as [-> | ->]; cbn; lia. Qed.
(** 32 and 64 bits: the case NaR has undefined behaviour; when rand() first returns 1, it is the second case *)
Theorem absolute_undefined : forall lm k w, c99 lm -> w = W32 \/ w = W64 ->
  exists s, sampler_init (absolute_utb lm) w maximum_sample_count = Val s /\ forall rnd, rnd 0%nat = 1%Z ->
    test_loop (absolute_utb lm) k w s rnd [(0, nar (bits w), 0)]%Z Undefined /\
    forall l e, test_loop (absolute_utb lm) k w s rnd l e -> e = Undefined.
Proof.
  intros lm k w C Hw. exists (Sampler TAKUM_RANDOM 0 (nar (bits w)) 1 maximum_sample_count). split; [destruct Hw as [-> | ->]; reflexivity|].
  intros rnd Hr. assert (check_unary_binary_case (absolute_utb lm) 0 (nar (bits w)) k w = Val 0%Z) as C0.
  { apply absolute_check; [assumption| |split; [apply intn_0; destruct w; cbn; lia|reflexivity]]. left. destruct w; discriminate. }
  assert (check_unary_binary_case (absolute_utb lm) (nar (bits w)) (nar (bits w)) k w = UB) as CN.
  { cbn [check_unary_binary_case absolute_utb]. destruct (bind _ _) as [e|] eqn:E; [|reflexivity]. exfalso. revert E.
    unfold evaluate_takum. destruct (ext_cases lm k w (nar (bits w)) C ltac:(apply nar_intn; destruct w; cbn; lia)) as [(K & _)|[(_ & Ex)|(K & _)]].
    - destruct w; discriminate K.
    - rewrite Ex. cbn [bind]. change (absolute_reference B754_nan) with (B754_nan : flt f80). rewrite ext_from_nan by reflexivity. cbn [bind]. destruct Hw as [-> | ->]; discriminate.
    - destruct K as (_ & _ & K). contradiction. }
  set (s := Sampler TAKUM_RANDOM 0 (nar (bits w)) 1 maximum_sample_count).
  assert (exists s', sampler_next (absolute_utb lm) w rnd s = Val (More s' 1) /\ value_x s' = nar (bits w) /\ value_y s' = nar (bits w)) as (s' & N & X & Y).
  { unfold sampler_next. cbn [mode s value_x value_y current_count target_count]. rewrite Hr. destruct Hw as [-> | ->]; eexists; (split; [reflexivity|split; reflexivity]). }
  split.
  - change (0, nar (bits w), 0)%Z with (value_x s, value_y s, 0%Z). apply (loop_more _ _ _ s rnd 0 s' 1%nat [] Undefined); [exact C0|exact N|]. apply loop_check_undefined. rewrite X, Y. exact CN.
  - intros l e L. inversion L as [s0 r0 E|s0 r0 c E E'|s0 r0 c E E'|s0 r0 c E E'|s0 r0 c s1 calls l' e' E E' L']; subst; try reflexivity; try (rewrite N in E'; discriminate E').
    rewrite N in E'. injection E' as <- <-. inversion L' as [s0 r0 F|s0 r0 c' F F'|s0 r0 c' F F'|s0 r0 c' F F'|s0 r0 c' s1 calls l'' e' F F' L'']; subst; try reflexivity; rewrite X, Y, CN in F; discriminate F.
Qed.
Theorem absolute_refuted : forall lm k w, c99 lm -> w = W32 \/ w = W64 -> ~ type_passes (absolute_utb lm) k w.
Proof.
  intros lm k w C Hw P. destruct (absolute_undefined lm k w C Hw) as (s & Es & H). destruct (H (fun _ => 1%Z) eq_refl) as [L _].
  destruct (P (fun _ => 1%Z)) as (l & _ & _ & U). destruct (U s _ _ Es L) as [_ K]. discriminate K.
Qed.
