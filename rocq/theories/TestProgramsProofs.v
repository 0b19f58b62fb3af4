(** Proofs about the test programs for the arithmetic operations. *)
From Coq Require Import ZArith Reals Bool Lia Lra List.
From Flocq Require Import Core.Core Plus_error IEEE754.BinarySingleNaN.
From Verif Require Import CModel FloatModel Libm Arith Codec Spec FloatSpec CodeFacts SpecFacts ValueFacts RoundFacts
  WidthFacts WidthProps FloatFacts EncodeFacts Machine Conversion Wrappers LinApi LinFacts LinProps LinOps LinArith WrapApi WrapTotal
  Agree TestHarness HarnessSpec HarnessResults TestBlocksSpec TestBlocks TestBlocksProofs TestPrograms.
Local Open Scope R_scope.

(** ** The comparison *)
Lemma deviates_same : forall o, deviates o o = Val 0%Z.
Proof. intros o. unfold deviates. rewrite Z.eqb_refl. reflexivity. Qed.
Lemma deviates_near : forall n o e, (n = 8 \/ n = 16 \/ n = 32)%Z -> is_intn n o -> is_intn n e -> (Z.abs (o - e) <= 1)%Z -> deviates o e = Val 0%Z.
Proof.
  intros n o e Hn Io Ie H. unfold deviates.
  assert (- 2 ^ 62 <= e < 2 ^ 62)%Z as B by (destruct Hn as [-> | [-> | ->]]; unfold is_intn in Ie; cbn in Ie; lia).
  assert (forall z, (- 2 ^ 63 <= z < 2 ^ 63)%Z -> s_arith 64 z = Val z) as S.
  { intros z Hz. unfold s_arith, fits_s. change (64 - 1)%Z with 63%Z. destruct (Z.leb_spec (- 2 ^ 63) z), (Z.ltb_spec z (2 ^ 63)); try lia. reflexivity. }
  rewrite !S by lia. cbn [bind]. destruct (Z.eqb_spec o e); [reflexivity|]. destruct (Z.eqb_spec o (e + 1)); [reflexivity|]. destruct (Z.eqb_spec o (e - 1)); [reflexivity|]. lia.
Qed.

(** ** The reference function for linear takums *)
Lemma ld_operand : forall w t, is_intn (bits w) t ->
  exists y, lin_to_ld x86_64 w t = Val y /\ match value Linear (bits w) t with
    | Some x => isf y x /\ operand (bits w) x /\ FF f80 x /\ (x = 0 -> y = B754_zero false) | None => y = B754_nan end.
Proof.
  intros w t It. destruct (lin_to_exact (bits w) f80 _ t (lin_ld_to w) (or_introl eq_refl) It) as (y & Ey & K).
  exists y. split; [assumption|]. destruct (value Linear (bits w) t) as [x|] eqn:E; [|assumption].
  destruct K as (K1 & K2 & K3). split; [split; assumption|]. split; [apply (operand_value _ t); auto using w_std|]. split; [|assumption].
  rewrite <- K2. apply (generic_format_B2R (fprec f80) (femax f80)).
Qed.
Lemma rd80 : forall w, rd_ok (bits w) (RF f80).
Proof. intros w. pose proof (std_range _ (w_std w)). apply rd_RF; [lia|discriminate|]. change (fprec f80) with 64%Z. lia. Qed.

Section Reference.
Variable op : flt f80 -> flt f80 -> flt f80.
Variable z : R -> R -> R.
Variable ok : R -> Prop.
Hypothesis op_nan : forall y, op B754_nan y = B754_nan /\ op y B754_nan = B754_nan.
Hypothesis op_isf : forall n x y a b, operand n a -> operand n b -> ok b -> isf x a -> isf y b -> isf (op x y) (RF f80 (z a b)).
Hypothesis op_bad : forall x y a b, ~ ok b -> isf x a -> isf y b -> (b = 0 -> y = B754_zero false) -> is_finite (op x y) = false.
Hypothesis z_nonzero : forall n a b, operand n a -> operand n b -> FF f80 a -> FF f80 b -> ok b -> z a b <> 0 -> RF f80 (z a b) <> 0.
Hypothesis ok_dec : forall b, ok b \/ ~ ok b.
Lemma reference_faithful : forall lm w a b, is_intn (bits w) a -> is_intn (bits w) b ->
  exists t, evaluate_takum_takum lm op Linear w a b = Val t /\ is_intn (bits w) t /\
    match value Linear (bits w) a, value Linear (bits w) b with
    | Some x, Some y => (~ ok y /\ t = nar (bits w)) \/ (ok y /\ rounds_faithfully Linear (bits w) (z x y) t)
    | _, _ => t = nar (bits w)
    end.
Proof.
  intros lm w a b Ia Ib. unfold evaluate_takum_takum, int64_takum_to_extended_float, int64_takum_from_extended_float. rewrite !to_s_same by assumption.
  destruct (ld_operand w a Ia) as (x & Ex & Kx). destruct (ld_operand w b Ib) as (y & Ey & Ky). rewrite Ex, Ey. cbn [bind].
  pose proof (std_range _ (w_std w)) as Hr. set (n := bits w) in *.
  assert (forall r, is_finite r = false -> exists t, lin_from_ld x86_64 w r = Val t /\ is_intn n t /\ t = nar n) as N.
  { intros r Hf. exists (nar n). split; [apply (res_nar n f80); [apply lin_ld_from|assumption]|]. split; [apply nar_intn; lia|reflexivity]. }
  destruct (value Linear n a) as [va|].
  - destruct (value Linear n b) as [vb|].
    + destruct Kx as (Fx & Ox & Rx & _), Ky as (Fy & Oy & Ry & Zy). destruct (ok_dec vb) as [O|O].
      * destruct (res_faithful n f80 _ (RF f80) (op x y) (z va vb) (lin_ld_from w)) as (t & T1 & T2 & T3).
        -- apply rd80.
        -- apply (op_isf n); assumption.
        -- apply (z_nonzero n); assumption.
        -- exists t. auto.
      * destruct (N (op x y)) as (t & T1 & T2 & T3); [apply (op_bad x y va vb); assumption|]. exists t. auto.
    + rewrite Ky. apply N. exact (f_equal is_finite (proj2 (op_nan x))).
  - rewrite Kx. apply N. exact (f_equal is_finite (proj1 (op_nan y))).
Qed.
End Reference.

Lemma add80_isf : forall n x y a b, operand n a -> operand n b -> anyR b -> isf x a -> isf y b -> isf (@fadd f80 x y) (RF f80 (a + b)).
Proof. intros n x y a b Ha Hb _ Hx Hy. apply isf_fadd; auto. apply RF_no_overflow; [discriminate|]. apply (plus_bound n); assumption. Qed.
Lemma sub80_isf : forall n x y a b, operand n a -> operand n b -> anyR b -> isf x a -> isf y b -> isf (@fsub f80 x y) (RF f80 (a - b)).
Proof. intros n x y a b Ha Hb _ Hx Hy. apply isf_fsub; auto. apply RF_no_overflow; [discriminate|]. apply (plus_bound n); [|apply operand_opp]; assumption. Qed.
Lemma mul80_isf : forall n x y a b, operand n a -> operand n b -> anyR b -> isf x a -> isf y b -> isf (@fmul f80 x y) (RF f80 (a * b)).
Proof. intros n x y a b Ha Hb _ Hx Hy. apply isf_fmul; auto. apply RF_no_overflow; [discriminate|]. apply (mult_bounds n); assumption. Qed.
Lemma div80_isf : forall n x y a b, operand n a -> operand n b -> nonzero b -> isf x a -> isf y b -> isf (@fdiv f80 x y) (RF f80 (a / b)).
Proof. intros n x y a b Ha Hb O Hx Hy. apply isf_fdiv; auto. apply RF_no_overflow; [discriminate|]. apply (div_bounds n); assumption. Qed.
Lemma any80_bad : forall (op : flt f80 -> flt f80 -> flt f80) x y a b, ~ anyR b -> isf x a -> isf y b -> (b = 0 -> y = B754_zero false) -> is_finite (op x y) = false.
Proof. intros op x y a b H. exfalso. apply H. exact I. Qed.
Lemma div80_bad : forall (x y : flt f80) a b, ~ nonzero b -> isf x a -> isf y b -> (b = 0 -> y = B754_zero false) -> is_finite (fdiv x y) = false.
Proof. intros x y a b H Hx Hy Zy. rewrite (Zy (not_nonzero b H)). destruct Hx as [Fx _]. destruct x; try discriminate; reflexivity. Qed.
Lemma plus80_nonzero : forall a b, FF f80 a -> FF f80 b -> a + b <> 0 -> RF f80 (a + b) <> 0.
Proof.
  intros a b Ha Hb H. assert (Exp_not_FTZ (fexpo f80)) as T.
  { change (Exp_not_FTZ (FLT_exp (femin f80) (fprec f80))). apply monotone_exp_not_FTZ; [apply FLT_exp_valid; apply fprec_gt_0|apply FLT_exp_monotone]. }
  apply (round_plus_neq_0 radix2 (fexpo f80) ZnearestE); assumption.
Qed.
Lemma add80_nz : forall n a b, operand n a -> operand n b -> FF f80 a -> FF f80 b -> anyR b -> a + b <> 0 -> RF f80 (a + b) <> 0.
Proof. intros n a b _ _ Ha Hb _. apply plus80_nonzero; assumption. Qed.
Lemma sub80_nz : forall n a b, operand n a -> operand n b -> FF f80 a -> FF f80 b -> anyR b -> a - b <> 0 -> RF f80 (a - b) <> 0.
Proof. intros n a b _ _ Ha Hb _. apply plus80_nonzero; [assumption|]. apply generic_format_opp. assumption. Qed.
Lemma mul80_nz : forall n a b, operand n a -> operand n b -> FF f80 a -> FF f80 b -> anyR b -> a * b <> 0 -> RF f80 (a * b) <> 0.
Proof. intros n a b Ha Hb _ _ _ H. apply RF_nonzero; [discriminate|]. apply (mult_bounds n); assumption. Qed.
Lemma div80_nz : forall n a b, operand n a -> operand n b -> FF f80 a -> FF f80 b -> nonzero b -> a / b <> 0 -> RF f80 (a / b) <> 0.
Proof. intros n a b Ha Hb _ _ O H. apply RF_nonzero; [discriminate|]. apply (div_bounds n); assumption. Qed.

(** ** The checks for linear takums *)
Lemma within : forall n (ok : R -> Prop) (z : R -> R -> R) (vx vy : option R) t t', std_width n ->
  match vx, vy with Some x, Some y => (~ ok y /\ t = nar n) \/ (ok y /\ rounds_faithfully Linear n (z x y) t) | _, _ => t = nar n end ->
  match vx, vy with Some x, Some y => (~ ok y /\ t' = nar n) \/ (ok y /\ rounds_faithfully Linear n (z x y) t') | _, _ => t' = nar n end ->
  (Z.abs (t - t') <= 1)%Z.
Proof.
  intros n ok z vx vy t t' Hw H H'. assert (t = nar n -> t' = nar n -> (Z.abs (t - t') <= 1)%Z) as E by lia. destruct vx as [x|]; [|auto]. destruct vy as [y|]; [|auto].
  destruct H as [[A B]|[A B]], H' as [[C D]|[C D]]; auto; try tauto. apply (faithful_unit Linear n (z x y)); assumption.
Qed.
Lemma width_cases : forall w, w = W64 \/ (bits w = 8 \/ bits w = 16 \/ bits w = 32)%Z.
Proof. intros []; cbn; auto. Qed.
Lemma check_binary : forall lm (op : forall F, flt F -> flt F -> flt F) (ok : R -> Prop) z w a b, is_intn (bits w) a -> is_intn (bits w) b ->
  (exists t, binary_lin x86_64 (op f64) (op f80) fix2_none w a b = Val t /\ is_intn (bits w) t /\
    match value Linear (bits w) a, value Linear (bits w) b with
    | Some x, Some y => (~ ok y /\ t = nar (bits w)) \/ (ok y /\ rounds_faithfully Linear (bits w) (z x y) t)
    | _, _ => t = nar (bits w)
    end) ->
  (exists t, evaluate_takum_takum lm (op f80) Linear w a b = Val t /\ is_intn (bits w) t /\
    match value Linear (bits w) a, value Linear (bits w) b with
    | Some x, Some y => (~ ok y /\ t = nar (bits w)) \/ (ok y /\ rounds_faithfully Linear (bits w) (z x y) t)
    | _, _ => t = nar (bits w)
    end) ->
  (let! r := evaluate_takum_takum lm (op f80) Linear w a b in
   let! output := binary_lin x86_64 (op f64) (op f80) fix2_none w (to_s (bits w) a) (to_s (bits w) b) in deviates output r) = Val 0%Z.
Proof.
  intros lm op ok z w a b Ia Ib (t & E & It & K) (t' & E' & It' & K'). rewrite !to_s_same by assumption. rewrite E'. cbn [bind]. rewrite E. cbn [bind].
  destruct (width_cases w) as [-> |Hw].
  - assert (Val t = Val t') as T.
    { rewrite <- E, <- E'. unfold evaluate_takum_takum, int64_takum_to_extended_float, int64_takum_from_extended_float. rewrite !to_s_same by assumption. reflexivity. }
    injection T as ->. apply deviates_same.
  - apply (deviates_near (bits w)); auto. apply (within (bits w) ok z (value Linear (bits w) a) (value Linear (bits w) b)); auto using w_std.
Qed.

Lemma check_log : forall lm (op : flt f80 -> flt f80 -> flt f80) w a b, is_intn (bits w) a -> is_intn (bits w) b ->
  (let! r := evaluate_takum_takum lm op Logarithmic w a b in
   let! output := binary_log x86_64 lm op fix2_none w (to_s (bits w) a) (to_s (bits w) b) in deviates output r) = Val 0%Z.
Proof.
  intros lm op w a b Ia Ib. destruct (binary_log_total lm op fix2_none w a b Ia Ib) as (t & E & _). rewrite !to_s_same by assumption.
  assert (evaluate_takum_takum lm op Logarithmic w a b = Val t) as ->.
  { rewrite <- E. unfold evaluate_takum_takum, int64_takum_to_extended_float, int64_takum_from_extended_float. rewrite !to_s_same by assumption. reflexivity. }
  rewrite E. cbn [bind]. apply deviates_same.
Qed.

Lemma add_check : forall lm k w a b, test_case (addition_utb lm) w a b -> check_unary_binary_case (addition_utb lm) a b k w = Val 0%Z.
Proof.
  intros lm [] w a b [Ia Ib]; [exact (check_log lm fadd w a b Ia Ib)|]. apply (check_binary lm (@fadd) anyR Rplus w a b Ia Ib).
  - apply (binary_faithful (@fadd) Rplus anyR fadd_nan fadd_isf (any_bad _) plus_nz anyR_dec); assumption.
  - apply (reference_faithful fadd Rplus anyR (fadd_nan f80) add80_isf (any80_bad _) add80_nz anyR_dec); assumption.
Qed.
Lemma sub_check : forall lm k w a b, test_case (subtraction_utb lm) w a b -> check_unary_binary_case (subtraction_utb lm) a b k w = Val 0%Z.
Proof.
  intros lm [] w a b [Ia Ib]; [exact (check_log lm fsub w a b Ia Ib)|]. apply (check_binary lm (@fsub) anyR Rminus w a b Ia Ib).
  - apply (binary_faithful (@fsub) Rminus anyR fsub_nan fsub_isf (any_bad _) minus_nz anyR_dec); assumption.
  - apply (reference_faithful fsub Rminus anyR (fsub_nan f80) sub80_isf (any80_bad _) sub80_nz anyR_dec); assumption.
Qed.
Lemma mul_check : forall lm w a b, test_case (multiplication_utb lm) w a b -> check_unary_binary_case (multiplication_utb lm) a b Linear w = Val 0%Z.
Proof.
  intros lm w a b [Ia Ib]. apply (check_binary lm (@fmul) anyR Rmult w a b Ia Ib).
  - apply (binary_faithful (@fmul) Rmult anyR fmul_nan fmul_isf (any_bad _) mult_nz anyR_dec); assumption.
  - apply (reference_faithful fmul Rmult anyR (fmul_nan f80) mul80_isf (any80_bad _) mul80_nz anyR_dec); assumption.
Qed.
Lemma div_check : forall lm w a b, test_case (division_utb lm) w a b -> check_unary_binary_case (division_utb lm) a b Linear w = Val 0%Z.
Proof.
  intros lm w a b [Ia Ib]. apply (check_binary lm (@fdiv) nonzero Rdiv w a b Ia Ib).
  - apply (binary_faithful (@fdiv) Rdiv nonzero fdiv_nan fdiv_isf div_bad div_nz nonzero_dec); assumption.
  - apply (reference_faithful fdiv Rdiv nonzero (fdiv_nan f80) div80_isf div80_bad div80_nz nonzero_dec); assumption.
Qed.
