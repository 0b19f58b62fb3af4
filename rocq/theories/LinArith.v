(** Proofs about addition, subtraction, multiplication, division, inversion and
    square root of linear takums. *)
From Coq Require Import ZArith Reals Bool Lia Lra List.
From Flocq Require Import Core.Core Plus_error IEEE754.BinarySingleNaN.
From Verif Require Import CModel FloatModel WidthConv Codec Spec FloatSpec CodeFacts SpecFacts ValueFacts RoundFacts
  WidthFacts WidthProps FloatFacts DecodeFacts EncodeFacts PhiFacts Codec8Facts Machine Libm Conversion Wrappers LinApi LinFacts
  LinDec LogProps MiscProps LogFacts PowFacts LinProps LinOps LinGap.
Local Open Scope R_scope.

(** the format the functions compute in *)
Definition fmt_of (n : Z) : fmt := if (n =? 64)%Z then f80 else f64.

Lemma binary_io : forall (op : forall F, flt F -> flt F -> flt F) w, exists h g,
  linear_to_float (bits w) (fmt_of (bits w)) h /\ linear_from_float (bits w) (fmt_of (bits w)) g /\
  forall a b, binary_lin x86_64 (op f64) (op f80) fix2_none w a b =
    (let! x := h a in let! y := h b in g (op (fmt_of (bits w)) x y)).
Proof. intros op []; do 2 eexists; (split; [constructor|split; [constructor|reflexivity]]). Qed.

Lemma unary_io : forall (op : forall F, flt F -> flt F) w, exists h g,
  linear_to_float (bits w) (fmt_of (bits w)) h /\ linear_from_float (bits w) (fmt_of (bits w)) g /\
  forall a, unary_lin x86_64 (op f64) (op f80) fix1_none w a =
    (let! x := h a in g (op (fmt_of (bits w)) x)).
Proof. intros op []; do 2 eexists; (split; [constructor|split; [constructor|reflexivity]]). Qed.

Lemma fmt_of_exact : forall n, exact_pair n (fmt_of n).
Proof. intros n. unfold exact_pair, fmt_of. destruct (Z.eqb_spec n 64); auto. Qed.
Lemma fmt_of_not32 : forall n, fmt_of n <> f32.
Proof. intros n. unfold fmt_of. destruct (n =? 64)%Z; discriminate. Qed.
Lemma fmt_of_prec : forall n, std_width n -> (n - 4 <= fprec (fmt_of n))%Z.
Proof. intros n [-> | [-> | [-> | ->]]]; vm_compute; discriminate. Qed.

(** the value of an operand *)
Definition operand (n : Z) (x : R) : Prop :=
  grid n x /\ FF (fmt_of n) x /\ (x <> 0 -> bpow radix2 (-255) <= Rabs x <= bpow radix2 256).

Lemma operand_value : forall n t x, std_width n -> is_intn n t -> value Linear n t = Some x -> operand n x.
Proof.
  intros n t x Hw It E. pose proof (std_range n Hw) as Hn. destruct (takum_cases n t It) as [-> | [-> | Hr]].
  - rewrite value_0 in E. injection E as <-. split; [left; reflexivity|]. split; [apply generic_format_0|]. tauto.
  - rewrite value_nar in E by lia. discriminate.
  - rewrite lin_value in E by (assumption || lia). injection E as <-.
    pose proof (real_low_pos n t ltac:(lia) Hr) as Hu.
    assert (exists v, (0 < v < 2 ^ (n - 1))%Z /\ l_ n t = cpm n v) as (v & Hv & Ev).
    { rewrite l_sg_cpm by (assumption || lia). unfold sg. destruct (t <? 0)%Z.
      - destruct (cpm_neg_ex n (low n t) ltac:(lia) Hu) as (v & Hv & Ev). exists v. rewrite Ev. split; [assumption|ring].
      - exists (low n t). split; [assumption|ring]. }
    assert (Rabs (sg (t <? 0)%Z * Lin (l_ n t)) = Lin (cpm n v)) as EA.
    { rewrite Rabs_mult, sg_abs, Rmult_1_l, Ev. apply Rabs_pos_eq. left. apply Lin_pos. }
    split; [right; exists v; auto|]. split.
    + apply FF_lin_value; [lia|apply fmt_of_not32|apply fmt_of_prec; assumption|assumption].
    + intros _. pose proof (lin_value_bound n t ltac:(lia) Hr) as [_ B2]. split; [|exact B2]. rewrite EA.
      rewrite <- (Lin_bpow (-255)). apply Lin_le. apply cpm_bounds; lia.
Qed.

Lemma lin_operand : forall n h t, std_width n -> linear_to_float n (fmt_of n) h -> is_intn n t ->
  exists y, h t = Val y /\ match value Linear n t with
    | Some x => isf y x /\ operand n x /\ (x = 0 -> y = B754_zero false) | None => y = B754_nan end.
Proof.
  intros n h t Hw H It. destruct (lin_to_exact n (fmt_of n) h t H (fmt_of_exact n) It) as (y & Ey & K).
  exists y. split; [assumption|]. destruct (value Linear n t) as [x|] eqn:E; [|assumption].
  destruct K as (K1 & K2 & K3). split; [split; assumption|]. split; [apply (operand_value n t); assumption|assumption].
Qed.

(** ** Results *)
Lemma isf_zero : forall F (y : flt F), isf y 0 -> exists s, y = B754_zero s.
Proof.
  intros F y [Fy E]. destruct y as [s|s| |s m e He]; try discriminate; [exists s; reflexivity|].
  exfalso. cbn in E. apply eq_0_F2R in E. destruct s; discriminate.
Qed.

Lemma intn_0 : forall n, (1 <= n)%Z -> is_intn n 0.
Proof. intros n Hn. assert (0 < 2 ^ (n - 1))%Z by (apply Z.pow_pos_nonneg; lia). unfold is_intn. lia. Qed.

Lemma res_nar : forall n F g (y : flt F), linear_from_float n F g -> is_finite y = false -> g y = Val (nar n).
Proof.
  intros n F g y H Hy. destruct (linear_from_form _ _ _ H) as (_ & _ & _ & _ & _ & Hi & Hna).
  destruct y as [s|s| |s m e He]; try discriminate; [apply Hi|apply Hna].
Qed.

Lemma nar_intn : forall n, (1 <= n)%Z -> is_intn n (nar n).
Proof. intros n Hn. assert (0 < 2 ^ (n - 1))%Z by (apply Z.pow_pos_nonneg; lia). unfold is_intn, nar. lia. Qed.

Lemma res_faithful : forall n F g Rd (y : flt F) z, linear_from_float n F g -> rd_ok n Rd -> isf y (Rd z) -> (z <> 0 -> Rd z <> 0) ->
  exists t, g y = Val t /\ is_intn n t /\ rounds_faithfully Linear n z t.
Proof.
  intros n F g Rd y z H HR Hy Hne. pose proof (std_range n (from_std _ _ _ H)) as Hn. destruct (Req_dec z 0) as [-> | Hz].
  - rewrite (rd_0 _ _ HR) in Hy. destruct (isf_zero _ _ Hy) as [s ->].
    destruct (linear_from_form _ _ _ H) as (_ & _ & _ & _ & Hz & _). rewrite Hz. exists 0%Z. split; [reflexivity|].
    split; [apply intn_0; lia|]. left. auto.
  - apply (op_faithful n F g Rd y z); auto.
Qed.

Lemma res_rounds : forall n c g Rd (y : flt f64) z, (n = 8 \/ n = 16 \/ n = 32)%Z -> linear_from_float n f64 g -> rd_ok n Rd ->
  rd_near n c Rd -> (53 <= c)%Z -> (n = 32%Z -> c = 54%Z) -> isf y (Rd z) -> (z <> 0 -> Rd z <> 0) ->
  (z <> 0 -> forall u, (0 < u < umax n)%Z -> Rabs (Rabs z - halfway n u) <= bpow radix2 (hexp n u - Qn n) -> Rabs z = halfway n u) ->
  exists t, g y = Val t /\ is_intn n t /\ rounds Linear n z t.
Proof.
  intros n c g Rd y z H8 H HR HN Hc Hc32 Hy Hne Hgap. destruct (Req_dec z 0) as [-> | Hz].
  - rewrite (rd_0 _ _ HR) in Hy. destruct (isf_zero _ _ Hy) as [s ->].
    destruct (linear_from_form _ _ _ H) as (_ & _ & _ & _ & Hz & _). rewrite Hz. exists 0%Z. split; [reflexivity|].
    split; [apply intn_0; lia|]. left. auto.
  - apply (op_rounds n H8 c g Rd y z); auto.
Qed.

(** ** Bounds *)
Lemma RF_nonzero : forall F z, F <> f32 -> bpow radix2 (-600) <= Rabs z -> RF F z <> 0.
Proof.
  intros F z HF Hz E. assert (bpow radix2 (-600) <= Rabs (RF F z)) as K.
  { apply abs_round_ge_generic; [apply fexpo_valid|apply valid_rnd_N| |assumption]. apply FF_bpow.
    destruct F; [contradiction| | |]; unfold femin; simpl; lia. }
  rewrite E, Rabs_R0 in K. pose proof (bpow_gt_0 radix2 (-600)). lra.
Qed.
Lemma RF_no_overflow : forall F z, F <> f32 -> Rabs z <= bpow radix2 600 -> Rabs (RF F z) < bpow radix2 (femax F).
Proof.
  intros F z HF Hz. apply (RF_lt_emax F z 600); [|assumption]. destruct F; [contradiction| | |]; unfold femin; simpl; lia.
Qed.

Lemma operand_abs : forall n x, operand n x -> Rabs x <= bpow radix2 256.
Proof.
  intros n x (_ & _ & B). destruct (Req_dec x 0) as [-> | H]; [rewrite Rabs_R0; apply bpow_ge_0|apply B; assumption].
Qed.
Lemma operand_grid : forall n x, operand n x -> grid n x.
Proof. intros n x H. apply H. Qed.

Lemma plus_bound : forall n a b, operand n a -> operand n b -> Rabs (a + b) <= bpow radix2 600.
Proof.
  intros n a b Ha Hb. apply operand_abs in Ha. apply operand_abs in Hb.
  eapply Rle_trans; [apply Rabs_triang|]. apply Rle_trans with (bpow radix2 257); [|apply bpow_le; lia].
  rewrite (half_pow 257). change (257 - 1)%Z with 256%Z. lra.
Qed.
Lemma plus_nonzero : forall n a b, operand n a -> operand n b -> a + b <> 0 -> RF (fmt_of n) (a + b) <> 0.
Proof.
  intros n a b Ha Hb H. assert (Exp_not_FTZ (fexpo (fmt_of n))) as T.
  { change (Exp_not_FTZ (FLT_exp (femin (fmt_of n)) (fprec (fmt_of n)))). apply monotone_exp_not_FTZ; [apply FLT_exp_valid; apply fprec_gt_0|apply FLT_exp_monotone]. }
  apply (round_plus_neq_0 radix2 (fexpo (fmt_of n)) ZnearestE); [apply Ha|apply Hb|assumption].
Qed.
Lemma operand_opp : forall n a, operand n a -> operand n (- a).
Proof.
  intros n a (A & B & C). split; [|split].
  - destruct A as [-> | (u & Hu & E)]; [left; ring|right; exists u; rewrite Rabs_Ropp; auto].
  - apply generic_format_opp. assumption.
  - intros H. rewrite Rabs_Ropp. apply C. intros ->. apply H. ring.
Qed.
Lemma mult_bounds : forall n a b, operand n a -> operand n b ->
  Rabs (a * b) <= bpow radix2 600 /\ (a * b <> 0 -> bpow radix2 (-600) <= Rabs (a * b)).
Proof.
  intros n a b Ha Hb. rewrite Rabs_mult. split.
  - apply operand_abs in Ha. apply operand_abs in Hb. apply Rle_trans with (bpow radix2 256 * bpow radix2 256).
    + apply Rmult_le_compat; auto using Rabs_pos.
    + rewrite <- bpow_plus. apply bpow_le. lia.
  - intros H. destruct Ha as (_ & _ & Ha), Hb as (_ & _ & Hb).
    assert (a <> 0) as Na by (intros ->; apply H; ring). assert (b <> 0) as Nb by (intros ->; apply H; ring).
    apply Rle_trans with (bpow radix2 (-255) * bpow radix2 (-255)).
    + rewrite <- bpow_plus. apply bpow_le. lia.
    + apply Rmult_le_compat; try apply bpow_ge_0; [apply Ha|apply Hb]; assumption.
Qed.
Lemma div_bounds : forall n a b, operand n a -> operand n b -> b <> 0 ->
  Rabs (a / b) <= bpow radix2 600 /\ (a / b <> 0 -> bpow radix2 (-600) <= Rabs (a / b)).
Proof.
  intros n a b Ha Hb Nb. unfold Rdiv. rewrite Rabs_mult, (Rabs_inv b). pose proof (operand_abs n a Ha) as Ua.
  destruct Hb as (_ & _ & Hb). specialize (Hb Nb). pose proof (bpow_gt_0 radix2 (-255)) as P0. pose proof (bpow_gt_0 radix2 256) as P1.
  assert (/ Rabs b <= bpow radix2 255) as I1.
  { change 255%Z with (- -255)%Z. rewrite bpow_opp. apply Rinv_le; lra. }
  assert (bpow radix2 (-256) <= / Rabs b) as I2.
  { change (-256)%Z with (- (256))%Z. rewrite bpow_opp. apply Rinv_le; lra. }
  split.
  - apply Rle_trans with (bpow radix2 256 * bpow radix2 255).
    + apply Rmult_le_compat; auto using Rabs_pos. left. apply Rinv_0_lt_compat. lra.
    + rewrite <- bpow_plus. apply bpow_le. lia.
  - intros H. destruct Ha as (_ & _ & Ha). assert (a <> 0) as Na by (intros ->; apply H; ring).
    apply Rle_trans with (bpow radix2 (-255) * bpow radix2 (-256)).
    + rewrite <- bpow_plus. apply bpow_le. lia.
    + apply Rmult_le_compat; try apply bpow_ge_0; [apply Ha; assumption|assumption].
Qed.
Lemma sqrt_bounds : forall n a, operand n a -> 0 < a ->
  Rabs (sqrt a) <= bpow radix2 600 /\ bpow radix2 (-600) <= Rabs (sqrt a).
Proof.
  intros n a (_ & _ & Ha) Pa. specialize (Ha ltac:(lra)). rewrite Rabs_pos_eq in Ha by lra.
  rewrite Rabs_pos_eq by apply sqrt_pos. pose proof (bpow_ge_0 radix2 (-255)).
  assert (forall e, sqrt (bpow radix2 (2 * e)) = bpow radix2 e) as E.
  { intros e. replace (2 * e)%Z with (e + e)%Z by lia. rewrite bpow_plus. apply sqrt_square, bpow_ge_0. }
  split.
  - rewrite <- E. apply sqrt_le_1_alt. apply Rle_trans with (bpow radix2 256); [apply Ha|apply bpow_le; lia].
  - rewrite <- E. apply sqrt_le_1_alt. apply Rle_trans with (bpow radix2 (-255)); [apply bpow_le; lia|apply Ha].
Qed.

Lemma isf_fsqrt : forall F (x : flt F) a, isf x a -> 0 < a -> isf (fsqrt x) (RF F (sqrt a)).
Proof.
  intros F x a [Fx <-] Pa. pose proof (Bsqrt_correct _ _ _ _ mode_NE x) as (H1 & H2 & _). split; [|exact H1].
  unfold fsqrt. rewrite H2. destruct x as [s|s| |s m e He]; try discriminate; cbn in *; [lra|].
  destruct s; [|reflexivity]. exfalso. assert (F2R (Float radix2 (Z.neg m) e) < 0) by (apply F2R_lt_0; reflexivity). simpl in *. lra.
Qed.

Lemma fsqrt_neg : forall F (x : flt F) a, isf x a -> a < 0 -> fsqrt x = B754_nan.
Proof.
  intros F x a [Fx <-] Pa. destruct x as [s|s| |s m e He]; try discriminate; cbn in *; [lra|].
  destruct s; [reflexivity|]. exfalso. assert (0 < F2R (Float radix2 (Z.pos m) e)) by (apply F2R_gt_0; reflexivity). simpl in *. lra.
Qed.

(** ** The binary operations *)
Definition result (R : kind -> Z -> R -> Z -> Prop) n z (r : outcome Z) := exists t, r = Val t /\ is_intn n t /\ R Linear n z t.

Lemma nan_l : forall F (y : flt F), fadd B754_nan y = B754_nan /\ fsub B754_nan y = B754_nan /\ fmul B754_nan y = B754_nan /\ fdiv B754_nan y = B754_nan.
Proof. intros F []; repeat split; reflexivity. Qed.
Lemma nan_r : forall F (y : flt F), fadd y B754_nan = B754_nan /\ fsub y B754_nan = B754_nan /\ fmul y B754_nan = B754_nan /\ fdiv y B754_nan = B754_nan.
Proof. intros F []; repeat split; reflexivity. Qed.

Lemma std_or : forall n, std_width n -> n <> 64%Z -> (n = 8 \/ n = 16 \/ n = 32)%Z.
Proof. intros n [-> | [-> | [-> | ->]]]; auto. tauto. Qed.

Section Binary.
Variable op : forall F, flt F -> flt F -> flt F.
Variable z : R -> R -> R.
Variable ok : R -> Prop.  (** admissible second operands *)
Hypothesis op_nan : forall F (y : flt F), op F B754_nan y = B754_nan /\ op F y B754_nan = B754_nan.
Hypothesis op_isf : forall n x y a b, operand n a -> operand n b -> ok b -> isf x a -> isf y b ->
  isf (op (fmt_of n) x y) (RF (fmt_of n) (z a b)).
Hypothesis op_bad : forall n (x y : flt (fmt_of n)) a b, ~ ok b -> isf x a -> isf y b -> (b = 0 -> y = B754_zero false) -> is_finite (op (fmt_of n) x y) = false.
Hypothesis z_nonzero : forall n a b, operand n a -> operand n b -> ok b -> z a b <> 0 -> RF (fmt_of n) (z a b) <> 0.
Hypothesis ok_dec : forall b, ok b \/ ~ ok b.

Lemma binary_faithful : forall w a b, is_intn (bits w) a -> is_intn (bits w) b ->
  exists t, binary_lin x86_64 (op f64) (op f80) fix2_none w a b = Val t /\ is_intn (bits w) t /\
    match value Linear (bits w) a, value Linear (bits w) b with
    | Some x, Some y => (~ ok y /\ t = nar (bits w)) \/ (ok y /\ rounds_faithfully Linear (bits w) (z x y) t)
    | _, _ => t = nar (bits w)
    end.
Proof.
  intros w a b Ia Ib. destruct (binary_io op w) as (h & g & Hh & Hg & E). rewrite E. clear E.
  assert (std_width (bits w)) as Hw by (destruct w; [left|right; left|right; right; left|right; right; right]; reflexivity).
  pose proof (std_range _ Hw) as Hr. set (n := bits w) in *.
  destruct (lin_operand n h a Hw Hh Ia) as (x & Ex & Kx). destruct (lin_operand n h b Hw Hh Ib) as (y & Ey & Ky).
  rewrite Ex. cbv beta iota delta [bind]. rewrite Ey.
  assert (forall r, is_finite r = false -> exists t, g r = Val t /\ is_intn n t /\ t = nar n) as N.
  { intros r Hf. exists (nar n). split; [apply (res_nar n (fmt_of n)); assumption|]. split; [apply nar_intn; lia|reflexivity]. }
  destruct (value Linear n a) as [va|].
  - destruct (value Linear n b) as [vb|].
    + destruct Kx as (Fx & Ox & _), Ky as (Fy & Oy & Zy). destruct (ok_dec vb) as [O|O].
      * destruct (res_faithful n (fmt_of n) g (RF (fmt_of n)) (op (fmt_of n) x y) (z va vb) Hg) as (t & T1 & T2 & T3).
        -- apply rd_RF; [lia|apply fmt_of_not32|apply fmt_of_prec; assumption].
        -- apply op_isf; assumption.
        -- apply z_nonzero; assumption.
        -- exists t. auto.
      * destruct (N (op (fmt_of n) x y)) as (t & T1 & T2 & T3); [apply (op_bad n x y va vb); assumption|]. exists t. auto.
    + rewrite Ky. rewrite (proj2 (op_nan _ x)). apply N. reflexivity.
  - rewrite Kx. rewrite (proj1 (op_nan _ y)). apply N. reflexivity.
Qed.

Variable widths : Z -> Prop.
Hypothesis widths_ok : forall n, widths n -> (n = 8 \/ n = 16 \/ n = 32)%Z.
Hypothesis gap : forall n a b u, widths n -> grid n a -> grid n b -> ok b -> z a b <> 0 -> (0 < u < umax n)%Z ->
  Rabs (Rabs (z a b) - halfway n u) <= bpow radix2 (hexp n u - Qn n) -> Rabs (z a b) = halfway n u.

Lemma binary_rounds : forall w a b, widths (bits w) -> is_intn (bits w) a -> is_intn (bits w) b ->
  exists t, binary_lin x86_64 (op f64) (op f80) fix2_none w a b = Val t /\ is_intn (bits w) t /\
    match value Linear (bits w) a, value Linear (bits w) b with
    | Some x, Some y => (~ ok y /\ t = nar (bits w)) \/ (ok y /\ rounds Linear (bits w) (z x y) t)
    | _, _ => t = nar (bits w)
    end.
Proof.
  intros w a b Wn Ia Ib. destruct (binary_io op w) as (h & g & Hh & Hg & E). rewrite E. clear E.
  assert (std_width (bits w)) as Hw by (destruct w; [left|right; left|right; right; left|right; right; right]; reflexivity).
  pose proof (std_range _ Hw) as Hr. set (n := bits w) in *. pose proof (widths_ok n Wn) as H8.
  destruct (lin_operand n h a Hw Hh Ia) as (x & Ex & Kx). destruct (lin_operand n h b Hw Hh Ib) as (y & Ey & Ky).
  rewrite Ex. cbv beta iota delta [bind]. rewrite Ey.
  assert (forall r, is_finite r = false -> exists t, g r = Val t /\ is_intn n t /\ t = nar n) as N.
  { intros r Hf. exists (nar n). split; [apply (res_nar n (fmt_of n)); assumption|]. split; [apply nar_intn; lia|reflexivity]. }
  destruct (value Linear n a) as [va|].
  - destruct (value Linear n b) as [vb|].
    + destruct Kx as (Fx & Ox & _), Ky as (Fy & Oy & Zy). destruct (ok_dec vb) as [O|O].
      * pose proof (op_isf n x y va vb Ox Oy O Fx Fy) as Hi. pose proof (z_nonzero n va vb Ox Oy O) as Hnz.
        assert (fmt_of n = f64) as EF by (unfold fmt_of; destruct (Z.eqb_spec n 64); [lia|reflexivity]).
        clear Fx Fy Zy Ex Ey N Hh.
        revert g Hg Hi Hnz. generalize (op (fmt_of n) x y). rewrite EF. intros r g Hg Hi Hnz.
        destruct (res_rounds n 54 g (RF f64) r (z va vb) H8 Hg) as (t & T1 & T2 & T3); auto.
        -- apply rd_RF; [lia|discriminate|rewrite <- EF; apply fmt_of_prec; assumption].
        -- apply near_RF64. assumption.
        -- lia.
        -- intros Hz u Hu. apply gap; auto using operand_grid.
        -- exists t. auto.
      * destruct (N (op (fmt_of n) x y)) as (t & T1 & T2 & T3); [apply (op_bad n x y va vb); assumption|]. exists t. auto.
    + rewrite Ky. rewrite (proj2 (op_nan _ x)). apply N. reflexivity.
  - rewrite Kx. rewrite (proj1 (op_nan _ y)). apply N. reflexivity.
Qed.
End Binary.

(** ** The four binary operations and the two unary ones *)
Definition lin_op (f : Z -> Z -> outcome Z) n (op : forall F, flt F -> flt F -> flt F) : Prop :=
  exists w, n = bits w /\ f = binary_lin x86_64 (op f64) (op f80) fix2_none w.
Lemma add_op : forall n f, linear_addition n f -> lin_op f n (@fadd).
Proof. intros n f []; [exists W8|exists W16|exists W32|exists W64]; split; reflexivity. Qed.
Lemma sub_op : forall n f, linear_subtraction n f -> lin_op f n (@fsub).
Proof. intros n f []; [exists W8|exists W16|exists W32|exists W64]; split; reflexivity. Qed.
Lemma mul_op : forall n f, linear_multiplication n f -> lin_op f n (@fmul).
Proof. intros n f []; [exists W8|exists W16|exists W32|exists W64]; split; reflexivity. Qed.
Lemma div_op : forall n f, linear_division n f -> lin_op f n (@fdiv).
Proof. intros n f []; [exists W8|exists W16|exists W32|exists W64]; split; reflexivity. Qed.

Definition anyR (_ : R) : Prop := True.
Definition nonzero (y : R) : Prop := y <> 0.
Lemma anyR_dec : forall b, anyR b \/ ~ anyR b. Proof. left. exact I. Qed.
Lemma nonzero_dec : forall b, nonzero b \/ ~ nonzero b.
Proof. intros b. unfold nonzero. destruct (Req_dec b 0); [right; tauto|left; assumption]. Qed.

Lemma fadd_nan : forall F (y : flt F), fadd B754_nan y = B754_nan /\ fadd y B754_nan = B754_nan.
Proof. intros F []; split; reflexivity. Qed.
Lemma fsub_nan : forall F (y : flt F), fsub B754_nan y = B754_nan /\ fsub y B754_nan = B754_nan.
Proof. intros F []; split; reflexivity. Qed.
Lemma fmul_nan : forall F (y : flt F), fmul B754_nan y = B754_nan /\ fmul y B754_nan = B754_nan.
Proof. intros F []; split; reflexivity. Qed.
Lemma fdiv_nan : forall F (y : flt F), fdiv B754_nan y = B754_nan /\ fdiv y B754_nan = B754_nan.
Proof. intros F []; split; reflexivity. Qed.

Lemma fadd_isf : forall n x y a b, operand n a -> operand n b -> anyR b -> isf x a -> isf y b ->
  isf (@fadd (fmt_of n) x y) (RF (fmt_of n) (a + b)).
Proof.
  intros n x y a b Ha Hb _ Hx Hy. apply isf_fadd; auto. apply RF_no_overflow; [apply fmt_of_not32|].
  apply (plus_bound n); assumption.
Qed.
Lemma fsub_isf : forall n x y a b, operand n a -> operand n b -> anyR b -> isf x a -> isf y b ->
  isf (@fsub (fmt_of n) x y) (RF (fmt_of n) (a - b)).
Proof.
  intros n x y a b Ha Hb _ Hx Hy. apply isf_fsub; auto. apply RF_no_overflow; [apply fmt_of_not32|].
  apply (plus_bound n); [|apply operand_opp]; assumption.
Qed.
Lemma fmul_isf : forall n x y a b, operand n a -> operand n b -> anyR b -> isf x a -> isf y b ->
  isf (@fmul (fmt_of n) x y) (RF (fmt_of n) (a * b)).
Proof.
  intros n x y a b Ha Hb _ Hx Hy. apply isf_fmul; auto. apply RF_no_overflow; [apply fmt_of_not32|].
  apply (mult_bounds n); assumption.
Qed.
Lemma fdiv_isf : forall n x y a b, operand n a -> operand n b -> nonzero b -> isf x a -> isf y b ->
  isf (@fdiv (fmt_of n) x y) (RF (fmt_of n) (a / b)).
Proof.
  intros n x y a b Ha Hb O Hx Hy. apply isf_fdiv; auto. apply RF_no_overflow; [apply fmt_of_not32|].
  apply (div_bounds n); assumption.
Qed.
Lemma any_bad : forall (op : forall F, flt F -> flt F -> flt F) n (x y : flt (fmt_of n)) a b, ~ anyR b -> isf x a -> isf y b ->
  (b = 0 -> y = B754_zero false) -> is_finite (op (fmt_of n) x y) = false.
Proof. intros op n x y a b H. exfalso. apply H. exact I. Qed.
Lemma div_bad : forall n (x y : flt (fmt_of n)) a b, ~ nonzero b -> isf x a -> isf y b ->
  (b = 0 -> y = B754_zero false) -> is_finite (@fdiv (fmt_of n) x y) = false.
Proof.
  intros n x y a b H Hx Hy Zy. unfold nonzero in H. assert (b = 0) as E by (destruct (Req_dec b 0); tauto). rewrite (Zy E).
  destruct Hx as [Fx _]. destruct x; try discriminate; reflexivity.
Qed.
Lemma plus_nz : forall n a b, operand n a -> operand n b -> anyR b -> a + b <> 0 -> RF (fmt_of n) (a + b) <> 0.
Proof. intros n a b Ha Hb _. apply plus_nonzero; assumption. Qed.
Lemma minus_nz : forall n a b, operand n a -> operand n b -> anyR b -> a - b <> 0 -> RF (fmt_of n) (a - b) <> 0.
Proof. intros n a b Ha Hb _. apply plus_nonzero; [|apply operand_opp]; assumption. Qed.
Lemma mult_nz : forall n a b, operand n a -> operand n b -> anyR b -> a * b <> 0 -> RF (fmt_of n) (a * b) <> 0.
Proof. intros n a b Ha Hb _ H. apply RF_nonzero; [apply fmt_of_not32|]. apply (mult_bounds n); assumption. Qed.
Lemma div_nz : forall n a b, operand n a -> operand n b -> nonzero b -> a / b <> 0 -> RF (fmt_of n) (a / b) <> 0.
Proof. intros n a b Ha Hb O H. apply RF_nonzero; [apply fmt_of_not32|]. apply (div_bounds n); assumption. Qed.

Definition result2 (f : Z -> Z -> outcome Z) n (P : R -> R -> Z -> Prop) : Prop :=
  forall a b, is_intn n a -> is_intn n b ->
    exists t, f a b = Val t /\ is_intn n t /\
      match value Linear n a, value Linear n b with Some x, Some y => P x y t | _, _ => t = nar n end.

Lemma add_faithful : forall n f, linear_addition n f -> result2 f n (fun x y t => rounds_faithfully Linear n (x + y) t).
Proof.
  intros n f H a b Ia Ib. destruct (add_op n f H) as (w & -> & ->).
  destruct (binary_faithful (@fadd) Rplus anyR fadd_nan fadd_isf (any_bad _) plus_nz anyR_dec w a b Ia Ib) as (t & E & I & K).
  exists t. split; [assumption|]. split; [assumption|].
  destruct (value Linear (bits w) a), (value Linear (bits w) b); auto. destruct K as [[K _]|[_ K]]; [exfalso; apply K; exact Logic.I|assumption].
Qed.
Lemma sub_faithful : forall n f, linear_subtraction n f -> result2 f n (fun x y t => rounds_faithfully Linear n (x - y) t).
Proof.
  intros n f H a b Ia Ib. destruct (sub_op n f H) as (w & -> & ->).
  destruct (binary_faithful (@fsub) Rminus anyR fsub_nan fsub_isf (any_bad _) minus_nz anyR_dec w a b Ia Ib) as (t & E & I & K).
  exists t. split; [assumption|]. split; [assumption|].
  destruct (value Linear (bits w) a), (value Linear (bits w) b); auto. destruct K as [[K _]|[_ K]]; [exfalso; apply K; exact Logic.I|assumption].
Qed.
Lemma mul_lin_faithful : forall n f, linear_multiplication n f -> result2 f n (fun x y t => rounds_faithfully Linear n (x * y) t).
Proof.
  intros n f H a b Ia Ib. destruct (mul_op n f H) as (w & -> & ->).
  destruct (binary_faithful (@fmul) Rmult anyR fmul_nan fmul_isf (any_bad _) mult_nz anyR_dec w a b Ia Ib) as (t & E & I & K).
  exists t. split; [assumption|]. split; [assumption|].
  destruct (value Linear (bits w) a), (value Linear (bits w) b); auto. destruct K as [[K _]|[_ K]]; [exfalso; apply K; exact Logic.I|assumption].
Qed.
Lemma not_nonzero : forall y, ~ nonzero y -> y = 0.
Proof. unfold nonzero. intros y H. destruct (Req_dec y 0); tauto. Qed.
Lemma div_lin_faithful : forall n f, linear_division n f ->
  result2 f n (fun x y t => (y = 0 /\ t = nar n) \/ (y <> 0 /\ rounds_faithfully Linear n (x / y) t)).
Proof.
  intros n f H a b Ia Ib. destruct (div_op n f H) as (w & -> & ->).
  destruct (binary_faithful (@fdiv) Rdiv nonzero fdiv_nan fdiv_isf div_bad div_nz nonzero_dec w a b Ia Ib) as (t & E & I & K).
  exists t. split; [assumption|]. split; [assumption|].
  destruct (value Linear (bits w) a), (value Linear (bits w) b); auto. destruct K as [[K Kt]|K]; [left; split; [apply not_nonzero|]|right]; assumption.
Qed.

Definition w32 (n : Z) : Prop := (n = 8 \/ n = 16 \/ n = 32)%Z.
Definition w16 (n : Z) : Prop := (n = 8 \/ n = 16)%Z.
Lemma w16_w32 : forall n, w16 n -> (n = 8 \/ n = 16 \/ n = 32)%Z. Proof. unfold w16. tauto. Qed.

Lemma add_gap : forall n a b u, w32 n -> grid n a -> grid n b -> anyR b -> a + b <> 0 -> (0 < u < umax n)%Z ->
  Rabs (Rabs (a + b) - halfway n u) <= bpow radix2 (hexp n u - Qn n) -> Rabs (a + b) = halfway n u.
Proof. intros n a b u Hn Ha Hb _ _. apply sum_gap; assumption. Qed.
Lemma sub_gap : forall n a b u, w32 n -> grid n a -> grid n b -> anyR b -> a - b <> 0 -> (0 < u < umax n)%Z ->
  Rabs (Rabs (a - b) - halfway n u) <= bpow radix2 (hexp n u - Qn n) -> Rabs (a - b) = halfway n u.
Proof. intros n a b u Hn Ha Hb _ _. apply sum_gap; [assumption|assumption|apply grid_opp; assumption]. Qed.
Lemma mul_gap : forall n a b u, w16 n -> grid n a -> grid n b -> anyR b -> a * b <> 0 -> (0 < u < umax n)%Z ->
  Rabs (Rabs (a * b) - halfway n u) <= bpow radix2 (hexp n u - Qn n) -> Rabs (a * b) = halfway n u.
Proof.
  intros n a b u Hn Ha Hb _ H. apply prod_gap; [apply w16_w32; assumption|assumption|assumption|assumption| |];
    intros ->; apply H; ring.
Qed.
Lemma div_gap : forall n a b u, w16 n -> grid n a -> grid n b -> nonzero b -> a / b <> 0 -> (0 < u < umax n)%Z ->
  Rabs (Rabs (a / b) - halfway n u) <= bpow radix2 (hexp n u - Qn n) -> Rabs (a / b) = halfway n u.
Proof.
  intros n a b u Hn Ha Hb O H. apply quot_gap; [apply w16_w32; assumption|assumption|assumption|assumption| |assumption].
  intros ->. apply H. unfold Rdiv. ring.
Qed.

Lemma add_lin_correct : forall n f, linear_addition n f -> n <> 64%Z -> result2 f n (fun x y t => rounds Linear n (x + y) t).
Proof.
  intros n f H Hn a b Ia Ib. destruct (add_op n f H) as (w & -> & ->).
  assert (w32 (bits w)) as Hw by (unfold w32; destruct w; auto; contradiction).
  destruct (binary_rounds (@fadd) Rplus anyR fadd_nan fadd_isf (any_bad _) plus_nz anyR_dec w32 (fun _ h => h) add_gap w a b Hw Ia Ib) as (t & E & I & K).
  exists t. split; [assumption|]. split; [assumption|].
  destruct (value Linear (bits w) a), (value Linear (bits w) b); auto. destruct K as [[K _]|[_ K]]; [exfalso; apply K; exact Logic.I|assumption].
Qed.
Lemma sub_lin_correct : forall n f, linear_subtraction n f -> n <> 64%Z -> result2 f n (fun x y t => rounds Linear n (x - y) t).
Proof.
  intros n f H Hn a b Ia Ib. destruct (sub_op n f H) as (w & -> & ->).
  assert (w32 (bits w)) as Hw by (unfold w32; destruct w; auto; contradiction).
  destruct (binary_rounds (@fsub) Rminus anyR fsub_nan fsub_isf (any_bad _) minus_nz anyR_dec w32 (fun _ h => h) sub_gap w a b Hw Ia Ib) as (t & E & I & K).
  exists t. split; [assumption|]. split; [assumption|].
  destruct (value Linear (bits w) a), (value Linear (bits w) b); auto. destruct K as [[K _]|[_ K]]; [exfalso; apply K; exact Logic.I|assumption].
Qed.
Lemma mul_lin_correct : forall n f, linear_multiplication n f -> (n = 8 \/ n = 16)%Z -> result2 f n (fun x y t => rounds Linear n (x * y) t).
Proof.
  intros n f H Hn a b Ia Ib. destruct (mul_op n f H) as (w & -> & ->).
  destruct (binary_rounds (@fmul) Rmult anyR fmul_nan fmul_isf (any_bad _) mult_nz anyR_dec w16 w16_w32 mul_gap w a b Hn Ia Ib) as (t & E & I & K).
  exists t. split; [assumption|]. split; [assumption|].
  destruct (value Linear (bits w) a), (value Linear (bits w) b); auto. destruct K as [[K _]|[_ K]]; [exfalso; apply K; exact Logic.I|assumption].
Qed.
Lemma div_lin_correct : forall n f, linear_division n f -> (n = 8 \/ n = 16)%Z ->
  result2 f n (fun x y t => (y = 0 /\ t = nar n) \/ (y <> 0 /\ rounds Linear n (x / y) t)).
Proof.
  intros n f H Hn a b Ia Ib. destruct (div_op n f H) as (w & -> & ->).
  destruct (binary_rounds (@fdiv) Rdiv nonzero fdiv_nan fdiv_isf div_bad div_nz nonzero_dec w16 w16_w32 div_gap w a b Hn Ia Ib) as (t & E & I & K).
  exists t. split; [assumption|]. split; [assumption|].
  destruct (value Linear (bits w) a), (value Linear (bits w) b); auto. destruct K as [[K Kt]|K]; [left; split; [apply not_nonzero|]|right]; assumption.
Qed.

(** ** Square root *)
Definition result1 (f : Z -> outcome Z) n (P : R -> Z -> Prop) : Prop :=
  forall a, is_intn n a -> exists t, f a = Val t /\ is_intn n t /\
      match value Linear n a with Some x => P x t | _ => t = nar n end.

Lemma w_std : forall w, std_width (bits w).
Proof. intros w. destruct w; [left|right; left|right; right; left|right; right; right]; reflexivity. Qed.

Lemma sqrt_lin_form : forall n f, linear_square_root n f -> exists h g,
  linear_to_float n (fmt_of n) h /\ linear_from_float n (fmt_of n) g /\ std_width n /\
  forall a, f a = (let! x := h a in g (@fsqrt (fmt_of n) x)).
Proof.
  intros n f H. assert (exists w, n = bits w /\ f = unary_lin x86_64 fsqrt fsqrt fix1_none w) as (w & -> & ->)
    by (destruct H; [exists W8|exists W16|exists W32|exists W64]; split; reflexivity).
  destruct (unary_io (@fsqrt) w) as (h & g & H1 & H2 & H3). exists h, g. auto using w_std.
Qed.

Lemma sqrt_lin_faithful : forall n f, linear_square_root n f ->
  result1 f n (fun x t => (x < 0 /\ t = nar n) \/ (0 <= x /\ rounds_faithfully Linear n (sqrt x) t)).
Proof.
  intros n f H a Ia. destruct (sqrt_lin_form n f H) as (h & g & Hh & Hg & Hw & E). rewrite E. clear E.
  pose proof (std_range _ Hw) as Hr. destruct (lin_operand n h a Hw Hh Ia) as (x & Ex & Kx). rewrite Ex. cbv beta iota delta [bind].
  destruct (value Linear n a) as [v|].
  - destruct Kx as (Fx & Ox & Zx). destruct (Rlt_or_le v 0) as [Neg|Pos].
    + exists (nar n). rewrite (fsqrt_neg _ _ _ Fx Neg). split; [apply (res_nar n (fmt_of n)); auto|]. split; [apply nar_intn; lia|]. left. auto.
    + destruct (Req_dec v 0) as [Z0|NZ].
      * rewrite (Zx Z0), Z0. exists 0%Z. destruct (linear_from_form _ _ _ Hg) as (_ & _ & _ & _ & Hz & _).
        change (@fsqrt (fmt_of n) (B754_zero false)) with (B754_zero false : flt (fmt_of n)). rewrite Hz. split; [reflexivity|].
        split; [apply intn_0; lia|]. right. split; [lra|]. left. rewrite sqrt_0. auto.
      * assert (0 < v) as P by lra. pose proof (sqrt_bounds n v Ox P) as [B1 B2].
        destruct (res_faithful n (fmt_of n) g (RF (fmt_of n)) (fsqrt x) (sqrt v) Hg) as (t & T1 & T2 & T3).
        -- apply rd_RF; [lia|apply fmt_of_not32|apply fmt_of_prec; assumption].
        -- apply isf_fsqrt; assumption.
        -- intros _. apply RF_nonzero; [apply fmt_of_not32|assumption].
        -- exists t. auto.
  - rewrite Kx. exists (nar n). split; [apply (res_nar n (fmt_of n)); auto|]. split; [apply nar_intn; lia|reflexivity].
Qed.

Lemma sqrt_lin_correct : forall n f, linear_square_root n f -> (n = 8 \/ n = 16)%Z ->
  result1 f n (fun x t => (x < 0 /\ t = nar n) \/ (0 <= x /\ rounds Linear n (sqrt x) t)).
Proof.
  intros n f H Hn a Ia. destruct (sqrt_lin_form n f H) as (h & g & Hh & Hg & Hw & E). rewrite E. clear E.
  pose proof (std_range _ Hw) as Hr. destruct (lin_operand n h a Hw Hh Ia) as (x & Ex & Kx). rewrite Ex. cbv beta iota delta [bind].
  destruct (value Linear n a) as [v|].
  - destruct Kx as (Fx & Ox & Zx). destruct (Rlt_or_le v 0) as [Neg|Pos].
    + exists (nar n). rewrite (fsqrt_neg _ _ _ Fx Neg). split; [apply (res_nar n (fmt_of n)); auto|]. split; [apply nar_intn; lia|]. left. auto.
    + destruct (Req_dec v 0) as [Z0|NZ].
      * rewrite (Zx Z0), Z0. exists 0%Z. destruct (linear_from_form _ _ _ Hg) as (_ & _ & _ & _ & Hz & _).
        change (@fsqrt (fmt_of n) (B754_zero false)) with (B754_zero false : flt (fmt_of n)). rewrite Hz. split; [reflexivity|].
        split; [apply intn_0; lia|]. right. split; [lra|]. left. rewrite sqrt_0. auto.
      * assert (0 < v) as P by lra. pose proof (sqrt_bounds n v Ox P) as [B1 B2].
        pose proof (isf_fsqrt _ x v Fx P) as Hi. pose proof (RF_nonzero (fmt_of n) (sqrt v) (fmt_of_not32 n) B2) as Hnz.
        assert (fmt_of n = f64) as EF by (unfold fmt_of; destruct (Z.eqb_spec n 64); [lia|reflexivity]).
        clear Fx Zx Ex Hh.
        revert g Hg Hi Hnz. generalize (fsqrt x). rewrite EF. intros r g Hg Hi Hnz.
        destruct (res_rounds n 54 g (RF f64) r (sqrt v) (w16_w32 n Hn) Hg) as (t & T1 & T2 & T3); auto.
        -- apply rd_RF; [lia|discriminate|rewrite <- EF; apply fmt_of_prec; assumption].
        -- apply near_RF64. apply w16_w32. assumption.
        -- lia.
        -- intros Hz u Hu. apply sqrt_gap; auto using w16_w32. apply Ox.
        -- exists t. auto.
  - rewrite Kx. exists (nar n). split; [apply (res_nar n (fmt_of n)); auto|]. split; [apply nar_intn; lia|reflexivity].
Qed.

(** ** Inversion: computed in long double and rounded to double for the
    widths up to 32 bits *)
Definition inv_rd (n : Z) : R -> R := if (n =? 64)%Z then RF f80 else fun x => RF f64 (RF f80 x).

Lemma RF80_abs_ge : forall z, bpow radix2 (-600) <= Rabs z -> bpow radix2 (-600) <= Rabs (RF f80 z).
Proof.
  intros z Hz. apply abs_round_ge_generic; [apply fexpo_valid|apply valid_rnd_N| |assumption]. apply FF_bpow. unfold femin; simpl; lia.
Qed.
Lemma RF80_abs_le : forall z, Rabs z <= bpow radix2 600 -> Rabs (RF f80 z) <= bpow radix2 600.
Proof. intros z Hz. apply RF_abs_le; [|assumption]. apply FF_bpow. unfold femin; simpl; lia. Qed.

Lemma inv_rd_ok : forall n, std_width n -> rd_ok n (inv_rd n).
Proof.
  intros n Hw. pose proof (std_range n Hw). unfold inv_rd. destruct (Z.eqb_spec n 64).
  - apply rd_RF; [lia|discriminate|]. change (fprec f80) with 64%Z. lia.
  - apply rd_comp; apply rd_RF; try lia; try discriminate; [change (fprec f80) with 64%Z; lia|].
    change (fprec f64) with 53%Z. destruct Hw as [-> | [-> | [-> | ->]]]; lia.
Qed.

Lemma inv_nonzero : forall n z, bpow radix2 (-600) <= Rabs z -> inv_rd n z <> 0.
Proof.
  intros n z H. unfold inv_rd. destruct (n =? 64)%Z; [apply RF_nonzero; [discriminate|assumption]|].
  apply RF_nonzero; [discriminate|]. apply RF80_abs_ge. assumption.
Qed.

Lemma isf_1 : forall F, isf (one F) 1.
Proof. intros []; (split; [reflexivity|]); unfold one, B2R, F2R; simpl; lra. Qed.

Lemma inv_lin_form : forall n f, linear_inversion n f -> exists h g (op : flt (fmt_of n) -> flt (fmt_of n)),
  linear_to_float n (fmt_of n) h /\ linear_from_float n (fmt_of n) g /\ std_width n /\
  (forall a, f a = (let! x := h a in g (op x))) /\ op B754_nan = B754_nan /\ is_finite (op (B754_zero false)) = false /\
  (forall x a, isf x a -> operand n a -> a <> 0 -> isf (op x) (inv_rd n (/ a))).
Proof.
  assert (forall n a, operand n a -> a <> 0 -> Rabs (1 / a) <= bpow radix2 600) as B.
  { intros n a (_ & _ & Ha) Na. specialize (Ha Na). unfold Rdiv. rewrite Rmult_1_l, Rabs_inv.
    apply Rle_trans with (bpow radix2 255); [|apply bpow_le; lia]. change 255%Z with (- -255)%Z. rewrite bpow_opp.
    pose proof (bpow_gt_0 radix2 (-255)). apply Rinv_le; lra. }
  assert (forall n x a, isf x a -> operand n a -> a <> 0 -> isf (inversionl x86_64 x) (RF f80 (/ a))) as I80.
  { intros n x a Hx Ha Na. unfold inversionl. replace (/ a) with (1 / a) by (unfold Rdiv; ring).
    apply (@isf_fdiv f80); [apply (isf_1 f80)|exact Hx|assumption|]. apply RF_no_overflow; [discriminate|]. apply (B n); assumption. }
  assert (forall n x a, isf x a -> operand n a -> a <> 0 -> isf (via_ld x86_64 (inversionl x86_64) x) (RF f64 (RF f80 (/ a)))) as I64.
  { intros n x a Hx Ha Na. unfold via_ld.
    assert (isf (fcast (ld x86_64) x) a) as Hc by (apply isf_fcast_up; [unfold fsub_fmt, femin; simpl; lia|assumption]).
    pose proof (I80 n _ a Hc Ha Na) as K. apply (isf_fcast f80 f64 _ _ K).
    apply RF_no_overflow; [discriminate|]. apply RF80_abs_le. replace (/ a) with (1 / a) by (unfold Rdiv; ring). apply (B n); assumption. }
  intros n f H. destruct H; do 3 eexists;
    (split; [constructor|split; [constructor|split; [first [left; reflexivity|right; left; reflexivity|right; right; left; reflexivity|right; right; right; reflexivity]|
     split; [reflexivity|split; [reflexivity|split; [vm_compute; reflexivity|]]]]]]);
    first [apply I64|apply I80].
Qed.

Lemma inv_operand_bound : forall n a, operand n a -> a <> 0 -> bpow radix2 (-600) <= Rabs (/ a).
Proof.
  intros n a (_ & _ & Ha) Na. specialize (Ha Na). rewrite Rabs_inv.
  apply Rle_trans with (bpow radix2 (-256)); [apply bpow_le; lia|]. change (-256)%Z with (- (256))%Z. rewrite bpow_opp.
  pose proof (bpow_gt_0 radix2 (-255)). pose proof (bpow_gt_0 radix2 (256)). apply Rinv_le; lra.
Qed.

Lemma inv_lin_faithful : forall n f, linear_inversion n f ->
  result1 f n (fun x t => (x = 0 /\ t = nar n) \/ (x <> 0 /\ rounds_faithfully Linear n (/ x) t)).
Proof.
  intros n f H a Ia. destruct (inv_lin_form n f H) as (h & g & op & Hh & Hg & Hw & E & Ena & Ez & Ho). rewrite E. clear E.
  pose proof (std_range _ Hw) as Hr. destruct (lin_operand n h a Hw Hh Ia) as (x & Ex & Kx). rewrite Ex. cbv beta iota delta [bind].
  destruct (value Linear n a) as [v|].
  - destruct Kx as (Fx & Ox & Zx). destruct (Req_dec v 0) as [Z0|NZ].
    + rewrite (Zx Z0). exists (nar n). split; [apply (res_nar n (fmt_of n)); auto|]. split; [apply nar_intn; lia|]. left. auto.
    + destruct (res_faithful n (fmt_of n) g (inv_rd n) (op x) (/ v) Hg) as (t & T1 & T2 & T3).
      * apply inv_rd_ok. assumption.
      * apply Ho; assumption.
      * intros _. apply inv_nonzero. apply (inv_operand_bound n); assumption.
      * exists t. auto.
  - rewrite Kx. exists (nar n). rewrite Ena. split; [apply (res_nar n (fmt_of n)); auto|]. split; [apply nar_intn; lia|reflexivity].
Qed.

Lemma one_grid : forall n, std_width n -> operand n 1.
Proof.
  intros n Hw. destruct (value_one_k Linear n Hw) as [V I]. apply (operand_value n (2 ^ (n - 2)) 1 Hw I V).
Qed.

Lemma inv_lin_correct : forall n f, linear_inversion n f -> (n = 8 \/ n = 16)%Z ->
  result1 f n (fun x t => (x = 0 /\ t = nar n) \/ (x <> 0 /\ rounds Linear n (/ x) t)).
Proof.
  intros n f H Hn a Ia. destruct (inv_lin_form n f H) as (h & g & op & Hh & Hg & Hw & E & Ena & Ez & Ho). rewrite E. clear E.
  pose proof (std_range _ Hw) as Hr. destruct (lin_operand n h a Hw Hh Ia) as (x & Ex & Kx). rewrite Ex. cbv beta iota delta [bind].
  destruct (value Linear n a) as [v|].
  - destruct Kx as (Fx & Ox & Zx). destruct (Req_dec v 0) as [Z0|NZ].
    + rewrite (Zx Z0). exists (nar n). split; [apply (res_nar n (fmt_of n)); auto|]. split; [apply nar_intn; lia|]. left. auto.
    + pose proof (Ho x v Fx Ox NZ) as Hi. pose proof (inv_nonzero n (/ v) (inv_operand_bound n v Ox NZ)) as Hnz.
      assert (fmt_of n = f64) as EF by (unfold fmt_of; destruct (Z.eqb_spec n 64); [lia|reflexivity]).
      assert (inv_rd n = fun x => RF f64 (RF f80 x)) as ER by (unfold inv_rd; destruct (Z.eqb_spec n 64); [lia|reflexivity]).
      pose proof (inv_rd_ok n Hw) as HO. rewrite ER in *.
      clear Fx Zx Ex Hh Ez Ena Ho.
      revert g Hg Hi Hnz. generalize (op x). rewrite EF. intros r g Hg Hi Hnz.
      destruct (res_rounds n 53 g (fun x => RF f64 (RF f80 x)) r (/ v) (w16_w32 n Hn) Hg) as (t & T1 & T2 & T3); auto.
      * apply near_RF80. apply w16_w32. assumption.
      * lia.
      * lia.
      * intros Hz u Hu. replace (/ v) with (1 / v) by (unfold Rdiv; ring).
        apply quot_gap; auto using w16_w32; [apply one_grid; assumption|apply Ox].
      * exists t. auto.
  - rewrite Kx. exists (nar n). rewrite Ena. split; [apply (res_nar n (fmt_of n)); auto|]. split; [apply nar_intn; lia|reflexivity].
Qed.
