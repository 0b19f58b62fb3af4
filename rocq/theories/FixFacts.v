(** Result fixers; saturation; arguments of the functions computed through
    floats. *)
From Coq Require Import ZArith Reals Bool Lia Lra Psatz.
From Flocq Require Import Core.Core IEEE754.BinarySingleNaN.
From Verif Require Import CModel FloatModel Libm LibmSpec Spec ValueFacts RoundFacts WidthFacts Conversion Wrappers LogApi LinApi WrapApi FloatFacts Machine LogFacts LinFacts LinProps LinOps LinGap LinArith LogConv WrapSpec NearCode WrapTotal FloatAcc.
Local Open Scope R_scope.

Definition good (e : R) (F : fmt) (R_ : R) (y : flt F) : Prop :=
  exists r, isf y r /\ (Rabs (r - R_) <= e * Rabs R_ \/
    0 < r * R_ /\ (bpow radix2 600 <= Rabs r /\ bpow radix2 600 <= Rabs R_ \/ Rabs r <= bpow radix2 (-600) /\ Rabs R_ <= bpow radix2 (-600))).

Definition low_ok (u : unary_name) : bool :=
  match u with n_exp | n_2_raised | n_10_raised | n_csch | n_sech => true | _ => false end.
Definition high_ok (u : unary_name) : bool :=
  match u with
  | n_exp | n_2_raised | n_10_raised | n_exp_minus_1 | n_2_raised_minus_1 | n_10_raised_minus_1 | n_cosh | n_sinh => true
  | _ => false end.
Definition side (u : unary_name) (a R_ : R) : Prop :=
  (R_ = 0 /\ low_ok u = false) \/ win 900 R_ \/
  (R_ <> 0 /\ Rabs R_ < bpow radix2 (-900) /\ low_ok u = true /\ (u = n_csch -> 0 < a * R_) /\ (u <> n_csch -> 0 < R_)) \/
  (bpow radix2 900 < Rabs R_ /\ high_ok u = true /\ (u <> n_sinh -> 0 < R_)).

Lemma isf_dmin : forall F, wide F -> isf (dmin F) (bpow radix2 (-1022)).
Proof.
  intros F W. apply isf_fcast_exact.
  - pose proof (isf_fconst (f := f64) 1 (-1022)) as H. rewrite Rmult_1_l in H. apply H; [apply FF_bpow; vm_compute; discriminate|].
    rewrite Rabs_pos_eq by apply bpow_ge_0. apply bpow_lt. reflexivity.
  - apply FF_bpow. destruct W as [-> | ->]; vm_compute; discriminate.
  - rewrite Rabs_pos_eq by apply bpow_ge_0. apply bpow_lt. destruct W as [-> | ->]; reflexivity.
Qed.
Lemma isf_dmax : forall F, wide F -> isf (dmax F) (IZR (2 ^ 53 - 1) * bpow radix2 971).
Proof.
  assert (Rabs (IZR (2 ^ 53 - 1) * bpow radix2 971) < bpow radix2 1024) as B.
  { rewrite Rabs_pos_eq by (apply Rmult_le_pos; [apply IZR_le; vm_compute; discriminate|apply bpow_ge_0]).
    change 1024%Z with (53 + 971)%Z. rewrite bpow_plus. apply Rmult_lt_compat_r; [apply bpow_gt_0|]. rewrite <- IZR_Zpower by lia. apply IZR_lt. reflexivity. }
  intros F W. apply isf_fcast_exact.
  - apply isf_fconst; [apply FF_dyadic; vm_compute; discriminate|exact B].
  - apply FF_dyadic; destruct W as [-> | ->]; vm_compute; discriminate.
  - eapply Rlt_le_trans; [exact B|]. apply bpow_le. destruct W as [-> | ->]; vm_compute; discriminate.
Qed.
Lemma dmax_big : bpow radix2 1000 <= IZR (2 ^ 53 - 1) * bpow radix2 971.
Proof. change 1000%Z with (29 + 971)%Z. rewrite bpow_plus. apply Rmult_le_compat_r; [apply bpow_ge_0|]. rewrite <- IZR_Zpower by lia. apply IZR_le. vm_compute. discriminate. Qed.

Lemma fixer_id : forall u F (x y : flt F) a r, isf x a -> isf y r -> (r = 0 -> low_ok u = false) -> unary_fixer u F x y = y.
Proof.
  intros u F x y a r Hx Hy Hr. pose proof (fisinf_isf _ _ Hy) as Ei. pose proof (feq_isf _ _ _ _ Hy (FloatFacts.isf_zero F)) as Ez.
  assert (low_ok u = true -> feq y (fzero F) = false) as K.
  { intros H. rewrite Ez. apply Req_bool_false. intros E. rewrite (Hr E) in H. discriminate. }
  destruct u; cbn [unary_fixer low_ok] in *; try reflexivity; unfold fix_exp, fix_over, fix_over_odd, fix_log, fix_csch, fix_sech; rewrite ?Ei; try (rewrite (K eq_refl)); rewrite ?Ei; reflexivity.
Qed.

Lemma fixer_good : forall u F (x y : flt F) a R_ e e' h, wide F -> near e h F R_ y -> e <= e' -> e' <= bpow radix2 (-48) -> (600 <= h <= 900)%Z -> isf x a -> side u a R_ -> good e' F R_ (unary_fixer u F x y).
Proof.
  intros u F x y a R_ e e' h W (A & B & C) He He' Hh Hx HS.
  assert (bpow radix2 (-48) <= / 4) as B48 by (replace (/ 4) with (bpow radix2 (-2)) by (simpl; lra); apply bpow_le; lia).
  pose proof (isf_dmin F W) as Imin. pose proof (isf_dmax F W) as Imax. pose proof dmax_big as Dm.
  pose proof (bpow_gt_0 radix2 (-1022)) as Pmin. pose proof (bpow_gt_0 radix2 1000) as Pmax.
  assert (forall a b, (a <= b)%Z -> bpow radix2 a <= bpow radix2 b) as BL by (intros; apply bpow_le; assumption).
  destruct HS as [[E Lo]|[Wn|[(N & Sm & Lo & Hc & Hp)|(Lg & Hi & Hp)]]].
  - destruct (A (or_introl E)) as (r & Ir & Hr). rewrite (fixer_id u F x y a r Hx Ir (fun _ => Lo)). exists r. split; [assumption|]. left.
    eapply Rle_trans; [exact Hr|]. apply Rmult_le_compat_r; [apply Rabs_pos|assumption].
  - destruct (A (or_intror Wn)) as (r & Ir & Hr). rewrite (fixer_id u F x y a r Hx Ir).
    + exists r. split; [assumption|]. left. eapply Rle_trans; [exact Hr|]. apply Rmult_le_compat_r; [apply Rabs_pos|assumption].
    + intros ->. exfalso. pose proof (win_nz _ _ Wn) as N. apply Rabs_pos_lt in N. replace (0 - R_) with (- R_) in Hr by ring. rewrite Rabs_Ropp in Hr.
      assert (e * Rabs R_ <= / 4 * Rabs R_) by (apply Rmult_le_compat_r; lra). lra.
  - destruct (B N Sm) as (r & Ir & Hr & Hs).
    assert (Rabs R_ <= bpow radix2 (-600)) as R6 by (pose proof (BL (-900) (-600) ltac:(lia))%Z; lra).
    destruct (Req_dec r 0) as [-> | Nr].
    + assert (exists z, isf (unary_fixer u F x y) z /\ 0 < z * R_ /\ Rabs z = bpow radix2 (-1022)) as (z & Iz & Sz & Vz).
      { pose proof (feq_isf _ _ _ _ Ir (FloatFacts.isf_zero F)) as Ez. rewrite Req_bool_true in Ez by reflexivity.
        assert (forall P : 0 < R_, exists z, isf (dmin F) z /\ 0 < z * R_ /\ Rabs z = bpow radix2 (-1022)) as KP.
        { intros P. eexists. split; [exact Imin|]. split; [apply Rmult_lt_0_compat; assumption|apply Rabs_pos_eq; lra]. }
        destruct u; cbn [unary_fixer low_ok] in *; try discriminate; unfold fix_exp, fix_csch, fix_sech; rewrite Ez; try (apply KP; apply Hp; discriminate).
        specialize (Hc eq_refl). rewrite (flt_isf _ _ _ _ Hx (FloatFacts.isf_zero F)). destruct (Rlt_bool_spec a 0).
        - eexists. split; [apply isf_fneg; exact Imin|]. split; [nra|rewrite Rabs_Ropp; apply Rabs_pos_eq; lra].
        - apply KP. nra. }
      exists z. split; [assumption|]. right. split; [assumption|]. right. split; [rewrite Vz; apply BL; lia|assumption].
    + rewrite (fixer_id u F x y a r Hx Ir (fun E => False_ind _ (Nr E))). exists r. split; [assumption|]. right.
      assert (r * R_ <> 0) by (apply Rmult_integral_contrapositive; split; assumption). split; [lra|]. right. split; [|assumption].
      eapply Rle_trans; [exact Hr|]. apply BL. lia.
  - assert (bpow radix2 600 <= Rabs R_) as R6 by (pose proof (BL 600 900 ltac:(lia))%Z; lra).
    destruct (C Lg) as [-> | (r & Ir & Hr & Hs)].
    + assert (exists z, isf (unary_fixer u F x (B754_infinity (Rlt_bool R_ 0))) z /\ 0 < z * R_ /\ bpow radix2 1000 <= Rabs z) as (z & Iz & Sz & Vz).
      { assert (forall P : 0 < R_, exists z, isf (dmax F) z /\ 0 < z * R_ /\ bpow radix2 1000 <= Rabs z) as KP.
        { intros P. eexists. split; [exact Imax|]. split; [apply Rmult_lt_0_compat; lra|rewrite Rabs_pos_eq; lra]. }
        destruct u; cbn [unary_fixer high_ok] in *; try discriminate; unfold fix_exp, fix_over, fix_over_odd; destruct (Rlt_bool_spec R_ 0) as [Q|Q]; try (specialize (Hp ltac:(discriminate)); exfalso; lra); try (apply KP; apply Hp; discriminate).
        - eexists. split; [apply isf_fneg; exact Imax|]. split; [nra|rewrite Rabs_Ropp, Rabs_pos_eq; lra].
        - apply KP. assert (R_ <> 0) by (intros ->; rewrite Rabs_R0 in Lg; pose proof (bpow_gt_0 radix2 900); lra). lra. }
      exists z. split; [assumption|]. right. split; [assumption|]. left. split; [|assumption]. eapply Rle_trans; [|exact Vz]. apply BL. lia.
    + pose proof (bpow_gt_0 radix2 h). rewrite (fixer_id u F x y a r Hx Ir); [|intros ->; rewrite Rabs_R0 in Hr; lra].
      exists r. split; [assumption|]. right. split; [assumption|]. left. split; [|assumption]. eapply Rle_trans; [|exact Hr]. apply BL. lia.
Qed.

(** ** Saturation *)
Lemma lin_coord_abs : forall x b, x <> 0 -> bpow radix2 b <= Rabs x -> IZR b <= lin_coord x.
Proof.
  intros x b Hx H. unfold lin_coord. pose proof (bpow_mag_le radix2 x Hx) as K.
  assert (b <= mag radix2 x - 1)%Z. { assert (b < mag radix2 x)%Z; [|lia]. apply mag_gt_bpow. assumption. }
  assert (1 <= Rabs x / bpow radix2 (mag radix2 x - 1)).
  { apply Rmult_le_reg_r with (bpow radix2 (mag radix2 x - 1)); [apply bpow_gt_0|]. unfold Rdiv. rewrite Rmult_assoc, Rinv_l by (apply Rgt_not_eq, bpow_gt_0). lra. }
  apply IZR_le in H0. lra.
Qed.
Lemma lin_coord_abs_lt : forall x b, x <> 0 -> Rabs x < bpow radix2 b -> lin_coord x < IZR b.
Proof.
  intros x b Hx H. unfold lin_coord. pose proof (bpow_mag_gt radix2 x) as K.
  assert (mag radix2 x <= b)%Z by (apply mag_le_bpow; assumption).
  assert (Rabs x / bpow radix2 (mag radix2 x - 1) < 2).
  { apply Rmult_lt_reg_r with (bpow radix2 (mag radix2 x - 1)); [apply bpow_gt_0|]. unfold Rdiv. rewrite Rmult_assoc, Rinv_l by (apply Rgt_not_eq, bpow_gt_0).
    rewrite Rmult_1_r. replace (2 * bpow radix2 (mag radix2 x - 1)) with (bpow radix2 (mag radix2 x)); [assumption|]. change 2 with (bpow radix2 1). rewrite <- bpow_plus. f_equal. lia. }
  apply IZR_le in H0. rewrite minus_IZR. lra.
Qed.
Lemma coord_big : forall k x, x <> 0 -> bpow radix2 600 <= Rabs x -> 520 < coord k x.
Proof.
  intros [] x Hx H; cbn [coord].
  - unfold log_coord. assert (600 * (69 / 100) <= ln (Rabs x)); [|lra].
    apply exp_le_inv. rewrite exp_ln by (apply Rabs_pos_lt; assumption). eapply Rle_trans; [|exact H]. apply exp_ln2_le; [lra|lia].
  - pose proof (lin_coord_abs x 600 Hx H). lra.
Qed.
Lemma coord_small : forall k x, x <> 0 -> Rabs x <= bpow radix2 (-600) -> coord k x < -520.
Proof.
  intros [] x Hx H; cbn [coord].
  - unfold log_coord. apply Rabs_pos_lt in Hx. assert (600 * (69 / 100) <= ln (/ Rabs x)) as K.
    { apply exp_le_inv. rewrite exp_ln by (apply Rinv_0_lt_compat; assumption). apply Rle_trans with (bpow radix2 600).
      - apply exp_ln2_le; [lra|lia].
      - change 600%Z with (- (-600))%Z. rewrite bpow_opp. apply Rinv_le_contravar; assumption. }
    rewrite ln_Rinv in K by assumption. lra.
  - assert (Rabs x < bpow radix2 (-599)) as H' by (pose proof (bpow_lt radix2 (-600) (-599) ltac:(lia)); lra).
    pose proof (lin_coord_abs_lt x (-599) Hx H'). lra.
Qed.

Lemma faithful_sat : forall n s L L' t, (6 <= n <= 64)%Z -> (255 < L /\ 255 < L') \/ (L < -255 /\ L' < -255) -> faithful n s L t -> faithful n s L' t.
Proof.
  intros n s L L' t Hn H (Ht & Hs & Hf). split; [assumption|]. split; [assumption|]. intros t' Ht' Hs'. destruct (Hf t' Ht' Hs') as [F1 F2].
  pose proof (l_abs n t' ltac:(lia) Ht') as A. apply Rabs_le_inv in A. destruct H; split; intros [H1 H2]; lra.
Qed.

Lemma good_from : forall k n e F R_ (y : flt F) f, 0 <= e -> (6 <= n <= 64)%Z ->
  (forall z : flt F, is_finite z = true -> exists t, f z = Val t /\ rounds_nearly k n (code_error k n) (B2R z) t) -> good e F R_ y ->
  exists t z, f y = Val t /\ Rabs (z - R_) <= e * Rabs R_ /\ rounds_nearly k n (code_error k n) z t.
Proof.
  intros k n e F R_ y f Pe Hn Hf (r & [Fy Vy] & H). destruct (Hf y Fy) as (t & Et & Rt). rewrite Vy in Rt. exists t.
  destruct H as [H|[Hs H]].
  - exists r. split; [assumption|]. split; assumption.
  - exists R_. split; [assumption|]. split; [replace (R_ - R_) with 0 by ring; rewrite Rabs_R0; apply Rmult_le_pos; [assumption|apply Rabs_pos]|].
    assert (R_ <> 0 /\ r <> 0) as [N1 N2] by (split; intros ->; lra).
    assert ((520 < coord k r /\ 520 < coord k R_) \/ (coord k r < -520 /\ coord k R_ < -520)) as Sat.
    { destruct H as [[H1 H2]|[H1 H2]]; [left|right]; split; (apply coord_big || apply coord_small); assumption. }
    destruct Rt as [Rt Rn]. split.
    + destruct Rt as [[E _]|[_ Rt]]; [contradiction|]. right. split; [assumption|]. rewrite <- (sign_mul r R_ Hs).
      eapply faithful_sat; [assumption| |exact Rt]. lra.
    + intros _. destruct (Rn N2) as (L & NL & BL). exists (coord k R_). pose proof (code_error_rng k n) as [Ce0 Ce1].
      split; [|rewrite Rminus_eq_0, Rabs_R0; apply Rmult_le_pos; [assumption|pose proof (Rabs_pos (coord k R_)); lra]].
      rewrite <- (sign_mul r R_ Hs). eapply nearest_sat; [assumption| |exact NL].
      assert (Rabs (L - coord k r) <= / 2 * (Rabs (coord k r) + 1)) as BL' by (eapply Rle_trans; [exact BL|]; apply Rmult_le_compat_r; [pose proof (Rabs_pos (coord k r)); lra|assumption]).
      apply Rabs_le_inv in BL'. destruct Sat as [[S1 S2]|[S1 S2]]; [left; rewrite (Rabs_pos_eq (coord k r)) in BL' by lra|right; rewrite (Rabs_left (coord k r)) in BL' by lra]; lra.
Qed.

(** ** Arguments *)
Record arg (v a : R) : Prop := {
  arg_rel : Rabs (a - v) <= bpow radix2 (-56) * Rabs v;
  arg_rng : v = 0 \/ win 260 a;
  arg_1 : Rcompare a 1 = Rcompare v 1;
  arg_m1 : Rcompare a (-1) = Rcompare v (-1) }.
Lemma arg_self : forall v, v = 0 \/ win 260 v -> arg v v.
Proof. intros v H. split; [|assumption|reflexivity|reflexivity]. replace (v - v) with 0 by ring. rewrite Rabs_R0. apply Rmult_le_pos; [apply bpow_ge_0|apply Rabs_pos]. Qed.

Lemma log_arg : forall lm n f t v, c99 lm -> log_to_float lm n f80 f -> is_intn n t -> value Logarithmic n t = Some v ->
  exists y a, f t = Val y /\ isf y a /\ arg v a /\ (a = 0 -> y = B754_zero false).
Proof.
  intros lm n f t v C H It Hv. assert (8 <= n <= 64)%Z as Hn by (destruct H; lia). destruct (takum_cases n t It) as [-> | [-> | Hr]].
  - rewrite value_0 in Hv. injection Hv as <-. exists (B754_zero false), 0. rewrite (log_to_0 lm n f80 f C H). split; [reflexivity|]. split; [split; reflexivity|].
    split; [|reflexivity]. apply arg_self. left. reflexivity.
  - rewrite value_nar in Hv by lia. discriminate.
  - rewrite value_log_real in Hv by assumption. injection Hv as <-.
    destruct (log_to_ld_real lm n f t C H Hr) as (y & p & Ef & Iy & Pp & Hp & H1). exists y, (sg (t <? 0)%Z * p). split; [assumption|]. split; [assumption|].
    set (l := l_ n t) in *. set (s := (t <? 0)%Z) in *.
    pose proof (l_abs n t ltac:(lia) Hr) as Hl. fold l in Hl. assert (0 <= Rabs l) as Pl by apply Rabs_pos.
    assert (l = 0 \/ bpow radix2 (-59) <= Rabs l) as Lmin.
    { destruct (l_dyadic n t ltac:(lia) Hr) as (k & E). fold l in E. destruct (Z.eq_dec k 0) as [-> | Nk]; [left; rewrite E; ring|right].
      rewrite E, Rabs_mult, (Rabs_pos_eq (bpow _ _)), <- abs_IZR by apply bpow_ge_0. apply Rle_trans with (1 * bpow radix2 (- (n - 5))).
      - rewrite Rmult_1_l. apply bpow_le. lia.
      - apply Rmult_le_compat_r; [apply bpow_ge_0|]. apply IZR_le. lia. }
    set (q := bpow radix2 (-65)) in *. assert (0 < q) as Pq by apply bpow_gt_0.
    assert (bpow radix2 (-62) = 8 * q) as E62 by (unfold q; change (-62)%Z with (3 + -65)%Z; rewrite bpow_plus; reflexivity).
    assert (bpow radix2 (-59) = 64 * q) as E59 by (unfold q; change (-59)%Z with (6 + -65)%Z; rewrite bpow_plus; reflexivity).
    assert (bpow radix2 (-56) = 512 * q) as E56 by (unfold q; change (-56)%Z with (9 + -65)%Z; rewrite bpow_plus; reflexivity).
    assert (0 < bpow radix2 (-61) <= / 1024) as E61 by (split; [apply bpow_gt_0|replace (/ 1024) with (bpow radix2 (-10)) by (simpl; lra); apply bpow_le; lia]).
    assert (q <= / 1024 / 1024) as Qs by (unfold q; replace (/ 1024 / 1024) with (bpow radix2 (-20)) by (simpl; lra); apply bpow_le; lia).
    rewrite E62 in Hp.
    assert (Rabs (ln p - l / 2) <= Rabs l * q + 9 * q) as Hp' by nra. clear Hp.
    set (d := ln p - l / 2) in *.
    assert (p = exp (l / 2) * exp d) as Ep by (rewrite <- exp_plus; unfold d; replace (l / 2 + (ln p - l / 2)) with (ln p) by ring; rewrite exp_ln; auto).
    assert (Rabs d <= 264 * q) as Hd by nra.
    pose proof (exp_near d ltac:(lra)) as Ed. assert (0 <= Rabs d) as Pd by apply Rabs_pos.
    assert (Rabs (exp d - 1) <= 512 * q) as Ed' by nra.
    assert (forall r, (r < 0 -> l < 0 -> ln p < 0) /\ (0 < r -> 0 < l -> 0 < ln p)) as Sl.
    { intros r. apply Rabs_le_inv in Hp'. unfold d in Hp'. split; intros _ Q; destruct Lmin as [L|L]; try lra; [rewrite Rabs_left in * by lra|rewrite Rabs_pos_eq in * by lra]; nra. }
    assert (Rcompare p 1 = Rcompare (exp (l / 2)) 1) as Cp.
    { destruct (Rtotal_order l 0) as [Q|[Q|Q]].
      - rewrite !Rcompare_Lt; [reflexivity| |].
        + rewrite <- exp_0. apply exp_increasing. lra.
        + rewrite <- (exp_ln p) by assumption. rewrite <- exp_0. apply exp_increasing. apply (proj1 (Sl (-1))); lra.
      - rewrite (H1 Q), Q. replace (0 / 2) with 0 by field. rewrite exp_0. reflexivity.
      - rewrite !Rcompare_Gt; [reflexivity| |].
        + rewrite <- exp_0. apply exp_increasing. lra.
        + rewrite <- (exp_ln p) by assumption. rewrite <- exp_0. apply exp_increasing. apply (proj2 (Sl 1)); lra. }
    pose proof (exp_pos (l / 2)) as Pe.
    assert (sg s = 1 \/ sg s = -1) as Hsg by (unfold sg; destruct s; [right|left]; lra).
    split.
    + split.
      * rewrite <- Rmult_minus_distr_l, !Rabs_mult, sg_abs, !Rmult_1_l, Ep. replace (exp (l / 2) * exp d - exp (l / 2)) with (exp (l / 2) * (exp d - 1)) by ring.
        rewrite Rabs_mult, E56. rewrite (Rmult_comm (512 * q)). apply Rmult_le_compat_l; [apply Rabs_pos|assumption].
      * right. unfold win. rewrite Rabs_mult, sg_abs, Rmult_1_l, Rabs_pos_eq by lra. rewrite <- (exp_ln p) by assumption.
        assert (Rabs (ln p) <= 260 * (69 / 100)) as Hlp.
        { replace (ln p) with (d + l / 2) by (unfold d; ring). eapply Rle_trans; [apply Rabs_triang|]. unfold Rdiv. rewrite Rabs_mult, (Rabs_pos_eq (/ 2)) by lra. lra. }
        apply Rabs_le_inv in Hlp. split.
        -- rewrite bpow_opp. rewrite <- (Ropp_involutive (ln p)), exp_Ropp. apply Rinv_le_contravar; [apply exp_pos|]. apply exp_ln2_le; [lra|lia].
        -- apply exp_ln2_le; [lra|lia].
      * destruct Hsg as [-> | ->]; [rewrite !Rmult_1_l; exact Cp|]. rewrite !Rcompare_Lt by lra. reflexivity.
      * destruct Hsg as [-> | ->]; [rewrite !Rcompare_Gt by lra; reflexivity|]. replace (-1 * p) with (- p) by ring. replace (-1 * exp (l / 2)) with (- exp (l / 2)) by ring.
        replace (-1) with (- (1)) by ring. rewrite !Rcompare_opp. rewrite (Rcompare_sym 1), (Rcompare_sym 1 (exp _)), Cp. reflexivity.
    + intros E. exfalso. destruct Hsg as [E1|E1]; rewrite E1 in E; lra.
Qed.

Lemma lin_arg : forall n f t v, std_width n -> linear_to_float n (fmt_of n) f -> is_intn n t -> value Linear n t = Some v ->
  exists y, f t = Val y /\ isf y v /\ arg v v /\ (v = 0 -> y = B754_zero false).
Proof.
  intros n f t v Hw H It Hv. destruct (lin_operand n f t Hw H It) as (y & Ef & K). rewrite Hv in K. destruct K as (Iy & Op & Z0).
  exists y. split; [assumption|]. split; [assumption|]. split; [|assumption]. apply arg_self. destruct Op as (_ & _ & B).
  destruct (Req_dec v 0) as [E|E]; [left; assumption|right]. specialize (B E). apply (win_weaken 256); [|lia]. split; [|apply B]. eapply Rle_trans; [|apply B]. apply bpow_le. lia.
Qed.
