(** The mathematical library that rounds every result correctly meets the
    assumptions of LibmSpec.v, which are therefore consistent.  This library
    is not part of the model. *)
From Coq Require Import ZArith Reals Bool Lia Lra.
From Flocq Require Import Core.Core IEEE754.BinarySingleNaN.
From Flocq Require Import Relative.
From Verif Require Import CModel FloatModel Libm LibmSpec FloatFacts.
Local Open Scope R_scope.

(** the float nearest to r *)
Definition of_real (f : fmt) (r : R) : flt f :=
  binary_normalize (fprec f) (femax f) _ _ mode_NE
    (ZnearestE (scaled_mantissa radix2 (fexpo f) r)) (cexp radix2 (fexpo f) r) (Rlt_bool r 0).

Lemma of_real_spec : forall f r,
  (Rabs (RF f r) < bpow radix2 (femax f) -> isf (of_real f r) (RF f r) /\
     Bsign (of_real f r) = match Rcompare (RF f r) 0 with Eq => Rlt_bool r 0 | Lt => true | Gt => false end) /\
  (bpow radix2 (femax f) <= Rabs (RF f r) -> of_real f r = B754_infinity (Rlt_bool (RF f r) 0)).
Proof.
  intros f r. pose proof (binary_normalize_correct (fprec f) (femax f) _ _ mode_NE
    (ZnearestE (scaled_mantissa radix2 (fexpo f) r)) (cexp radix2 (fexpo f) r) (Rlt_bool r 0)) as H.
  cbv zeta in H. fold (of_real f r) in H.
  change (F2R (Float radix2 (ZnearestE (scaled_mantissa radix2 (fexpo f) r)) (cexp radix2 (fexpo f) r))) with (RF f r) in H.
  change (round radix2 (SpecFloat.fexp (fprec f) (femax f)) (round_mode mode_NE) (RF f r)) with (RF f (RF f r)) in H.
  rewrite (RF_id f (RF f r)) in H by apply RF_FF. split; intros B.
  - rewrite Rlt_bool_true in H by assumption. destruct H as (H1 & H2 & H3). split; [split; assumption|exact H3].
  - rewrite Rlt_bool_false in H by assumption. unfold binary_overflow in H. simpl in H.
    destruct (of_real f r); simpl in H; try discriminate. injection H as ->. reflexivity.
Qed.

Lemma RF_sign : forall f r, (0 <= r -> 0 <= RF f r) /\ (r <= 0 -> RF f r <= 0).
Proof. intros f r. split; intros H; [rewrite <- (RF_0 f)|rewrite <- (RF_0 f)]; apply RF_mono; assumption. Qed.

Lemma close_of_real : forall k f r, (0 <= k)%Z -> close k f r (of_real f r).
Proof.
  intros k f r Hk. destruct (of_real_spec f r) as [A B]. destruct (RF_sign f r) as [S1 S2].
  pose proof (fmt_pos f) as (P1 & P2 & P3).
  assert (Rabs (RF f r) < bpow radix2 (femax f) \/ bpow radix2 (femax f) <= Rabs (RF f r)) as [K|K]
    by (destruct (Rlt_le_dec (Rabs (RF f r)) (bpow radix2 (femax f))); auto).
  - destruct (A K) as [[F V] S]. clear A B.
    split; [destruct (of_real f r); simpl in F |- *; congruence|].
    split; [intros ->; split; [assumption|]; rewrite V; apply RF_0|].
    split.
    { intros Nr. rewrite S. destruct (Rcompare_spec (RF f r) 0) as [C|C|C].
      - rewrite Rlt_bool_true; [reflexivity|]. destruct (Rlt_le_dec r 0); [assumption|]. specialize (S1 ltac:(lra)). lra.
      - reflexivity.
      - rewrite Rlt_bool_false; [reflexivity|]. destruct (Rlt_le_dec r 0); [|assumption]. specialize (S2 ltac:(lra)). lra. }
    split; [intros; assumption|]. split; [|split].
    + intros [L _]. rewrite V. pose proof (relative_error_N_FLT radix2 (femin f) (fprec f) (fprec_gt_0 f) (fun x => negb (Z.even x)) r) as E.
      change (round radix2 (FLT_exp (femin f) (fprec f)) ZnearestE r) with (RF f r) in E.
      eapply Rle_trans; [apply E|].
      * eapply Rle_trans; [|exact L]. apply bpow_le. unfold femin. lia.
      * apply Rmult_le_compat_r; [apply Rabs_pos|]. change (/ 2) with (bpow radix2 (-1)). rewrite <- bpow_plus. apply bpow_le. lia.
    + intros L. rewrite V. apply RF_abs_le; [apply FF_bpow; unfold femin; destruct f; simpl; lia|].
      left. eapply Rlt_le_trans; [exact L|]. apply bpow_le. lia.
    + intros L _. rewrite V. apply Rle_trans with (RF f (bpow radix2 (femax f - 2))).
      * rewrite RF_id; [lra|]. apply FF_bpow. unfold femin. destruct f; simpl; lia.
      * rewrite <- (Rabs_pos_eq (RF f (bpow _ _))) by (rewrite RF_id by (apply FF_bpow; unfold femin; destruct f; simpl; lia); apply bpow_ge_0).
        destruct (Rlt_le_dec r 0) as [N|N].
        -- rewrite <- (Rabs_Ropp (RF f r)), <- RF_opp. rewrite Rabs_left in L by assumption.
           rewrite !Rabs_pos_eq; [apply RF_mono|apply RF_sign; lra|apply RF_sign, bpow_ge_0].
           apply Rle_trans with (bpow radix2 (femax f - 1)); [apply bpow_le; lia|lra].
        -- rewrite Rabs_pos_eq in L by assumption.
           rewrite !Rabs_pos_eq; [apply RF_mono|apply RF_sign; lra|apply RF_sign, bpow_ge_0].
           apply Rle_trans with (bpow radix2 (femax f - 1)); [apply bpow_le; lia|lra].
  - rewrite (B K). clear A B.
    assert (bpow radix2 (femax f - 1) < Rabs r) as L.
    { destruct (Rlt_le_dec (bpow radix2 (femax f - 1)) (Rabs r)) as [L|L]; [assumption|].
      pose proof (RF_lt_emax f r (femax f - 1) ltac:(unfold femin; destruct f; simpl; lia) L). lra. }
    split; [reflexivity|]. pose proof (bpow_gt_0 radix2 (femax f - 1)) as PB.
    split; [intros ->; rewrite Rabs_R0 in L; lra|].
    split; [intros Nr; simpl|].
    { assert (RF f r <> 0) as NZ by (intros E; rewrite E, Rabs_R0 in K; pose proof (bpow_gt_0 radix2 (femax f)); lra).
      destruct (Rlt_le_dec r 0).
      - specialize (S2 ltac:(lra)). rewrite !Rlt_bool_true by lra. reflexivity.
      - specialize (S1 ltac:(lra)). rewrite !Rlt_bool_false by lra. reflexivity. }
    split; [intros; lra|]. split; [intros; lra|]. split; [|intros; discriminate].
    intros L2. pose proof (bpow_le radix2 (3 - femax f) (femax f - 1) ltac:(lia)). lra.
Qed.

Lemma close_one : forall k f, close k f 1 (fint f 1).
Proof.
  intros k f. destruct (isf_fint (f := f) 1) as [F V]; [destruct f; simpl; lia|].
  pose proof (fmt_pos f) as (P1 & P2 & P3).
  split; [destruct (fint f 1); simpl in F |- *; congruence|].
  split; [intros; lra|]. split; [intros _; rewrite Rlt_bool_false by lra; destruct f; vm_compute; reflexivity|].
  split; [auto|]. split; [|split].
  - intros _. rewrite V. replace (1 - 1) with 0 by ring. rewrite Rabs_R0. apply Rmult_le_pos; [apply bpow_ge_0|apply Rabs_pos].
  - rewrite Rabs_R1. intros L. exfalso. apply Rlt_not_le in L. apply L. change 1 with (bpow radix2 0). apply bpow_le. lia.
  - rewrite Rabs_R1. intros L. exfalso. apply Rlt_not_le in L. apply L. change 1 with (bpow radix2 0). apply bpow_le. lia.
Qed.

Definition domb (g : fun1) (x : R) : bool :=
  match g with
  | Flog | Flog2 | Flog10 => Rlt_bool 0 x
  | Flog1p => Rlt_bool (-1) x
  | Fasin | Facos => Rle_bool (-1) x && Rle_bool x 1
  | Facosh => Rle_bool 1 x
  | Fatanh => Rlt_bool (-1) x && Rlt_bool x 1
  | Ftan => negb (Req_bool (cos x) 0)
  | _ => true
  end.
Definition poleb (g : fun1) (x : R) : bool :=
  match g with
  | Flog | Flog2 | Flog10 => Req_bool x 0
  | Flog1p => Req_bool x (-1)
  | Fatanh => Req_bool x (-1) || Req_bool x 1
  | Ftan => Req_bool (cos x) 0
  | _ => false
  end.

Lemma domb_spec : forall g x, domb g x = true <-> dom1 g x.
Proof.
  intros g x. destruct g; simpl; try tauto.
  all: repeat match goal with
    | |- context [Rlt_bool ?a ?b] => destruct (Rlt_bool_spec a b)
    | |- context [Req_bool ?a ?b] => destruct (Req_bool_spec a b)
    | |- context [Rle_bool ?a ?b] => destruct (Rle_bool_spec a b) end; simpl; split; intros; try discriminate; try reflexivity; try tauto; try lra.
Qed.
Lemma poleb_spec : forall g x, poleb g x = true <-> pole1 g x.
Proof.
  intros g x. destruct g; simpl; try (split; [discriminate|tauto]).
  all: repeat match goal with |- context [Req_bool ?a ?b] => destruct (Req_bool_spec a b) end; simpl; split; intros; try discriminate; try reflexivity; try tauto.
Qed.

Definition ideal1 (g : fun1) (f : fmt) (x : flt f) : flt f :=
  match x with
  | B754_nan => B754_nan
  | B754_infinity s =>
      match g with
      | Flog | Flog2 | Flog10 | Flog1p | Facosh => if s then B754_nan else B754_infinity false
      | Fexp | Fexp2 => if s then fzero f else B754_infinity false
      | Fexpm1 => if s then fint f (-1) else B754_infinity false
      | Fatan => of_real f (if s then - (PI / 2) else PI / 2)
      | Fsinh | Fasinh => B754_infinity s
      | Fcosh => B754_infinity false
      | Ftanh => fint f (if s then -1 else 1)%Z
      | _ => B754_nan
      end
  | _ =>
      if domb g (B2R x) then of_real f (real1 g (B2R x))
      else if poleb g (B2R x) then B754_infinity (match g with Fatanh => Rlt_bool (B2R x) 0 | _ => true end)
      else B754_nan
  end.

(** other infinite arguments do not occur and get NaN *)
Definition ideal_pow (f : fmt) (x y : flt f) : flt f :=
  match y with
  | B754_zero _ => fint f 1
  | _ =>
    if is_finite x && Req_bool (B2R x) 1 then fint f 1
    else if is_finite x && Rlt_bool 1 (B2R x) && fisinf y && Bsign y then B754_zero false
    else if is_finite x && is_finite y then
      if Rlt_bool 0 (B2R x) then of_real f (Rpower (B2R x) (B2R y))
      else if Rlt_bool (B2R x) 0 then
        if Req_bool (IZR (Zfloor (B2R y))) (B2R y) then of_real f (powerRZ (B2R x) (Zfloor (B2R y))) else B754_nan
      else if Rlt_bool (B2R y) 0 then B754_infinity false else B754_zero false
    else B754_nan
  end.
Definition ideal2 (g : fun2) (f : fmt) (x y : flt f) : flt f :=
  match g with
  | Fpow => ideal_pow f x y
  | Fatan2 => if is_finite x && is_finite y then of_real f (real_atan2 (B2R x) (B2R y)) else B754_nan
  | Fhypot => if is_finite x && is_finite y then of_real f (sqrt (B2R x * B2R x + B2R y * B2R y)) else B754_nan
  end.
Definition ideal : libm := {| lib1 := ideal1; lib2 := ideal2 |}.

Lemma ideal1_finite : forall g f (x : flt f), is_finite x = true ->
  ideal1 g f x = if domb g (B2R x) then of_real f (real1 g (B2R x))
      else if poleb g (B2R x) then B754_infinity (match g with Fatanh => Rlt_bool (B2R x) 0 | _ => true end)
      else B754_nan.
Proof. intros g f [s|s| |s m e H] F; try discriminate; reflexivity. Qed.

Lemma ideal_pow_finite : forall f (x y : flt f), is_finite x = true -> is_finite y = true -> B2R y <> 0 -> 
  ideal_pow f x y =
    if Req_bool (B2R x) 1 then fint f 1 else
      if Rlt_bool 0 (B2R x) then of_real f (Rpower (B2R x) (B2R y))
      else if Rlt_bool (B2R x) 0 then
        if Req_bool (IZR (Zfloor (B2R y))) (B2R y) then of_real f (powerRZ (B2R x) (Zfloor (B2R y))) else B754_nan
      else if Rlt_bool (B2R y) 0 then B754_infinity false else B754_zero false.
Proof.
  intros f x y Fx Fy Ny. unfold ideal_pow. rewrite Fx, Fy. destruct y as [s|s| |s m e e0]; try discriminate; [simpl in Ny; lra|]. 
  assert (E : fisinf (B754_finite s m e e0 : flt f) = false) by reflexivity.
  rewrite E, andb_false_r. reflexivity.
Qed.

Lemma zero_or : forall f (y : flt f), is_finite y = true -> (exists s, y = B754_zero s) \/ B2R y <> 0.
Proof.
  intros f y F. destruct y as [s|s| |s m e H]; try discriminate; [left; eauto|right]. simpl. intros E.
  apply eq_0_F2R in E. destruct s; discriminate.
Qed.

Theorem ideal_c99 : c99 ideal.
Proof.
  split.
  - reflexivity.
  - intros g f x Fx D. simpl. rewrite ideal1_finite by assumption. apply domb_spec in D. rewrite D. apply close_of_real. destruct g; simpl; lia.
  - intros g f x Fx D P. simpl. rewrite ideal1_finite by assumption. rewrite <- domb_spec in D. rewrite <- poleb_spec in P.
    apply not_true_is_false in D, P. rewrite D, P. reflexivity.
  - intros g f x Fx P. simpl. rewrite ideal1_finite by assumption.
    assert (domb g (B2R x) = false) as ->.
    { destruct (domb g (B2R x)) eqn:E; [|reflexivity]. apply domb_spec in E. exfalso. revert P E. destruct g; simpl; lra || tauto. }
    apply poleb_spec in P. rewrite P. split; [reflexivity|]. intros N N2. destruct g; try reflexivity; contradiction.
  - intros f s. apply close_of_real; try lia.
  - intros g f s [-> | [-> | ->]]; reflexivity.
  - reflexivity.
  - split; reflexivity.
  - reflexivity.
  - intros f y. change (ideal_pow f (fint f 1) y = fint f 1). unfold ideal_pow. destruct (isf_fint (f := f) 1) as [F V]; [destruct f; simpl; lia|].
    destruct y; try reflexivity; rewrite F, V, Req_bool_true by reflexivity; reflexivity.
  - intros f y H. simpl. unfold ideal_pow. destruct y; try reflexivity. specialize (H eq_refl). simpl in H. lra.
  - intros f x H. simpl. unfold ideal_pow. destruct (is_finite x) eqn:F; [|reflexivity].
    rewrite Req_bool_false by auto. cbn. rewrite !andb_false_r. reflexivity.
  - intros f x y Fx Fy P. simpl. destruct (zero_or f y Fy) as [[s ->]|N].
    + simpl. unfold Rpower. rewrite Rmult_0_l, exp_0. apply close_one.
    + rewrite ideal_pow_finite by assumption. destruct (Req_bool_spec (B2R x) 1) as [->|].
      * unfold Rpower. rewrite ln_1, Rmult_0_r, exp_0. apply close_one.
      * rewrite Rlt_bool_true by assumption. apply close_of_real; try lia.
  - intros f x y k Fx Fy P E. simpl. destruct (zero_or f y Fy) as [[s ->]|N].
    + simpl in E |- *. apply eq_IZR in E. subst k. simpl. apply close_one.
    + rewrite ideal_pow_finite by assumption. rewrite Req_bool_false by lra. rewrite Rlt_bool_false by lra. rewrite Rlt_bool_true by assumption.
      rewrite E, Zfloor_IZR, Req_bool_true by reflexivity. apply close_of_real; try lia.
  - intros f x y Fx Fy P E. simpl. rewrite ideal_pow_finite; [|assumption|assumption|apply (E 0%Z)].
    rewrite Req_bool_false by lra. rewrite Rlt_bool_false by lra. rewrite Rlt_bool_true by assumption.
    rewrite Req_bool_false; [reflexivity|]. intros K. apply (E (Zfloor (B2R y))). auto.
  - intros f x Fx P. simpl. unfold ideal_pow. rewrite Fx. rewrite (Req_bool_false (B2R x) 1) by lra. rewrite (Rlt_bool_true 1 (B2R x)) by assumption. reflexivity.
  - intros f s y Fy N. simpl. rewrite ideal_pow_finite; [|reflexivity|assumption|lra]. simpl.
    rewrite Req_bool_false by lra. rewrite Rlt_bool_false by lra. rewrite (Rlt_bool_true (B2R y)) by assumption. reflexivity.
  - intros f s y Fy N. simpl. rewrite ideal_pow_finite; [|reflexivity|assumption|lra]. simpl.
    rewrite Req_bool_false by lra. rewrite (Rlt_bool_false 0 0) by lra. rewrite (Rlt_bool_false (B2R y)) by lra. split; reflexivity.
  - intros f x. simpl. split; [reflexivity|]. rewrite andb_false_r. reflexivity.
  - intros f y x Fy Fx _ _. simpl. rewrite Fx, Fy. apply close_of_real; lia.
  - intros f x H. simpl. split; [reflexivity|]. rewrite andb_false_r. reflexivity.
  - intros f x y Fx Fy. simpl. rewrite Fx, Fy. apply close_of_real; try lia.
Qed.
