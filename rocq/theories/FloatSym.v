(** Floating-point operations and signs. *)
From Coq Require Import ZArith Reals Bool Lia Lra.
From Flocq Require Import Core.Core IEEE754.BinarySingleNaN.
From Verif Require Import CModel FloatModel FloatFacts.
Local Open Scope R_scope.

Lemma fneg_neg : forall F (x : flt F), fneg (fneg x) = x.
Proof. intros F x. apply Bopp_involutive. Qed.

Lemma rnd_opp : forall F x, round radix2 (SpecFloat.fexp (fprec F) (femax F)) (round_mode mode_NE) (- x) = - round radix2 (SpecFloat.fexp (fprec F) (femax F)) (round_mode mode_NE) x.
Proof. intros F x. apply round_NE_opp. Qed.

(** two results that are finite and opposite, or infinite and opposite *)
Lemma opp_join : forall F (x y : flt F) (b : bool) r,
  (if b then B2R x = r /\ is_finite x = true else B2SF x = SpecFloat.S754_infinity (Rlt_bool r 0)) ->
  (if b then B2R y = - r /\ is_finite y = true else B2SF y = SpecFloat.S754_infinity (negb (Rlt_bool r 0))) ->
  (b = true -> Bsign y = negb (Bsign x)) -> y = fneg x.
Proof.
  intros F x y [] r; [intros [X1 X2] [Y1 Y2] S|intros X Y _].
  - apply B2R_Bsign_inj; [assumption|unfold fneg; rewrite is_finite_Bopp; assumption|unfold fneg; rewrite B2R_Bopp; congruence|].
    unfold fneg. rewrite (S eq_refl). symmetry. apply Bsign_Bopp. destruct x; (discriminate || reflexivity).
  - destruct x; try discriminate X. destruct y; try discriminate Y. injection X as ->. injection Y as ->. reflexivity.
Qed.

Lemma normalize_neg : forall F m e s, binary_normalize (fprec F) (femax F) _ _ mode_NE (- m) e (negb s) = fneg (binary_normalize (fprec F) (femax F) _ _ mode_NE m e s).
Proof.
  intros F m e s. pose proof (binary_normalize_correct (fprec F) (femax F) _ _ mode_NE m e s) as A.
  pose proof (binary_normalize_correct (fprec F) (femax F) _ _ mode_NE (- m) e (negb s)) as B. cbv zeta in A, B.
  rewrite F2R_Zopp, rnd_opp, Rabs_Ropp in B. set (r := F2R (Float radix2 m e)) in *.
  set (q := round radix2 (SpecFloat.fexp (fprec F) (femax F)) (round_mode mode_NE) r) in *.
  destruct (Rlt_bool_spec (Rabs q) (bpow radix2 (femax F))) as [L|L].
  - destruct A as (A1 & A2 & A3), B as (B1 & B2 & B3). apply (opp_join F _ _ true q); auto. intros _. rewrite A3, B3.
    rewrite <- Ropp_0, Rcompare_opp, Rcompare_sym. rewrite Ropp_0. destruct (Rcompare r 0); reflexivity.
  - assert (r <> 0) as Nr. { intros E. unfold q in L. rewrite E, round_0, Rabs_R0 in L by apply valid_rnd_N. pose proof (bpow_gt_0 radix2 (femax F)). lra. }
    unfold binary_overflow in A, B. cbn in A, B. destruct (binary_normalize _ _ _ _ _ m e s) as [|sa| |]; try discriminate A.
    destruct (binary_normalize _ _ _ _ _ (- m) e (negb s)) as [|sb| |]; try discriminate B. injection A as ->. injection B as ->. simpl. f_equal.
    destruct (Rlt_bool_spec r 0), (Rlt_bool_spec (- r) 0); (reflexivity || lra).
Qed.

Lemma fcast_neg : forall F G (x : flt F), fcast G (fneg x) = fneg (fcast G x).
Proof.
  intros F G [s|s| |s m e H]; try reflexivity. unfold fcast, fneg at 1. cbn [Bopp]. rewrite <- normalize_neg. f_equal. destruct s; reflexivity.
Qed.

Lemma fint_neg : forall F z, z <> 0%Z -> fint F (- z) = fneg (fint F z).
Proof.
  intros F z Hz. unfold fint. rewrite <- normalize_neg.
  pose proof (binary_normalize_correct (fprec F) (femax F) _ _ mode_NE (- z) 0 false) as A.
  pose proof (binary_normalize_correct (fprec F) (femax F) _ _ mode_NE (- z) 0 (negb false)) as B. cbv zeta in A, B.
  set (r := F2R (Float radix2 (- z) 0)) in *. set (q := round radix2 (SpecFloat.fexp (fprec F) (femax F)) (round_mode mode_NE) r) in *.
  assert (r <> 0) as Nr. { intros E. apply eq_0_F2R in E. simpl in E. lia. }
  destruct (Rlt_bool_spec (Rabs q) (bpow radix2 (femax F))) as [L|L].
  - destruct A as (A1 & A2 & A3), B as (B1 & B2 & B3). apply B2R_Bsign_inj; try assumption; [congruence|]. rewrite A3, B3.
    destruct (Rcompare_spec r 0); (reflexivity || contradiction).
  - apply B2SF_inj. congruence.
Qed.

Lemma fmul_neg_l : forall F (x y : flt F), fmul (fneg x) y = fneg (fmul x y).
Proof.
  intros F x y. destruct (is_finite x && is_finite y) eqn:E.
  - apply andb_prop in E as [Ex Ey]. pose proof (Bmult_correct (fprec F) (femax F) _ _ mode_NE x y) as A.
    pose proof (Bmult_correct (fprec F) (femax F) _ _ mode_NE (fneg x) y) as B.
    assert (B2R (fneg x) = - B2R x) as Rx by apply B2R_Bopp. assert (is_finite (fneg x) = is_finite x) as Fx by apply is_finite_Bopp.
    assert (Bsign (fneg x) = negb (Bsign x)) as Sx by (apply Bsign_Bopp; destruct x; (discriminate || reflexivity)). rewrite Rx, Fx, Sx in B.
    fold (fmul x y) in A. fold (fmul (fneg x) y) in B.
    replace (- B2R x * B2R y) with (- (B2R x * B2R y)) in B by ring. rewrite !rnd_opp, Rabs_Ropp in B. set (q := round radix2 _ _ _) in *.
    destruct (Rlt_bool (Rabs q) (bpow radix2 (femax F))) eqn:L.
    + destruct A as (A1 & A2 & A3), B as (B1 & B2 & B3). rewrite Ex, Ey in A2, B2. apply (opp_join F _ _ true q); auto.
      intros _. rewrite A3, B3 by (match goal with |- is_nan ?z = false => destruct z; (discriminate || reflexivity) end). destruct (Bsign x), (Bsign y); reflexivity.
    + unfold binary_overflow in A, B. cbn in A, B. apply B2SF_inj. rewrite B. unfold fneg at 1. destruct (fmul x y); try discriminate A. simpl in *. injection A as ->.
      destruct (Bsign x), (Bsign y); reflexivity.
  - destruct x as [sx|sx| |sx mx ex Hx], y as [sy|sy| |sy my ey Hy]; try discriminate E; try reflexivity; destruct sx, sy; reflexivity.
Qed.
Lemma fmul_neg_r : forall F (x y : flt F), fmul x (fneg y) = fneg (fmul x y).
Proof.
  intros F x y. assert (forall a b : flt F, fmul a b = fmul b a) as C; [|rewrite C, fmul_neg_l, C; reflexivity].
  clear. intros x y. pose proof (Bmult_correct (fprec F) (femax F) _ _ mode_NE x y) as A. pose proof (Bmult_correct (fprec F) (femax F) _ _ mode_NE y x) as B.
  rewrite (Rmult_comm (B2R y)), (andb_comm (is_finite y)), (xorb_comm (Bsign y)) in B. fold (fmul x y) in A. fold (fmul y x) in B.
  destruct (is_finite x && is_finite y) eqn:E.
  - destruct (Rlt_bool _ _).
    + destruct A as (A1 & A2 & A3), B as (B1 & B2 & B3). apply B2R_Bsign_inj; try congruence.
      rewrite A3, B3 by (match goal with |- is_nan ?z = false => destruct z; (discriminate || reflexivity) end). reflexivity.
    + apply B2SF_inj. congruence.
  - destruct x as [sx|sx| |sx mx ex Hx], y as [sy|sy| |sy my ey Hy]; try discriminate E; try reflexivity; destruct sx, sy; reflexivity.
Qed.

Lemma fadd_comm : forall F (x y : flt F), fadd x y = fadd y x.
Proof.
  intros F x y. destruct (is_finite x && is_finite y) eqn:E.
  - apply andb_prop in E as [Ex Ey]. pose proof (Bplus_correct (fprec F) (femax F) _ _ mode_NE x y Ex Ey) as A. pose proof (Bplus_correct (fprec F) (femax F) _ _ mode_NE y x Ey Ex) as B.
    rewrite (Rplus_comm (B2R y)), (andb_comm (Bsign y)) in B. fold (fadd x y) in A. fold (fadd y x) in B. destruct (Rlt_bool _ _).
    + destruct A as (A1 & A2 & A3), B as (B1 & B2 & B3). apply B2R_Bsign_inj; try congruence.
    + apply B2SF_inj. destruct A as [A1 A2], B as [B1 B2]. congruence.
  - destruct x as [sx|sx| |sx mx ex Hx], y as [sy|sy| |sy my ey Hy]; try discriminate E; try reflexivity; destruct sx, sy; reflexivity.
Qed.

Lemma fdiv_neg_l : forall F (x y : flt F), fdiv (fneg x) y = fneg (fdiv x y).
Proof.
  intros F x y. destruct (is_finite x && is_finite_strict y) eqn:E.
  - apply andb_prop in E as [Ex Ey]. assert (B2R y <> 0) as Ny by (destruct y as [| | |sy my ey Hy]; try discriminate Ey; intros K; apply eq_0_F2R in K; destruct sy; discriminate).
    pose proof (Bdiv_correct (fprec F) (femax F) _ _ mode_NE x y Ny) as A.
    pose proof (Bdiv_correct (fprec F) (femax F) _ _ mode_NE (fneg x) y Ny) as B.
    assert (B2R (fneg x) = - B2R x) as Rx by apply B2R_Bopp. assert (is_finite (fneg x) = is_finite x) as Fx by apply is_finite_Bopp.
    assert (Bsign (fneg x) = negb (Bsign x)) as Sx by (apply Bsign_Bopp; destruct x; (discriminate || reflexivity)). rewrite Rx, Fx, Sx in B.
    fold (fdiv x y) in A. fold (fdiv (fneg x) y) in B.
    replace (- B2R x / B2R y) with (- (B2R x / B2R y)) in B by (field; assumption). rewrite !rnd_opp, Rabs_Ropp in B.
    set (q := round radix2 _ _ _) in *.
    destruct (Rlt_bool (Rabs q) (bpow radix2 (femax F))) eqn:L.
    + destruct A as (A1 & A2 & A3), B as (B1 & B2 & B3). rewrite Ex in A2, B2. apply (opp_join F _ _ true q); auto.
      intros _. rewrite A3, B3 by (match goal with |- is_nan ?z = false => destruct z; (discriminate || reflexivity) end). destruct (Bsign x), (Bsign y); reflexivity.
    + unfold binary_overflow in A, B. cbn in A, B. apply B2SF_inj. rewrite B. unfold fneg at 1. destruct (fdiv x y); try discriminate A. simpl in *. injection A as ->.
      destruct (Bsign x), (Bsign y); reflexivity.
  - destruct x as [sx|sx| |sx mx ex Hx], y as [sy|sy| |sy my ey Hy]; try discriminate E; try reflexivity; destruct sx, sy; reflexivity.
Qed.
Lemma fdiv_neg_r : forall F (x y : flt F), fdiv x (fneg y) = fneg (fdiv x y).
Proof.
  intros F x y. destruct (is_finite x && is_finite_strict y) eqn:E.
  - apply andb_prop in E as [Ex Ey]. assert (B2R y <> 0) as Ny by (destruct y as [| | |sy my ey Hy]; try discriminate Ey; intros K; apply eq_0_F2R in K; destruct sy; discriminate).
    assert (B2R (fneg y) = - B2R y) as Rx by apply B2R_Bopp. assert (B2R (fneg y) <> 0) as Ny' by lra.
    pose proof (Bdiv_correct (fprec F) (femax F) _ _ mode_NE x y Ny) as A.
    pose proof (Bdiv_correct (fprec F) (femax F) _ _ mode_NE x (fneg y) Ny') as B.
    assert (Bsign (fneg y) = negb (Bsign y)) as Sx by (apply Bsign_Bopp; destruct y; (discriminate || reflexivity)). rewrite Rx, Sx in B.
    fold (fdiv x y) in A. fold (fdiv x (fneg y)) in B.
    replace (B2R x / - B2R y) with (- (B2R x / B2R y)) in B by (field; assumption). rewrite !rnd_opp, Rabs_Ropp in B.
    set (q := round radix2 _ _ _) in *.
    destruct (Rlt_bool (Rabs q) (bpow radix2 (femax F))) eqn:L.
    + destruct A as (A1 & A2 & A3), B as (B1 & B2 & B3). rewrite Ex in A2, B2. apply (opp_join F _ _ true q); auto.
      intros _. rewrite A3, B3 by (match goal with |- is_nan ?z = false => destruct z; (discriminate || reflexivity) end). destruct (Bsign x), (Bsign y); reflexivity.
    + unfold binary_overflow in A, B. cbn in A, B. apply B2SF_inj. rewrite B. unfold fneg at 1. destruct (fdiv x y); try discriminate A. simpl in *. injection A as ->.
      destruct (Bsign x), (Bsign y); reflexivity.
  - destruct x as [sx|sx| |sx mx ex Hx], y as [sy|sy| |sy my ey Hy]; try discriminate E; try reflexivity; destruct sx, sy; reflexivity.
Qed.

(** multiplication by 1 and -1 is exact *)
Lemma fmul_one : forall F (y : flt F), fmul (fint F 1) y = y.
Proof.
  intros F y. assert (isf (fint F 1) 1) as [F1 V1]. { apply isf_fint. pose proof (Z.pow_gt_1 2 (fprec F)). pose proof (fmt_pos F). lia. }
  assert (Bsign (fint F 1) = false) as S1 by (destruct F; reflexivity).
  destruct (is_finite y) eqn:E.
  - pose proof (Bmult_correct (fprec F) (femax F) _ _ mode_NE (fint F 1) y) as A. fold (fmul (fint F 1) y) in A. rewrite V1, Rmult_1_l, F1, S1, E, xorb_false_l in A.
    rewrite round_generic in A by (apply valid_rnd_N || apply generic_format_B2R). rewrite Rlt_bool_true in A by apply abs_B2R_lt_emax.
    destruct A as (A1 & A2 & A3). apply B2R_Bsign_inj; try assumption. apply A3. match goal with |- is_nan ?z = false => destruct z; (discriminate || reflexivity) end.
  - destruct (fint F 1) as [s|s| |s m e H] eqn:K; try discriminate F1; [simpl in V1; lra|]. simpl in S1. subst s. destruct y as [sy|sy| |]; try discriminate E; [destruct sy|]; reflexivity.
Qed.
