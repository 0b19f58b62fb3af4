(** The order of floats and the operations that respect it. *)
From Coq Require Import ZArith Reals Bool Lia Lra.
From Flocq Require Import Core.Core IEEE754.BinarySingleNaN.
From Verif Require Import CModel FloatModel Libm LibmSpec FloatFacts LibmIdeal.
Local Open Scope R_scope.

(** a float as a real number, the infinities at the end of the range *)
Definition xv {F} (x : flt F) : R :=
  match x with B754_infinity s => if s then - bpow radix2 (femax F) else bpow radix2 (femax F) | _ => B2R x end.

Lemma xv_fin : forall F (x : flt F), is_finite x = true -> xv x = B2R x /\ - bpow radix2 (femax F) < xv x < bpow radix2 (femax F).
Proof.
  intros F x H. assert (xv x = B2R x) as E by (destruct x; (discriminate || reflexivity)). split; [assumption|]. rewrite E.
  pose proof (abs_B2R_lt_emax (fprec F) (femax F) x) as B. apply Rabs_lt_inv in B. exact B.
Qed.
Lemma xv_isf : forall F (x : flt F) a, isf x a -> xv x = a.
Proof. intros F x a [H <-]. apply xv_fin. assumption. Qed.
Lemma xv_bound : forall F (x : flt F), - bpow radix2 (femax F) <= xv x <= bpow radix2 (femax F).
Proof.
  intros F x. destruct (is_finite x) eqn:H; [destruct (xv_fin F x H); lra|]. pose proof (bpow_gt_0 radix2 (femax F)).
  destruct x as [s|s| |s m e K]; try discriminate H; [destruct s|]; simpl; lra.
Qed.
Lemma xv_inf : forall F (x : flt F), is_nan x = false -> (bpow radix2 (femax F) <= xv x <-> x = B754_infinity false) /\ (xv x <= - bpow radix2 (femax F) <-> x = B754_infinity true).
Proof.
  intros F x N. pose proof (bpow_gt_0 radix2 (femax F)). destruct (is_finite x) eqn:Hf.
  - destruct (xv_fin F x Hf). repeat split; intros; try lra; subst; discriminate.
  - destruct x as [s|s| |s m e K]; try discriminate. destruct s; simpl; repeat split; intros; try lra; try reflexivity; discriminate.
Qed.

Lemma le_nan : forall F (x y : flt F), fle x y = true -> is_nan x = false /\ is_nan y = false.
Proof. intros F x y H. destruct x as [s|s| |s m e K], y as [s'|s'| |s' m' e' K']; try discriminate H; try (destruct s; discriminate H); split; reflexivity. Qed.
Lemma le_xv : forall F (x y : flt F), is_nan x = false -> is_nan y = false -> (fle x y = true <-> xv x <= xv y).
Proof.
  intros F x y Nx Ny. pose proof (bpow_gt_0 radix2 (femax F)) as P. destruct (is_finite x) eqn:Fx; [destruct (is_finite y) eqn:Fy|].
  - destruct (xv_fin F x Fx) as [-> _]. destruct (xv_fin F y Fy) as [-> _]. rewrite (fle_isf x y _ _ (conj Fx eq_refl) (conj Fy eq_refl)).
    destruct (Rle_bool_spec (B2R x) (B2R y)); split; intros; (reflexivity || lra || discriminate || assumption).
  - destruct (xv_fin F x Fx) as [_ B]. destruct y as [s'|s'| |s' m' e' K']; try discriminate. 
    assert (fle x (B754_infinity s') = negb s') as E by (destruct x as [s|s| |s m e K]; try discriminate; destruct s'; try reflexivity; destruct s; reflexivity).
    rewrite E. destruct s'; simpl; split; intros; (reflexivity || lra || discriminate).
  - pose proof (xv_bound F y) as B. destruct x as [s|s| |s m e K]; try discriminate. destruct s.
    + assert (fle (B754_infinity true) y = true) as E by (destruct y as [s'|s'| |s' m' e' K']; try discriminate; try reflexivity; destruct s'; reflexivity).
      rewrite E. simpl. split; intros; (reflexivity || lra).
    + assert (fle (B754_infinity false) y = true <-> y = B754_infinity false) as E.
      { destruct y as [s'|s'| |s' m' e' K']; try discriminate; try (split; discriminate). destruct s'; simpl; split; (reflexivity || discriminate). }
      rewrite E. rewrite <- (proj1 (xv_inf F y Ny)). simpl. tauto.
Qed.
Lemma le_refl : forall F (x : flt F), is_nan x = false -> fle x x = true.
Proof. intros F x H. apply le_xv; auto. lra. Qed.
Lemma le_trans : forall F (x y z : flt F), fle x y = true -> fle y z = true -> fle x z = true.
Proof.
  intros F x y z A B. destruct (le_nan _ _ _ A), (le_nan _ _ _ B). apply le_xv; auto. apply le_xv in A; auto. apply le_xv in B; auto. lra.
Qed.

(** ** Rounding with overflow *)
Definition cl (F : fmt) (r : R) : R :=
  if Rle_bool (bpow radix2 (femax F)) r then bpow radix2 (femax F) else if Rle_bool r (- bpow radix2 (femax F)) then - bpow radix2 (femax F) else r.
Lemma cl_mono : forall F r q, r <= q -> cl F r <= cl F q.
Proof.
  intros F r q H. pose proof (bpow_gt_0 radix2 (femax F)). unfold cl.
  repeat match goal with |- context [Rle_bool ?a ?b] => destruct (Rle_bool_spec a b) end; lra.
Qed.
Definition xrnd {F} (z : flt F) (r : R) : Prop := is_nan z = false /\ xv z = cl F (RF F r).
Lemma xrnd_le : forall F (z z' : flt F) r r', xrnd z r -> xrnd z' r' -> r <= r' -> fle z z' = true.
Proof. intros F z z' r r' [N V] [N' V'] H. apply le_xv; auto. rewrite V, V'. apply cl_mono, RF_mono. assumption. Qed.

Lemma xrnd_fin : forall F (z : flt F) r, Rabs (RF F r) < bpow radix2 (femax F) -> isf z (RF F r) -> xrnd z r.
Proof.
  intros F z r B [Hf Hv]. split; [destruct z; (discriminate || reflexivity)|]. destruct (xv_fin F z Hf) as [-> _]. rewrite Hv.
  apply Rabs_lt_inv in B. unfold cl. rewrite !Rle_bool_false by lra. reflexivity.
Qed.
Lemma xrnd_over : forall F (z : flt F) r s, bpow radix2 (femax F) <= Rabs (RF F r) -> B2SF z = binary_overflow (fprec F) (femax F) mode_NE s ->
  (s = true -> r <= 0) -> (s = false -> 0 <= r) -> xrnd z r.
Proof.
  intros F z r s B E S1 S2. pose proof (bpow_gt_0 radix2 (femax F)) as P. unfold binary_overflow in E. simpl in E.
  destruct z as [t|t| |t m e K]; try discriminate E. injection E as ->. split; [reflexivity|]. destruct (RF_sign F r) as [R1 R2]. unfold cl. destruct s; simpl.
  - specialize (R2 (S1 eq_refl)). rewrite Rabs_left1 in B by assumption. rewrite Rle_bool_false, Rle_bool_true by lra. reflexivity.
  - specialize (R1 (S2 eq_refl)). rewrite Rabs_pos_eq in B by assumption. rewrite Rle_bool_true by lra. reflexivity.
Qed.
Lemma fin_sign : forall F (x : flt F), (Bsign x = true -> B2R x <= 0) /\ (Bsign x = false -> 0 <= B2R x).
Proof.
  intros F [s|s| |s m e K]; try (split; simpl; lra). split; simpl; intros ->; [apply Rlt_le, F2R_lt_0|apply Rlt_le, F2R_gt_0]; reflexivity.
Qed.
Lemma over_0 : forall F, Rabs (RF F 0) < bpow radix2 (femax F).
Proof. intros F. rewrite RF_0, Rabs_R0. apply bpow_gt_0. Qed.

Lemma xrnd_add : forall F (x y : flt F), is_finite x = true -> is_finite y = true -> xrnd (fadd x y) (B2R x + B2R y).
Proof.
  intros F x y Fx Fy. pose proof (Bplus_correct (fprec F) (femax F) _ _ mode_NE x y Fx Fy) as H. fold (fadd x y) in H.
  match type of H with context [Rlt_bool (Rabs ?q) ?b] => change q with (RF F (B2R x + B2R y)) in H; destruct (Rlt_bool_spec (Rabs (RF F (B2R x + B2R y))) b) as [L|L] end.
  - destruct H as (H1 & H2 & _). apply xrnd_fin; [assumption|split; assumption].
  - destruct H as (H1 & H2). destruct (fin_sign F x) as [X1 X2]. destruct (fin_sign F y) as [Y1 Y2]. rewrite <- H2 in Y1, Y2.
    eapply xrnd_over; [assumption|exact H1| |]; intros E; [specialize (X1 E); specialize (Y1 E)|specialize (X2 E); specialize (Y2 E)]; lra.
Qed.
Lemma xrnd_sub : forall F (x y : flt F), is_finite x = true -> is_finite y = true -> xrnd (fsub x y) (B2R x - B2R y).
Proof.
  intros F x y Fx Fy. pose proof (Bminus_correct (fprec F) (femax F) _ _ mode_NE x y Fx Fy) as H. fold (fsub x y) in H.
  match type of H with context [Rlt_bool (Rabs ?q) ?b] => change q with (RF F (B2R x - B2R y)) in H; destruct (Rlt_bool_spec (Rabs (RF F (B2R x - B2R y))) b) as [L|L] end.
  - destruct H as (H1 & H2 & _). apply xrnd_fin; [assumption|split; assumption].
  - destruct H as (H1 & H2). destruct (fin_sign F x) as [X1 X2]. destruct (fin_sign F y) as [Y1 Y2]. rewrite H2 in *.
    eapply xrnd_over; [assumption|exact H1| |]; intros E; specialize (X1) ; destruct (Bsign y); try discriminate E; [specialize (X1 eq_refl); specialize (Y2 eq_refl)|specialize (X2 eq_refl); specialize (Y1 eq_refl)]; lra.
Qed.
Lemma xor_sign : forall F (x y : flt F), (xorb (Bsign x) (Bsign y) = true -> B2R x * B2R y <= 0) /\ (xorb (Bsign x) (Bsign y) = false -> 0 <= B2R x * B2R y).
Proof.
  intros F x y. destruct (fin_sign F x) as [X1 X2]. destruct (fin_sign F y) as [Y1 Y2].
  destruct (Bsign x); [specialize (X1 eq_refl)|specialize (X2 eq_refl)]; (destruct (Bsign y); [specialize (Y1 eq_refl)|specialize (Y2 eq_refl)]); simpl; split; intros; try discriminate.
  - rewrite <- Rmult_opp_opp. apply Rmult_le_pos; lra.
  - rewrite <- (Ropp_involutive (B2R x * B2R y)), <- Ropp_0. apply Ropp_le_contravar. rewrite <- Ropp_mult_distr_l_reverse. apply Rmult_le_pos; lra.
  - rewrite <- (Ropp_involutive (B2R x * B2R y)), <- Ropp_0. apply Ropp_le_contravar. rewrite <- Ropp_mult_distr_r_reverse. apply Rmult_le_pos; lra.
  - apply Rmult_le_pos; assumption.
Qed.
Lemma xrnd_mul : forall F (x y : flt F), is_finite x = true -> is_finite y = true -> xrnd (fmul x y) (B2R x * B2R y).
Proof.
  intros F x y Fx Fy. pose proof (Bmult_correct (fprec F) (femax F) _ _ mode_NE x y) as H. fold (fmul x y) in H. rewrite Fx, Fy in H.
  match type of H with context [Rlt_bool (Rabs ?q) ?b] => change q with (RF F (B2R x * B2R y)) in H; destruct (Rlt_bool_spec (Rabs (RF F (B2R x * B2R y))) b) as [L|L] end.
  - destruct H as (H1 & H2 & _). apply xrnd_fin; [assumption|split; assumption].
  - eapply xrnd_over; [assumption|exact H| |]; apply xor_sign.
Qed.
Lemma xrnd_div : forall F (x y : flt F), is_finite x = true -> B2R y <> 0 -> xrnd (fdiv x y) (B2R x / B2R y).
Proof.
  intros F x y Fx Ny. pose proof (Bdiv_correct (fprec F) (femax F) _ _ mode_NE x y Ny) as H. fold (fdiv x y) in H. rewrite Fx in H.
  match type of H with context [Rlt_bool (Rabs ?q) ?b] => change q with (RF F (B2R x / B2R y)) in H; destruct (Rlt_bool_spec (Rabs (RF F (B2R x / B2R y))) b) as [L|L] end.
  - destruct H as (H1 & H2 & _). apply xrnd_fin; [assumption|split; assumption].
  - assert (B2R x / B2R y = B2R x * B2R y * / (B2R y * B2R y)) as E by (field; assumption). rewrite E.
    assert (0 < B2R y * B2R y) as P2. { destruct (Rtotal_order (B2R y) 0) as [K|[K|K]]; [|contradiction|apply Rmult_lt_0_compat; assumption]. rewrite <- Rmult_opp_opp. apply Rmult_lt_0_compat; lra. }
    apply Rinv_0_lt_compat in P2. rewrite E in L. eapply xrnd_over; [exact L|exact H| |]; intros S; apply xor_sign in S.
    + rewrite <- (Rmult_0_l (/ (B2R y * B2R y))). apply Rmult_le_compat_r; lra.
    + apply Rmult_le_pos; lra.
Qed.
Lemma xrnd_cast : forall F G (x : flt F), is_finite x = true -> xrnd (fcast G x) (B2R x).
Proof.
  intros F G x Fx. destruct x as [s|s| |s m e K]; try discriminate.
  - cbn [fcast B2R]. apply xrnd_fin; [apply over_0|]. rewrite RF_0. split; reflexivity.
  - unfold fcast. pose proof (binary_normalize_correct (fprec G) (femax G) _ _ mode_NE (cond_Zopp s (Zpos m)) e s) as H. cbv zeta in H.
    change (F2R (Float radix2 (cond_Zopp s (Z.pos m)) e)) with (B2R (B754_finite s m e K : flt F)) in H. set (x := B754_finite s m e K : flt F) in *.
    match type of H with context [Rlt_bool (Rabs ?q) ?b] => change q with (RF G (B2R x)) in H; destruct (Rlt_bool_spec (Rabs (RF G (B2R x))) b) as [L|L] end.
    + destruct H as (H1 & H2 & _). apply xrnd_fin; [assumption|split; assumption].
    + eapply xrnd_over; [exact L|exact H| |]; destruct (Rlt_bool_spec (B2R x) 0); intros; (discriminate || lra).
Qed.
Lemma xrnd_real : forall F r, xrnd (of_real F r) r.
Proof.
  intros F r. destruct (of_real_spec F r) as [A B]. destruct (Rlt_le_dec (Rabs (RF F r)) (bpow radix2 (femax F))) as [L|L].
  - apply xrnd_fin; [assumption|]. apply A. assumption.
  - rewrite (B L). eapply xrnd_over; [exact L|reflexivity| |].
    + destruct (Rlt_bool_spec (RF F r) 0); [intros _|discriminate]. destruct (Rle_or_lt r 0); [assumption|]. pose proof (proj1 (RF_sign F r) ltac:(lra)). lra.
    + destruct (Rlt_bool_spec (RF F r) 0); [discriminate|intros _]. destruct (Rle_or_lt 0 r); [assumption|]. pose proof (proj2 (RF_sign F r) ltac:(lra)).
      assert (RF F r = 0) as E by lra. rewrite E, Rabs_R0 in L. pose proof (bpow_gt_0 radix2 (femax F)). lra.
Qed.

(** ** Monotone operations *)
Lemma lift_mono : forall F G (op : flt F -> flt G) (h : R -> R), (forall s, op (B754_infinity s) = B754_infinity s) -> (forall x, is_finite x = true -> xrnd (op x) (h (B2R x))) ->
  (forall a b, a <= b -> h a <= h b) -> forall x y, fle x y = true -> fle (op x) (op y) = true.
Proof.
  intros F G op h Hi Hf Hm x y H. destruct (le_nan F x y H) as [Nx Ny]. apply le_xv in H; try assumption.
  assert (forall z, is_nan z = false -> is_nan (op z) = false) as NN.
  { intros z Nz. destruct (is_finite z) eqn:Fz; [apply (Hf z Fz)|]. destruct z as [s|s| |s m e K]; try discriminate. rewrite Hi. reflexivity. }
  destruct (is_finite x) eqn:Fx; [destruct (is_finite y) eqn:Fy|].
  - apply (xrnd_le G _ _ _ _ (Hf x Fx) (Hf y Fy)). apply Hm. rewrite <- (proj1 (xv_fin F x Fx)), <- (proj1 (xv_fin F y Fy)). assumption.
  - destruct y as [s|s| |s m e K]; try discriminate. rewrite Hi. apply le_xv; [auto|reflexivity|]. destruct s.
    + exfalso. destruct (xv_fin F x Fx). simpl in H. lra.
    + apply xv_bound.
  - destruct x as [s|s| |s m e K]; try discriminate. rewrite Hi. destruct s.
    + apply le_xv; [reflexivity|auto|]. apply xv_bound.
    + assert (y = B754_infinity false) as -> by (apply (xv_inf F y Ny); exact H). rewrite Hi. reflexivity.
Qed.
Lemma cast_mono : forall F G (x y : flt F), fle x y = true -> fle (fcast G x) (fcast G y) = true.
Proof. intros F G x y. apply (lift_mono F G (fcast G) (fun r => r)); [reflexivity|apply xrnd_cast|auto]. Qed.
Lemma sub_mono : forall F (c x y : flt F), is_finite c = true -> fle x y = true -> fle (fsub x c) (fsub y c) = true.
Proof.
  intros F c x y Fc. apply (lift_mono F F (fun x => fsub x c) (fun r => r - B2R c)).
  - intros s. destruct c; try discriminate; reflexivity.
  - intros z Fz. apply xrnd_sub; assumption.
  - intros; lra.
Qed.
Lemma add_mono : forall F (c x y : flt F), is_finite c = true -> fle x y = true -> fle (fadd x c) (fadd y c) = true.
Proof.
  intros F c x y Fc. apply (lift_mono F F (fun x => fadd x c) (fun r => r + B2R c)).
  - intros s. destruct c; try discriminate; reflexivity.
  - intros z Fz. apply xrnd_add; assumption.
  - intros; lra.
Qed.
Lemma pos_finite : forall F (c : flt F) v, isf c v -> 0 < v -> exists m e K, c = B754_finite false m e K.
Proof.
  intros F c v [Fc Vc] P. destruct c as [s|s| |s m e K]; try discriminate; [simpl in Vc; lra|]. destruct s; [|eauto]. exfalso.
  simpl in Vc. pose proof (F2R_lt_0 radix2 (Float radix2 (Zneg m) e) ltac:(reflexivity)). simpl in H. lra.
Qed.
Lemma mul_mono : forall F (c x y : flt F) v, isf c v -> 0 < v -> fle x y = true -> fle (fmul c x) (fmul c y) = true.
Proof.
  intros F c x y v Ic P. apply (lift_mono F F (fmul c) (fun r => v * r)).
  - intros s. destruct (pos_finite F c v Ic P) as (m & e & K & ->). destruct s; reflexivity.
  - intros z Fz. destruct Ic as [Fc <-]. apply xrnd_mul; assumption.
  - intros. apply Rmult_le_compat_l; lra.
Qed.
Lemma div_mono : forall F (c x y : flt F) v, isf c v -> 0 < v -> fle x y = true -> fle (fdiv x c) (fdiv y c) = true.
Proof.
  intros F c x y v Ic P. apply (lift_mono F F (fun x => fdiv x c) (fun r => r / v)).
  - intros s. destruct (pos_finite F c v Ic P) as (m & e & K & ->). destruct s; reflexivity.
  - intros z Fz. destruct Ic as [Fc <-]. apply xrnd_div; [assumption|lra].
  - intros. apply Rmult_le_compat_r; [|assumption]. apply Rlt_le, Rinv_0_lt_compat. assumption.
Qed.

(** 1 / x for positive x, zero and infinity included *)
Definition nonneg {F} (x : flt F) : Prop := is_nan x = false /\ Bsign x = false.
Definition nonpos {F} (x : flt F) : Prop := is_nan x = false /\ Bsign x = true.
Lemma inv_anti : forall F (c x y : flt F) v, isf c v -> 0 < v -> nonneg x -> nonneg y -> fle x y = true ->
  fle (fdiv c y) (fdiv c x) = true.
Proof.
  intros F c x y v Ic P [Nx Sx] [Ny Sy] H. pose proof (bpow_gt_0 radix2 (femax F)) as PB.
  destruct (pos_finite F c v Ic P) as (mc & ec & Kc & Ec).
  assert (forall z : flt F, nonneg z -> is_finite z = true -> B2R z <> 0 -> xrnd (fdiv c z) (v / B2R z)) as D by (intros z _ Fz Nz; destruct Ic as [Fc <-]; apply xrnd_div; assumption).
  destruct x as [sx|sx| |sx mx ex Kx]; try discriminate Nx; simpl in Sx; subst sx.
  - assert (fdiv c (B754_zero false) = B754_infinity false) as -> by (rewrite Ec; reflexivity).
    assert (is_nan (fdiv c y) = false) as N. { destruct y as [s|s| |s m e K]; try discriminate; try (rewrite Ec; reflexivity). simpl in Sy. subst s. apply D; [split; reflexivity|reflexivity|]. simpl. apply Rgt_not_eq, F2R_gt_0. reflexivity. }
    apply le_xv; [assumption|reflexivity|]. apply xv_bound.
  - apply le_xv in H; try assumption; try reflexivity. assert (y = B754_infinity false) as -> by (apply (xv_inf F y Ny); exact H). apply le_refl. rewrite Ec. reflexivity.
  - assert (0 < B2R (B754_finite false mx ex Kx : flt F)) as Px by (apply F2R_gt_0; reflexivity).
    destruct y as [s|s| |s m e K]; try discriminate Ny; simpl in Sy; subst s.
    + exfalso. apply le_xv in H; try reflexivity. simpl in H, Px. lra.
    + assert (fdiv c (B754_infinity false) = B754_zero false) as -> by (rewrite Ec; reflexivity).
      pose proof (D (B754_finite false mx ex Kx) ltac:(split; reflexivity) eq_refl ltac:(lra)) as X. assert (xrnd (B754_zero false : flt F) 0) as Z0 by (apply xrnd_fin; [apply over_0|rewrite RF_0; split; reflexivity]).
      apply (xrnd_le F _ _ _ _ Z0 X).
      apply Rlt_le, Rdiv_lt_0_compat; assumption.
    + assert (0 < B2R (B754_finite false m e K : flt F)) as Py by (apply F2R_gt_0; reflexivity).
      pose proof (D (B754_finite false mx ex Kx) ltac:(split; reflexivity) eq_refl ltac:(lra)) as X. pose proof (D (B754_finite false m e K) ltac:(split; reflexivity) eq_refl ltac:(lra)) as Y.
      apply (xrnd_le F _ _ _ _ Y X).
      apply Rmult_le_compat_l; [lra|]. apply Rinv_le_contravar; [assumption|]. apply le_xv in H; try reflexivity. exact H.
Qed.
Lemma inv_nonneg : forall F (c x : flt F) v, isf c v -> 0 < v -> nonneg x -> nonneg (fdiv c x).
Proof.
  intros F c x v Ic P [Nx Sx]. destruct (pos_finite F c v Ic P) as (mc & ec & Kc & Ec).
  destruct x as [sx|sx| |sx mx ex Kx]; try discriminate Nx; simpl in Sx; subst sx; try (rewrite Ec; split; reflexivity).
  assert (0 < B2R (B754_finite false mx ex Kx : flt F)) as Px by (apply F2R_gt_0; reflexivity). set (x := B754_finite false mx ex Kx : flt F) in *.
  assert (B2R x <> 0) as Nz by lra. pose proof (xrnd_div F c x ltac:(subst c; reflexivity) Nz) as [N _]. split; [assumption|].
  pose proof (Bdiv_correct (fprec F) (femax F) _ _ mode_NE c x Nz) as H. fold (fdiv c x) in H. assert (Bsign c = false) as Sc by (rewrite Ec; reflexivity). rewrite Sc in H.
  destruct (Rlt_bool _ _).
  - destruct H as (_ & _ & H). rewrite H by assumption. reflexivity.
  - unfold binary_overflow in H. simpl in H. destruct (fdiv c x) as [s|s| |s m e K]; try discriminate H. injection H as ->. reflexivity.
Qed.
