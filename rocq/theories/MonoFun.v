(** Monotone functions: the wrappers. *)
From Coq Require Import ZArith Reals Bool Lia Lra.
From Flocq Require Import Core.Core IEEE754.BinarySingleNaN.
From Verif Require Import CModel FloatModel Libm LibmSpec WidthConv Wrappers Conversion Codec Spec FloatSpec CodeFacts SpecFacts ValueFacts RoundFacts WidthFacts WidthApi WidthProps FloatFacts Machine LibmIdeal WrapApi WrapSpec LogApi LinApi LinProps FloatSym LogConv WrapTotal FloatAcc FixFacts WrapAcc WrapMain WrapRefute LogAlgebra FunSym FunSym2 MonoFloat MonoSpec MonoConv.
Local Open Scope R_scope.

(** ** NaN results *)
Lemma nan_div_l : forall F (x c : flt F), is_nan (fdiv x c) = false -> is_nan x = false.
Proof. intros F [s|s| |s m e K] [t|t| |t p q L] H; (reflexivity || discriminate H). Qed.
Lemma nan_div_r : forall F (x c : flt F), is_nan (fdiv c x) = false -> is_nan x = false.
Proof. intros F [s|s| |s m e K] [t|t| |t p q L] H; (reflexivity || discriminate H). Qed.
Lemma nan_mul_r : forall F (x c : flt F), is_nan (fmul c x) = false -> is_nan x = false.
Proof. intros F [s|s| |s m e K] [t|t| |t p q L] H; (reflexivity || discriminate H). Qed.
Lemma nan_sub_l : forall F (x c : flt F), is_nan (fsub x c) = false -> is_nan x = false.
Proof. intros F [s|s| |s m e K] [t|t| |t p q L] H; (reflexivity || discriminate H). Qed.
Lemma nan_add_l : forall F (x c : flt F), is_nan (fadd x c) = false -> is_nan x = false.
Proof. intros F [s|s| |s m e K] [t|t| |t p q L] H; (reflexivity || discriminate H). Qed.
Lemma nan_cast : forall F G (x : flt F), is_nan (fcast G x) = false -> is_nan x = false.
Proof. intros F G [s|s| |s m e K] H; (reflexivity || discriminate H). Qed.

(** ** Signs *)
Lemma isf_nonneg : forall F (x : flt F) a, isf x a -> 0 < a -> nonneg x.
Proof. intros F x a H P. destruct (pos_finite F x a H P) as (m & e & K & ->). split; reflexivity. Qed.
Lemma cast_nonneg : forall F G (x : flt F), nonneg x -> nonneg (fcast G x).
Proof.
  intros F G x [N S]. destruct x as [s|s| |s m e K]; try discriminate; simpl in S; subst s; try (split; reflexivity).
  destruct (xrnd_cast F G (B754_finite false m e K) eq_refl) as [NN _]. split; [assumption|]. unfold fcast in *.
  pose proof (binary_normalize_correct (fprec G) (femax G) _ _ mode_NE (cond_Zopp false (Zpos m)) e false) as H. cbv zeta in H.
  assert (0 < F2R (Float radix2 (cond_Zopp false (Z.pos m)) e)) as P by (apply F2R_gt_0; reflexivity). rewrite Rcompare_Gt in H by assumption. rewrite (Rlt_bool_false (F2R _)) in H by lra.
  revert H. match goal with |- context [binary_normalize ?a ?b ?c ?d ?f ?g ?h ?i] => generalize (binary_normalize a b c d f g h i) end. intros z H.
  destruct (Rlt_bool _ _); [apply H|]. unfold binary_overflow in H. simpl in H. destruct z as [s|s| |s p q L]; try discriminate H. cbn in H. simpl. congruence.
Qed.
Lemma cast_nonpos : forall F G (x : flt F), nonpos x -> nonpos (fcast G x).
Proof.
  intros F G x [N S]. assert (nonneg (fneg x)) as P by (destruct x; try discriminate; simpl in S; subst; split; reflexivity). apply (cast_nonneg F G) in P. rewrite fcast_neg in P.
  destruct P as [P1 P2]. destruct (fcast G x) as [s|s| |s m e K]; try discriminate; split; try reflexivity; simpl in *; destruct s; (reflexivity || discriminate).
Qed.
Lemma fneg_nonpos : forall F (x : flt F), nonpos x -> nonneg (fneg x).
Proof. intros F x [N S]. destruct x; try discriminate; simpl in S; subst; split; reflexivity. Qed.
Lemma fneg_nonneg : forall F (x : flt F), nonneg x -> nonpos (fneg x).
Proof. intros F x [N S]. destruct x; try discriminate; simpl in S; subst; split; reflexivity. Qed.
Lemma fle_neg : forall F (x y : flt F), fle x y = true -> fle (fneg y) (fneg x) = true.
Proof.
  intros F x y H. destruct (le_nan F x y H) as [Nx Ny]. assert (forall z : flt F, is_nan (fneg z) = is_nan z /\ xv (fneg z) = - xv z) as K.
  { intros z. destruct z as [s|s| |s m e K]; simpl; split; try reflexivity; try ring; [destruct s; simpl; ring|]. change (B2R (Bopp (B754_finite s m e K)) = - B2R (B754_finite s m e K)). apply B2R_Bopp. }
  destruct (K x) as [N1 V1], (K y) as [N2 V2]. apply le_xv; [congruence|congruence|]. apply le_xv in H; try assumption. lra.
Qed.
Lemma inv_anti_neg : forall F (c x y : flt F) v, isf c v -> 0 < v -> nonpos x -> nonpos y -> fle x y = true -> fle (fdiv c y) (fdiv c x) = true.
Proof.
  intros F c x y v Ic P Px Py H. pose proof (inv_anti F c (fneg y) (fneg x) v Ic P (fneg_nonpos _ _ Py) (fneg_nonpos _ _ Px) (fle_neg _ _ _ H)) as K.
  rewrite !fdiv_neg_r in K. apply fle_neg in K. rewrite !fneg_neg in K. exact K.
Qed.
Lemma inv_nonpos : forall F (c x : flt F) v, isf c v -> 0 < v -> nonpos x -> nonpos (fdiv c x).
Proof.
  intros F c x v Ic P Px. pose proof (inv_nonneg F c (fneg x) v Ic P (fneg_nonpos _ _ Px)) as K. rewrite fdiv_neg_r in K. apply fneg_nonneg in K. rewrite fneg_neg in K. exact K.
Qed.
Lemma close_pos : forall k F r (y : flt F), close k F r y -> 0 < r -> nonneg y.
Proof. intros k F r y (N & _ & S & _) P. split; [assumption|]. rewrite S by lra. apply Rlt_bool_false. lra. Qed.
Lemma close_neg : forall k F r (y : flt F), close k F r y -> r < 0 -> nonpos y.
Proof. intros k F r y (N & _ & S & _) P. split; [assumption|]. rewrite S by lra. apply Rlt_bool_true. lra. Qed.
Lemma close_ninf : forall k F r (y : flt F), close k F r y -> -1 <= r -> y <> B754_infinity true.
Proof.
  intros k F r y (N & Z0 & S & Fi & _) H E. subst y. destruct (Rtotal_order r 0) as [Q|[Q|Q]].
  - assert (is_finite (B754_infinity true : flt F) = true); [|discriminate]. apply Fi. rewrite Rabs_left by assumption.
    apply Rle_trans with 1; [lra|]. change 1 with (bpow radix2 0). apply bpow_le. destruct F; simpl; lia.
  - destruct (Z0 Q) as [K _]. discriminate K.
  - specialize (S ltac:(lra)). rewrite Rlt_bool_false in S by lra. discriminate S.
Qed.
Lemma ninf_le : forall F (x y : flt F), fle x y = true -> x <> B754_infinity true -> y <> B754_infinity true.
Proof.
  intros F x y H N ->. destruct (le_nan F _ _ H) as [Nx _]. apply le_xv in H; [|assumption|reflexivity]. apply N. apply (xv_inf F x Nx). exact H.
Qed.
Lemma nonneg_ninf : forall F (x : flt F), nonneg x -> x <> B754_infinity true.
Proof. intros F x [_ S] ->. discriminate S. Qed.

(** ** Result fixers *)
Inductive fixclass := FXexp | FXover | FXodd | FXlog | FXcsch | FXsech | FXnone.
Definition fixclass_of (u : unary_name) : fixclass :=
  match u with
  | n_exp | n_2_raised | n_10_raised => FXexp
  | n_exp_minus_1 | n_2_raised_minus_1 | n_10_raised_minus_1 | n_arcosh | n_cosh => FXover
  | n_ln | n_ln_1_plus | n_lb | n_lb_1_plus | n_lg | n_lg_1_plus => FXlog
  | n_arsinh | n_sinh => FXodd | n_csch => FXcsch | n_sech => FXsech | _ => FXnone
  end.
Definition fixcond (u : unary_name) (a : R) {F} (y : flt F) : Prop :=
  match fixclass_of u with
  | FXexp | FXsech => nonneg y
  | FXover => y <> B754_infinity true
  | FXcsch => (0 < a /\ nonneg y) \/ (a < 0 /\ nonpos y)
  | _ => True
  end.
Definition fixer_of (c : fixclass) : fixer1 :=
  match c with FXexp => fix_exp | FXover => fix_over | FXodd => fix_over_odd | FXlog => fix_log | FXcsch => fix_csch | FXsech => fix_sech | FXnone => fix1_none end.
Lemma fixer_class : forall u, unary_fixer u = fixer_of (fixclass_of u).
Proof. intros []; reflexivity. Qed.

Definition zfix (u : unary_name) : bool := match fixclass_of u with FXexp | FXsech | FXcsch => true | _ => false end.

(** the result for a float y, once fixed and converted *)
Inductive fixed (u : unary_name) (a : R) (n : Z) {F} (T : flt F -> outcome Z) (y : flt F) (t : Z) : Prop :=
| fixed_self : is_finite y = true -> T y = Val t -> (zfix u = true -> xv y <> 0) -> fixed u a n T y t
| fixed_zero_pos : xv y = 0 -> t = 1%Z -> zfix u = true -> (u = n_csch -> 0 < a) -> fixed u a n T y t
| fixed_zero_neg : xv y = 0 -> t = (-1)%Z -> u = n_csch -> a < 0 -> fixed u a n T y t
| fixed_big : y = B754_infinity false -> t = (2 ^ (n - 1) - 1)%Z -> fixed u a n T y t
| fixed_low : y = B754_infinity true -> t = (1 - 2 ^ (n - 1))%Z -> fixed u a n T y t.

Lemma feq_zero : forall F (y : flt F), feq y (fzero F) = true -> exists s, y = B754_zero s.
Proof. intros F [s|s| |s m e K] H; try (destruct s; discriminate H); [eauto|discriminate]. Qed.
Lemma xv_nonneg : forall F (y : flt F), nonneg y -> 0 <= xv y.
Proof. intros F y [N S]. destruct y as [s|s| |s m e K]; try discriminate; simpl in S; subst s; simpl; [lra|apply bpow_ge_0|apply Rlt_le, F2R_gt_0; reflexivity]. Qed.
Lemma xv_nonpos : forall F (y : flt F), nonpos y -> xv y <= 0.
Proof. intros F y [N S]. destruct y as [s|s| |s m e K]; try discriminate; simpl in S; subst s; simpl; [lra|pose proof (bpow_ge_0 radix2 (femax F)); lra|apply Rlt_le, F2R_lt_0; reflexivity]. Qed.
Lemma xv_zero : forall F (y : flt F), is_nan y = false -> xv y = 0 -> feq y (fzero F) = true.
Proof.
  intros F y N H. pose proof (bpow_gt_0 radix2 (femax F)). destruct y as [s|s| |s m e K]; try discriminate; simpl in H; [destruct s; reflexivity|destruct s; lra|]. exfalso.
  destruct s; [pose proof (F2R_lt_0 radix2 (Float radix2 (Zneg m) e) ltac:(reflexivity))|pose proof (F2R_gt_0 radix2 (Float radix2 (Zpos m) e) ltac:(reflexivity))]; simpl in *; lra.
Qed.
Lemma csch_class : forall u, fixclass_of u = FXcsch -> u = n_csch.
Proof. intros []; (reflexivity || discriminate). Qed.
Lemma not_csch : forall u, fixclass_of u <> FXcsch -> u = n_csch -> False.
Proof. intros u H ->. apply H. reflexivity. Qed.
Lemma fixes : forall u n F T (x y : flt F) a t, conv_ok n F T -> isf x a -> fixcond u a y -> T (unary_fixer u F x y) = Val t -> t <> nar n ->
  is_nan y = false /\ fixed u a n T y t.
Proof.
  intros u n F T x y a t K Ix Hc Ht Nt. rewrite fixer_class in Ht. unfold fixcond in Hc.
  destruct (k_dmin n F T K) as [D1 D2]. destruct (k_dmax n F T K) as [D3 D4]. pose proof (k_n n F T K) as Hn.
  assert (T y = Val t -> is_finite y = true) as FI.
  { intros E. destruct (k_val n F T K y) as (t' & E' & [_ N] & _). rewrite E in E'. assert (t' = t) as -> by congruence. destruct (is_finite y); [reflexivity|]. exfalso. apply Nt, N. reflexivity. }
  assert ((zfix u = true -> feq y (fzero F) = false) -> T y = Val t -> is_nan y = false /\ fixed u a n T y t) as SELF.
  { intros Z E. specialize (FI E). assert (is_nan y = false) as N by (destruct y; (discriminate || reflexivity)). split; [assumption|]. apply fixed_self; auto.
    intros Zu Xy. specialize (Z Zu). rewrite (xv_zero F y N Xy) in Z. discriminate Z. }
  unfold zfix in SELF. destruct (fixclass_of u) eqn:Ec; cbn [fixer_of] in Ht.
  - unfold fix_exp in Ht. destruct (feq y (fzero F)) eqn:E.
    + apply feq_zero in E as [s ->]. assert (t = 1%Z) as -> by congruence. split; [reflexivity|]. apply fixed_zero_pos; [reflexivity|reflexivity|unfold zfix; rewrite Ec; reflexivity|]. intros Q. exfalso. apply (not_csch u); [congruence|assumption].
    + destruct (fisinf y) eqn:Ei; [|apply SELF; auto].
      destruct y as [s|s| |s m e L]; try discriminate Ei. destruct Hc as [_ Hs]. simpl in Hs. subst s. assert (t = (2 ^ (n - 1) - 1)%Z) as -> by congruence.
      split; [reflexivity|]. apply fixed_big; reflexivity.
  - unfold fix_over in Ht. destruct (fisinf y) eqn:Ei; [|apply SELF; [discriminate|assumption]].
    destruct y as [s|s| |s m e L]; try discriminate Ei. destruct s; [contradiction|]. assert (t = (2 ^ (n - 1) - 1)%Z) as -> by congruence.
    split; [reflexivity|]. apply fixed_big; reflexivity.
  - unfold fix_over_odd in Ht. destruct (fisinf y) eqn:Ei; [|apply SELF; [discriminate|assumption]].
    destruct y as [s|s| |s m e L]; try discriminate Ei. destruct s; simpl in Ht.
    + assert (t = (1 - 2 ^ (n - 1))%Z) as -> by congruence. split; [reflexivity|]. apply fixed_low; reflexivity.
    + assert (t = (2 ^ (n - 1) - 1)%Z) as -> by congruence. split; [reflexivity|]. apply fixed_big; reflexivity.
  - unfold fix_log in Ht. destruct (fisinf y) eqn:Ei; [|apply SELF; [discriminate|assumption]].
    destruct y as [s|s| |s m e L]; try discriminate Ei. destruct s; simpl in Ht.
    + specialize (FI Ht). discriminate FI.
    + assert (t = (2 ^ (n - 1) - 1)%Z) as -> by congruence. split; [reflexivity|]. apply fixed_big; reflexivity.
  - unfold fix_csch in Ht. destruct (feq y (fzero F)) eqn:E; [|apply SELF; auto].
    apply feq_zero in E as [s ->]. rewrite (flt_isf _ _ _ _ Ix (FloatFacts.isf_zero F)) in Ht. destruct Hc as [[Pa Hc]|[Pa Hc]].
    + rewrite Rlt_bool_false in Ht by lra. assert (t = 1%Z) as -> by congruence. split; [reflexivity|]. apply fixed_zero_pos; auto. unfold zfix. rewrite Ec. reflexivity.
    + rewrite Rlt_bool_true in Ht by lra. assert (t = (-1)%Z) as -> by congruence. split; [reflexivity|]. apply fixed_zero_neg; auto. apply csch_class. assumption.
  - unfold fix_sech in Ht. destruct (feq y (fzero F)) eqn:E; [|apply SELF; auto].
    apply feq_zero in E as [s ->]. assert (t = 1%Z) as -> by congruence. split; [reflexivity|]. apply fixed_zero_pos; [reflexivity|reflexivity|unfold zfix; rewrite Ec; reflexivity|]. intros Q. exfalso. apply (not_csch u); [congruence|assumption].
  - unfold fix1_none in Ht. apply SELF; [discriminate|assumption].
Qed.

(** fixing and converting keep the order *)
Lemma fix_mono : forall u n F T (x x' y y' : flt F) a b t t', conv_ok n F T -> isf x a -> isf x' b -> fixcond u a y -> fixcond u b y' -> 0 < a * b \/ u <> n_csch ->
  T (unary_fixer u F x y) = Val t -> T (unary_fixer u F x' y') = Val t' -> t <> nar n -> t' <> nar n -> fle y y' = true -> (t <= t')%Z.
Proof.
  intros u n F T x x' y y' a b t t' K Ix Ix' Hc Hc' Hab Ht Ht' Nt Nt' H. pose proof (k_n n F T K) as Hn.
  assert (2 ^ 7 <= 2 ^ (n - 1))%Z as P7 by (apply Z.pow_le_mono_r; lia). change (2 ^ 7)%Z with 128%Z in P7.
  destruct (fixes u n F T x y a t K Ix Hc Ht Nt) as (N & Fx). destruct (fixes u n F T x' y' b t' K Ix' Hc' Ht' Nt') as (N' & Fx').
  apply le_xv in H; [|assumption|assumption]. pose proof (bpow_gt_0 radix2 (femax F)) as PB.
  assert (forall z v, is_finite z = true -> T z = Val v -> xv z = B2R z /\ (- 2 ^ (n - 1) < v < 2 ^ (n - 1))%Z /\ ((0 < v)%Z <-> 0 < xv z) /\ ((v < 0)%Z <-> xv z < 0) /\ - bpow radix2 (femax F) < xv z < bpow radix2 (femax F)) as V.
  { intros z v Fz Ez. destruct (xv_fin F z Fz) as [E B]. destruct (k_val n F T K z) as (v' & E' & _ & Q). rewrite Ez in E'. assert (v' = v) as -> by congruence. destruct (Q Fz) as (Q1 & Q2 & Q3). rewrite E in *. tauto. }
  assert (forall z : flt F, z = B754_infinity false -> xv z = bpow radix2 (femax F)) as XP by (intros z ->; reflexivity).
  assert (forall z : flt F, z = B754_infinity true -> xv z = - bpow radix2 (femax F)) as XM by (intros z ->; reflexivity).
  destruct Fx as [Fy Ty Zy|Zy -> Zu Pa|Zy -> Eu Pa|Ey ->|Ey ->]; destruct Fx' as [Fy' Ty' Zy'|Zy' -> Zu' Pb|Zy' -> Eu' Pb|Ey' ->|Ey' ->];
    repeat match goal with HH : is_finite ?z = true, HT : T ?z = Val ?v |- _ => destruct (V z v HH HT) as (? & ? & ? & ? & ?); clear HH end;
    try (apply XP in Ey); try (apply XP in Ey'); try (apply XM in Ey); try (apply XM in Ey'); try lia; try (exfalso; lra).
  - apply (k_mono n F T K y y'); try assumption; [destruct (is_finite y) eqn:Q|destruct (is_finite y') eqn:Q|lra]; try reflexivity.
    + destruct y as [s|s| |]; try discriminate; simpl in *; destruct s; lra.
    + destruct y' as [s|s| |]; try discriminate; simpl in *; destruct s; lra.
  - specialize (Zy Zu'). assert (xv y < 0) as Q by lra. apply H3 in Q. lia.
  - assert (zfix u = true) as Zu by (rewrite Eu'; reflexivity). specialize (Zy Zu). assert (xv y < 0) as Q by lra. apply H3 in Q. lia.
  - specialize (Zy' Zu). assert (0 < xv y') as Q by lra. apply H2 in Q. lia.
  - destruct Hab as [Hab|Hab]; [|contradiction]. specialize (Pa Eu'). exfalso. nra.
  - assert (zfix u = true) as Zu by (rewrite Eu; reflexivity). specialize (Zy' Zu). assert (0 < xv y') as Q by lra. apply H2 in Q. lia.
Qed.
