(** Proofs about the algebra and the monotonicity of arithmetic of linear
    takums. *)
From Coq Require Import ZArith Reals Bool Lia Lra List.
From Flocq Require Import Core.Core IEEE754.BinarySingleNaN.
From Verif Require Import CModel FloatModel WidthConv Codec Spec FloatSpec CodeFacts SpecFacts ValueFacts RoundFacts
  WidthFacts WidthProps FloatFacts DecodeFacts EncodeFacts PhiFacts Codec8Facts Machine Libm Conversion Wrappers LinApi LinFacts
  LinDec LogProps MiscProps LogFacts PowFacts LinProps LinOps LinGap LinArith.
Local Open Scope R_scope.

(** the takum a float of value r is converted to *)
Definition Cv (n : Z) (r : R) : Z :=
  if Req_EM_T r 0 then 0%Z else
  asm n (Rlt_bool r 0) (enc n (m_psi (from_mach n) (sg (Rlt_bool r 0) * from_rho n (fmt_of n) (lin_coord r)))).
Definition rep (n : Z) (r : R) : Prop := exists y : flt (fmt_of n), isf y r.

Lemma cv_eq : forall n g (y : flt (fmt_of n)) r, linear_from_float n (fmt_of n) g -> isf y r -> g y = Val (Cv n r).
Proof.
  intros n g y r H Hy. destruct (linear_from_form _ _ _ H) as (_ & _ & _ & Hg & Hz & _). unfold Cv.
  destruct (Req_EM_T r 0) as [E|E].
  - rewrite E in Hy. destruct (isf_zero _ _ Hy) as [s ->]. apply Hz.
  - apply Hg; assumption.
Qed.

Lemma from_ex : forall n, std_width n -> exists g h, linear_from_float n (fmt_of n) g /\ linear_to_float n (fmt_of n) h.
Proof. intros n [-> | [-> | [-> | ->]]]; do 2 eexists; split; constructor. Qed.

Lemma cv_mono : forall n r1 r2, std_width n -> rep n r1 -> rep n r2 -> r1 <= r2 -> (Cv n r1 <= Cv n r2)%Z.
Proof.
  intros n r1 r2 Hw [y1 H1] [y2 H2] L. destruct (from_ex n Hw) as (g & h & Hg & _).
  apply (lin_from_mono n (fmt_of n) g y1 y2); auto; try apply H1; try apply H2.
  - destruct H1 as [_ ->], H2 as [_ ->]. assumption.
  - apply cv_eq; assumption.
  - apply cv_eq; assumption.
Qed.

Lemma isf_neg : forall F (y : flt F) r, isf y r -> isf (fneg y) (- r).
Proof.
  intros F y r [Fy <-]. split; [unfold fneg; rewrite is_finite_Bopp; assumption|unfold fneg; apply B2R_Bopp].
Qed.

Lemma cv_odd : forall n r, std_width n -> rep n r -> Cv n (- r) = (- Cv n r)%Z.
Proof.
  intros n r Hw [y Hy]. destruct (from_ex n Hw) as (g & h & Hg & _).
  pose proof (cv_eq n g y r Hg Hy) as E.
  assert (~ (n = 16%Z /\ fmt_of n = f80)) as N by (intros [-> K]; discriminate).
  pose proof (lin_from_odd n (fmt_of n) g y (Cv n r) Hg N (proj1 Hy) E) as E2.
  rewrite (cv_eq n g (fneg y) (- r) Hg (isf_neg _ _ _ Hy)) in E2. congruence.
Qed.

Lemma cv_id : forall n t x, std_width n -> is_intn n t -> value Linear n t = Some x -> Cv n x = t.
Proof.
  intros n t x Hw It V. destruct (from_ex n Hw) as (g & h & Hg & Hh).
  pose proof (lin_trip n (fmt_of n) g h t Hg Hh (fmt_of_exact n) It) as T.
  destruct (lin_operand n h t Hw Hh It) as (y & Ey & K). rewrite V in K. rewrite Ey in T. cbv beta iota delta [bind] in T.
  rewrite (cv_eq n g y x Hg (proj1 K)) in T. congruence.
Qed.

Lemma RF_operand : forall n x, operand n x -> RF (fmt_of n) x = x.
Proof. intros n x (_ & H & _). apply RF_id. assumption. Qed.

(** ** Operations as functions of real numbers *)
Definition real_op (f : Z -> Z -> outcome Z) n (ok : R -> Prop) (z : R -> R -> R) : Prop :=
  std_width n /\ (forall a b x y, is_intn n a -> is_intn n b -> value Linear n a = Some x -> value Linear n b = Some y -> ok y ->
    f a b = Val (Cv n (RF (fmt_of n) (z x y))) /\ rep n (RF (fmt_of n) (z x y))) /\
  (forall a b, is_intn n a -> is_intn n b -> value Linear n a = None \/ value Linear n b = None -> f a b = Val (nar n)).

Lemma binary_real : forall f n op (ok : R -> Prop) z, lin_op f n op ->
  (forall F (y : flt F), op F B754_nan y = B754_nan /\ op F y B754_nan = B754_nan) ->
  (forall n x y a b, operand n a -> operand n b -> ok b -> isf x a -> isf y b -> isf (op (fmt_of n) x y) (RF (fmt_of n) (z a b))) ->
  real_op f n ok z.
Proof.
  intros f n op ok z (w & -> & ->) Hnan Hisf. pose proof (w_std w) as Hw. split; [assumption|].
  destruct (binary_io op w) as (h & g & Hh & Hg & E). split.
  - intros a b x y Ia Ib Va Vb O. rewrite E.
    destruct (lin_operand _ h a Hw Hh Ia) as (fx & Ex & Kx). destruct (lin_operand _ h b Hw Hh Ib) as (fy & Ey & Ky).
    rewrite Va in Kx. rewrite Vb in Ky. rewrite Ex. cbv beta iota delta [bind]. rewrite Ey.
    pose proof (Hisf (bits w) fx fy x y (proj1 (proj2 Kx)) (proj1 (proj2 Ky)) O (proj1 Kx) (proj1 Ky)) as Hi.
    split; [apply cv_eq; assumption|]. eexists. exact Hi.
  - intros a b Ia Ib N. rewrite E.
    destruct (lin_operand _ h a Hw Hh Ia) as (fx & Ex & Kx). destruct (lin_operand _ h b Hw Hh Ib) as (fy & Ey & Ky).
    rewrite Ex. cbv beta iota delta [bind]. rewrite Ey. apply (res_nar _ _ _ _ Hg).
    destruct N as [N|N]; [rewrite N in Kx; rewrite Kx, (proj1 (Hnan _ _))|rewrite N in Ky; rewrite Ky, (proj2 (Hnan _ _))]; reflexivity.
Qed.

Lemma add_real : forall n f, linear_addition n f -> real_op f n anyR Rplus.
Proof. intros n f H. apply (binary_real f n (@fadd)); [apply add_op; assumption|apply fadd_nan|apply fadd_isf]. Qed.
Lemma sub_real : forall n f, linear_subtraction n f -> real_op f n anyR Rminus.
Proof. intros n f H. apply (binary_real f n (@fsub)); [apply sub_op; assumption|apply fsub_nan|apply fsub_isf]. Qed.
Lemma mul_real : forall n f, linear_multiplication n f -> real_op f n anyR Rmult.
Proof. intros n f H. apply (binary_real f n (@fmul)); [apply mul_op; assumption|apply fmul_nan|apply fmul_isf]. Qed.
Lemma div_real : forall n f, linear_division n f -> real_op f n nonzero Rdiv.
Proof. intros n f H. apply (binary_real f n (@fdiv)); [apply div_op; assumption|apply fdiv_nan|apply fdiv_isf]. Qed.

Lemma value_some : forall n t, std_width n -> is_intn n t -> t <> nar n -> exists x, value Linear n t = Some x.
Proof.
  intros n t Hw It H. pose proof (std_range n Hw). destruct (takum_cases n t It) as [-> | [-> | Hr]]; [|contradiction|].
  - eexists. apply value_0.
  - eexists. apply lin_value; [lia|assumption].
Qed.

Lemma comm_op : forall f n z, real_op f n anyR z -> (forall x y, z x y = z y x) -> forall a b, is_intn n a -> is_intn n b -> f a b = f b a.
Proof.
  intros f n z (Hw & H1 & H2) C a b Ia Ib.
  destruct (value Linear n a) as [x|] eqn:Va; [destruct (value Linear n b) as [y|] eqn:Vb|].
  - rewrite (proj1 (H1 a b x y Ia Ib Va Vb I)), (proj1 (H1 b a y x Ib Ia Vb Va I)), C. reflexivity.
  - rewrite !H2 by auto. reflexivity.
  - rewrite !H2 by auto. reflexivity.
Qed.

Lemma neutral_op : forall f n ok z e v, real_op f n ok z -> is_intn n e -> value Linear n e = Some v -> ok v -> (forall x, z x v = x) ->
  forall a, is_intn n a -> f a e = Val a.
Proof.
  intros f n ok z e v (Hw & H1 & H2) Ie Ve O Z a Ia. pose proof (std_range n Hw).
  destruct (value Linear n a) as [x|] eqn:Va.
  - rewrite (proj1 (H1 a e x v Ia Ie Va Ve O)), Z, (RF_operand n x) by (apply (operand_value n a); assumption).
    f_equal. apply cv_id; assumption.
  - rewrite H2 by auto. f_equal. destruct (takum_cases n a Ia) as [-> | [-> | Hr]]; [rewrite value_0 in Va; discriminate|reflexivity|].
    rewrite lin_value in Va by (assumption || lia). discriminate.
Qed.

Lemma const_op : forall f n ok z a b x y c v, real_op f n ok z -> is_intn n a -> is_intn n b -> value Linear n a = Some x -> value Linear n b = Some y -> ok y ->
  is_intn n c -> value Linear n c = Some v -> z x y = v -> f a b = Val c.
Proof.
  intros f n ok z a b x y c v (Hw & H1 & _) Ia Ib Va Vb O Ic Vc E.
  rewrite (proj1 (H1 a b x y Ia Ib Va Vb O)), E, (RF_operand n v) by (apply (operand_value n c); assumption).
  f_equal. apply cv_id; assumption.
Qed.

Lemma intn_opp : forall n t, is_intn n t -> t <> nar n -> is_intn n (- t).
Proof. unfold is_intn, nar. lia. Qed.

Lemma value_opp : forall n t x, std_width n -> is_intn n t -> value Linear n t = Some x -> value Linear n (- t) = Some (- x).
Proof. intros n t x Hw It V. pose proof (std_range n Hw). apply value_neg; [lia|assumption|assumption]. Qed.

Lemma std_0 : forall n, std_width n -> is_intn n 0.
Proof. intros n H. pose proof (std_range n H). apply intn_0. lia. Qed.
Ltac side K := try exact I; try (apply std_0; apply (proj1 K)); try apply value_0; try assumption;
  try (apply intn_opp; assumption); try (apply value_opp; [apply (proj1 K)|assumption|assumption]).

(** the statements *)
Lemma addition_commutes : forall n f a b, linear_addition n f -> is_intn n a -> is_intn n b -> f a b = f b a.
Proof. intros n f a b H. apply (comm_op f n Rplus); [apply add_real; assumption|intros; ring]. Qed.
Lemma multiplication_commutes : forall n f a b, linear_multiplication n f -> is_intn n a -> is_intn n b -> f a b = f b a.
Proof. intros n f a b H. apply (comm_op f n Rmult); [apply mul_real; assumption|intros; ring]. Qed.
Lemma add_zero : forall n f a, linear_addition n f -> is_intn n a -> f a 0%Z = Val a.
Proof.
  intros n f a H. pose proof (add_real n f H) as K. apply (neutral_op f n anyR Rplus 0 0 K); [apply std_0, K|apply value_0|exact I|intros; ring].
Qed.
Lemma sub_zero : forall n f a, linear_subtraction n f -> is_intn n a -> f a 0%Z = Val a.
Proof.
  intros n f a H. pose proof (sub_real n f H) as K. apply (neutral_op f n anyR Rminus 0 0 K); [apply std_0, K|apply value_0|exact I|intros; ring].
Qed.
Lemma mul_lin_one : forall n f a, linear_multiplication n f -> is_intn n a -> f a (2 ^ (n - 2))%Z = Val a.
Proof.
  intros n f a H. pose proof (mul_real n f H) as K. destruct (value_one_k Linear n (proj1 K)) as [V Io].
  apply (neutral_op f n anyR Rmult _ 1 K Io V); [exact I|intros; ring].
Qed.
Lemma div_lin_one : forall n f a, linear_division n f -> is_intn n a -> f a (2 ^ (n - 2))%Z = Val a.
Proof.
  intros n f a H. pose proof (div_real n f H) as K. destruct (value_one_k Linear n (proj1 K)) as [V Io].
  apply (neutral_op f n nonzero Rdiv _ 1 K Io V); [unfold nonzero; lra|intros; field].
Qed.
Lemma sub_self : forall n f a, linear_subtraction n f -> is_intn n a -> a <> nar n -> f a a = Val 0%Z.
Proof.
  intros n f a H Ia Na. pose proof (sub_real n f H) as K. destruct (value_some n a (proj1 K) Ia Na) as [x V].
  apply (const_op f n anyR Rminus a a x x 0 0 K); side K. ring.
Qed.
Lemma add_opp : forall n f a, linear_addition n f -> is_intn n a -> a <> nar n -> f a (- a)%Z = Val 0%Z.
Proof.
  intros n f a H Ia Na. pose proof (add_real n f H) as K. destruct (value_some n a (proj1 K) Ia Na) as [x V].
  apply (const_op f n anyR Rplus a (- a) x (- x) 0 0 K); side K. ring.
Qed.
Lemma mul_zero : forall n f a, linear_multiplication n f -> is_intn n a -> a <> nar n -> f a 0%Z = Val 0%Z.
Proof.
  intros n f a H Ia Na. pose proof (mul_real n f H) as K. destruct (value_some n a (proj1 K) Ia Na) as [x V].
  apply (const_op f n anyR Rmult a 0 x 0 0 0 K); side K. ring.
Qed.
Lemma real_nonzero : forall n t, std_width n -> is_real_takum n t -> exists x, value Linear n t = Some x /\ x <> 0 /\ ((0 < t)%Z -> 0 < x) /\ ((t < 0)%Z -> x < 0).
Proof.
  intros n t Hw Hr. pose proof (std_range n Hw). eexists. split; [apply lin_value; [lia|assumption]|].
  pose proof (Lin_pos (l_ n t)). unfold sg. destruct (Z.ltb_spec t 0); (split; [nra|split; intros; [lia || nra|lia || nra]]).
Qed.
Lemma div_lin_self : forall n f a, linear_division n f -> is_real_takum n a -> f a a = Val (2 ^ (n - 2))%Z.
Proof.
  intros n f a H Ra. pose proof (div_real n f H) as K. destruct (real_nonzero n a (proj1 K) Ra) as (x & V & Nx & _).
  destruct (value_one_k Linear n (proj1 K)) as [V1 Io].
  apply (const_op f n nonzero Rdiv a a x x _ 1 K); side K; try apply Ra. field. assumption.
Qed.
Lemma div_lin_zero : forall n f a, linear_division n f -> is_real_takum n a -> f 0%Z a = Val 0%Z.
Proof.
  intros n f a H Ra. pose proof (div_real n f H) as K. destruct (real_nonzero n a (proj1 K) Ra) as (x & V & Nx & _).
  apply (const_op f n nonzero Rdiv 0 a 0 x 0 0 K); side K; try apply Ra. unfold Rdiv. ring.
Qed.
Lemma sub_is_add_opp : forall n f g a b, linear_subtraction n f -> linear_addition n g -> is_intn n a -> is_intn n b -> b <> nar n ->
  f a b = g a (- b)%Z.
Proof.
  intros n f g a b Hf Hg Ia Ib Nb. destruct (sub_real n f Hf) as (Hw & F1 & F2). destruct (add_real n g Hg) as (_ & G1 & G2).
  destruct (value_some n b Hw Ib Nb) as [y Vb]. pose proof (value_opp n b y Hw Ib Vb) as Vb'.
  destruct (value Linear n a) as [x|] eqn:Va.
  - rewrite (proj1 (F1 a b x y Ia Ib Va Vb I)), (proj1 (G1 a (- b)%Z x (- y) Ia (intn_opp _ _ Ib Nb) Va Vb' I)). reflexivity.
  - rewrite F2, G2 by auto using intn_opp. reflexivity.
Qed.

Lemma odd_op : forall f g n ok z z' a b a' b' x y x' y' t, real_op f n ok z -> real_op g n ok z' -> is_intn n a -> is_intn n b -> is_intn n a' -> is_intn n b' ->
  value Linear n a = Some x -> value Linear n b = Some y -> value Linear n a' = Some x' -> value Linear n b' = Some y' -> ok y -> ok y' ->
  z' x' y' = - z x y -> f a b = Val t -> g a' b' = Val (- t)%Z.
Proof.
  intros f g n ok z z' a b a' b' x y x' y' t (Hw & F1 & _) (_ & G1 & _) Ia Ib Ia' Ib' Va Vb Va' Vb' O O' E T.
  destruct (F1 a b x y Ia Ib Va Vb O) as [Ef R]. rewrite Ef in T. injection T as <-.
  rewrite (proj1 (G1 a' b' x' y' Ia' Ib' Va' Vb' O')), E, RF_opp. f_equal. apply cv_odd; assumption.
Qed.

Lemma add_neg : forall n f a b t, linear_addition n f -> is_intn n a -> is_intn n b -> a <> nar n -> b <> nar n ->
  f a b = Val t -> f (- a)%Z (- b)%Z = Val (- t)%Z.
Proof.
  intros n f a b t H Ia Ib Na Nb. pose proof (add_real n f H) as K. pose proof (proj1 K) as Hw.
  destruct (value_some n a Hw Ia Na) as [x Va]. destruct (value_some n b Hw Ib Nb) as [y Vb].
  apply (odd_op f f n anyR Rplus Rplus a b (- a) (- b) x y (- x) (- y) t K K); side K. ring.
Qed.
Lemma sub_swap : forall n f a b t, linear_subtraction n f -> is_intn n a -> is_intn n b -> a <> nar n -> b <> nar n ->
  f a b = Val t -> f b a = Val (- t)%Z.
Proof.
  intros n f a b t H Ia Ib Na Nb. pose proof (sub_real n f H) as K. pose proof (proj1 K) as Hw.
  destruct (value_some n a Hw Ia Na) as [x Va]. destruct (value_some n b Hw Ib Nb) as [y Vb].
  apply (odd_op f f n anyR Rminus Rminus a b b a x y y x t K K); side K. ring.
Qed.
Lemma mul_lin_neg : forall n f a b t, linear_multiplication n f -> is_intn n a -> is_intn n b -> a <> nar n -> b <> nar n ->
  f a b = Val t -> f (- a)%Z b = Val (- t)%Z.
Proof.
  intros n f a b t H Ia Ib Na Nb. pose proof (mul_real n f H) as K. pose proof (proj1 K) as Hw.
  destruct (value_some n a Hw Ia Na) as [x Va]. destruct (value_some n b Hw Ib Nb) as [y Vb].
  apply (odd_op f f n anyR Rmult Rmult a b (- a) b x y (- x) y t K K); side K. ring.
Qed.
Lemma div_lin_neg : forall n f a b t, linear_division n f -> is_intn n a -> is_real_takum n b -> a <> nar n ->
  f a b = Val t -> f (- a)%Z b = Val (- t)%Z /\ f a (- b)%Z = Val (- t)%Z.
Proof.
  intros n f a b t H Ia Rb Na T. pose proof (div_real n f H) as K. pose proof (proj1 K) as Hw.
  destruct (value_some n a Hw Ia Na) as [x Va]. destruct (real_nonzero n b Hw Rb) as (y & Vb & Ny & _). destruct Rb as (Ib & N0 & Nb).
  split.
  - apply (odd_op f f n nonzero Rdiv Rdiv a b (- a) b x y (- x) y t K K); side K. unfold Rdiv. ring.
  - apply (odd_op f f n nonzero Rdiv Rdiv a b a (- b) x y x (- y) t K K); side K.
    + unfold nonzero. lra.
    + field. assumption.
Qed.

(** ** Monotonicity *)
Lemma mono_op : forall f n ok z a b a' b' x y x' y' t t', real_op f n ok z -> is_intn n a -> is_intn n b -> is_intn n a' -> is_intn n b' ->
  value Linear n a = Some x -> value Linear n b = Some y -> value Linear n a' = Some x' -> value Linear n b' = Some y' -> ok y -> ok y' ->
  z x y <= z x' y' -> f a b = Val t -> f a' b' = Val t' -> (t <= t')%Z.
Proof.
  intros f n ok z a b a' b' x y x' y' t t' (Hw & F1 & _) Ia Ib Ia' Ib' Va Vb Va' Vb' O O' L T T'.
  destruct (F1 a b x y Ia Ib Va Vb O) as [E R]. destruct (F1 a' b' x' y' Ia' Ib' Va' Vb' O') as [E' R'].
  rewrite E in T. rewrite E' in T'. injection T as <-. injection T' as <-. apply cv_mono; auto. apply RF_mono. assumption.
Qed.

Lemma value_le : forall n a b x y, std_width n -> is_intn n a -> is_intn n b -> value Linear n a = Some x -> value Linear n b = Some y -> (a <= b)%Z -> x <= y.
Proof.
  intros n a b x y Hw Ia Ib Va Vb L. pose proof (std_range n Hw). destruct (Z.eq_dec a b) as [->|N]; [rewrite Va in Vb; injection Vb as ->; lra|].
  left. apply (value_lt n ltac:(lia) Linear a b); auto. lia.
Qed.

Lemma add_mono : forall n f a b c d u v, linear_addition n f -> is_intn n a -> is_intn n b -> is_intn n c -> is_intn n d ->
  a <> nar n -> b <> nar n -> c <> nar n -> d <> nar n -> (a <= c)%Z -> (b <= d)%Z -> f a b = Val u -> f c d = Val v -> (u <= v)%Z.
Proof.
  intros n f a b c d u v H Ia Ib Ic Id Na Nb Nc Nd L1 L2. pose proof (add_real n f H) as K. pose proof (proj1 K) as Hw.
  destruct (value_some n a Hw Ia Na) as [x Va]. destruct (value_some n b Hw Ib Nb) as [y Vb].
  destruct (value_some n c Hw Ic Nc) as [x' Vc]. destruct (value_some n d Hw Id Nd) as [y' Vd].
  apply (mono_op f n anyR Rplus a b c d x y x' y' u v K); side K.
  pose proof (value_le n a c x x' Hw Ia Ic Va Vc L1). pose proof (value_le n b d y y' Hw Ib Id Vb Vd L2). lra.
Qed.
Lemma sub_mono : forall n f a b c d u v, linear_subtraction n f -> is_intn n a -> is_intn n b -> is_intn n c -> is_intn n d ->
  a <> nar n -> b <> nar n -> c <> nar n -> d <> nar n -> (a <= c)%Z -> (d <= b)%Z -> f a b = Val u -> f c d = Val v -> (u <= v)%Z.
Proof.
  intros n f a b c d u v H Ia Ib Ic Id Na Nb Nc Nd L1 L2. pose proof (sub_real n f H) as K. pose proof (proj1 K) as Hw.
  destruct (value_some n a Hw Ia Na) as [x Va]. destruct (value_some n b Hw Ib Nb) as [y Vb].
  destruct (value_some n c Hw Ic Nc) as [x' Vc]. destruct (value_some n d Hw Id Nd) as [y' Vd].
  apply (mono_op f n anyR Rminus a b c d x y x' y' u v K); side K.
  pose proof (value_le n a c x x' Hw Ia Ic Va Vc L1). pose proof (value_le n d b y' y Hw Id Ib Vd Vb L2). lra.
Qed.
Lemma value_sign : forall n a x, std_width n -> is_intn n a -> value Linear n a = Some x -> (0 <= a)%Z -> 0 <= x.
Proof. intros n a x Hw Ia Va H. apply (value_le n 0 a 0 x Hw (std_0 n Hw) Ia (value_0 n Linear) Va H). Qed.

Lemma mul_lin_mono : forall n f a b c u v, linear_multiplication n f -> is_intn n a -> is_intn n b -> is_intn n c ->
  a <> nar n -> b <> nar n -> (0 <= c)%Z -> (a <= b)%Z -> f a c = Val u -> f b c = Val v -> (u <= v)%Z.
Proof.
  intros n f a b c u v H Ia Ib Ic Na Nb Pc L. pose proof (mul_real n f H) as K. pose proof (proj1 K) as Hw. pose proof (std_range n Hw) as Hr.
  assert (c <> nar n) as Nc by (unfold nar; pose proof (Z.pow_pos_nonneg 2 (n - 1)); lia).
  destruct (value_some n a Hw Ia Na) as [x Va]. destruct (value_some n b Hw Ib Nb) as [y Vb]. destruct (value_some n c Hw Ic Nc) as [w Vc].
  apply (mono_op f n anyR Rmult a c b c x w y w u v K); side K.
  pose proof (value_le n a b x y Hw Ia Ib Va Vb L). pose proof (value_sign n c w Hw Ic Vc Pc). apply Rmult_le_compat_r; assumption.
Qed.
Lemma div_lin_mono : forall n f a b c u v, linear_division n f -> is_intn n a -> is_intn n b -> is_real_takum n c ->
  a <> nar n -> b <> nar n -> (0 < c)%Z -> (a <= b)%Z -> f a c = Val u -> f b c = Val v -> (u <= v)%Z.
Proof.
  intros n f a b c u v H Ia Ib Rc Na Nb Pc L. pose proof (div_real n f H) as K. pose proof (proj1 K) as Hw.
  destruct (value_some n a Hw Ia Na) as [x Va]. destruct (value_some n b Hw Ib Nb) as [y Vb]. destruct (real_nonzero n c Hw Rc) as (w & Vc & Nw & Pw & _).
  specialize (Pw Pc). destruct Rc as (Ic & _).
  apply (mono_op f n nonzero Rdiv a c b c x w y w u v K); auto.
  pose proof (value_le n a b x y Hw Ia Ib Va Vb L). apply Rmult_le_compat_r; [left; apply Rinv_0_lt_compat; assumption|assumption].
Qed.

(** unary *)
Lemma sqrt_lin_real : forall n f, linear_square_root n f -> std_width n /\
  forall a x, is_intn n a -> value Linear n a = Some x -> 0 < x ->
    f a = Val (Cv n (RF (fmt_of n) (sqrt x))) /\ rep n (RF (fmt_of n) (sqrt x)).
Proof.
  intros n f H. destruct (sqrt_lin_form n f H) as (h & g & Hh & Hg & Hw & E). split; [assumption|].
  intros a x Ia V P. rewrite E. destruct (lin_operand n h a Hw Hh Ia) as (y & Ey & Ky). rewrite V in Ky. rewrite Ey. cbv beta iota delta [bind].
  pose proof (isf_fsqrt _ y x (proj1 Ky) P) as Hi. split; [apply cv_eq; assumption|]. eexists. exact Hi.
Qed.

Lemma faithful_exact : forall n x t t', std_width n -> is_intn n t' -> rounds_faithfully Linear n x t -> value Linear n t' = Some x -> t = t'.
Proof.
  intros n x t t' Hw It' H V. pose proof (std_range n Hw) as Hr. destruct (takum_cases n t' It') as [-> | [-> | R']].
  - rewrite value_0 in V. injection V as <-. destruct H as [[_ H]|[H _]]; [assumption|lra].
  - rewrite value_nar in V by lia. discriminate.
  - rewrite lin_value in V by (assumption || lia). injection V as <-.
    pose proof (Lin_pos (l_ n t')) as LP.
    destruct H as [[H _]|[_ H]]; [exfalso; revert H; unfold sg; destruct (t' <? 0)%Z; lra|].
    cbn [coord] in H.
    assert (lin_coord (sg (t' <? 0)%Z * Lin (l_ n t')) = l_ n t') as EL.
    { unfold sg. destruct (t' <? 0)%Z; [rewrite <- (lin_coord_opp (-1 * _))|]; rewrite <- (lin_coord_Lin (l_ n t')) at 2; f_equal; ring. }
    assert (Rlt_bool (sg (t' <? 0)%Z * Lin (l_ n t')) 0 = (t' <? 0)%Z) as ES.
    { unfold sg. destruct (t' <? 0)%Z; [apply Rlt_bool_true|apply Rlt_bool_false]; lra. }
    rewrite EL, ES in H. destruct H as (R & S & H).
    specialize (H t' R'). destruct H as [H1 H2]; [unfold has_sign; destruct (Z.ltb_spec t' 0); [assumption|destruct R' as (_ & ? & _); lia]|].
    assert (l_ n t = l_ n t') as El by (destruct (Rtotal_order (l_ n t) (l_ n t')) as [K|[K|K]]; [exfalso; apply H1; lra|assumption|exfalso; apply H2; lra]).
    assert ((t <? 0)%Z = (t' <? 0)%Z) as Es.
    { revert S. unfold has_sign. destruct (Z.ltb_spec t' 0); intros; destruct (Z.ltb_spec t 0); auto; lia. }
    assert (value Linear n t = value Linear n t') as EV by (rewrite !lin_value, El, Es by (assumption || lia); reflexivity).
    destruct (Z.lt_total t t') as [K|[K|K]]; [exfalso|assumption|exfalso].
    + apply (value_lt n ltac:(lia) Linear t t' (sg (t' <? 0)%Z * Lin (l_ n t')) (sg (t' <? 0)%Z * Lin (l_ n t'))) in K; [lra|apply R|apply R'| |apply lin_value; [lia|assumption]].
      rewrite EV. apply lin_value; [lia|assumption].
    + apply (value_lt n ltac:(lia) Linear t' t (sg (t' <? 0)%Z * Lin (l_ n t')) (sg (t' <? 0)%Z * Lin (l_ n t'))) in K; [lra|apply R'|apply R|apply lin_value; [lia|assumption]|].
      rewrite EV. apply lin_value; [lia|assumption].
Qed.

Lemma sqrt_lin_mono : forall n f a b u v, linear_square_root n f -> is_intn n b -> (0 <= a <= b)%Z ->
  f a = Val u -> f b = Val v -> (u <= v)%Z.
Proof.
  intros n f a b u v H Ib L Eu Ev. destruct (sqrt_lin_real n f H) as [Hw K]. pose proof (std_range n Hw) as Hr.
  assert (is_intn n a) as Ia by (unfold is_intn in *; lia).
  assert (forall t, (0 <= t)%Z -> t <> nar n) as NN by (intros t Ht; unfold nar; pose proof (Z.pow_pos_nonneg 2 (n - 1)); lia).
  destruct (value_some n a Hw Ia (NN a ltac:(lia))) as [x Va]. destruct (value_some n b Hw Ib (NN b ltac:(lia))) as [y Vb].
  pose proof (value_sign n a x Hw Ia Va ltac:(lia)) as Px. pose proof (value_le n a b x y Hw Ia Ib Va Vb ltac:(lia)) as Lxy.
  destruct (Req_dec y 0) as [Zy|NZy].
  - (* then both are 0 *)
    assert (forall t w, is_intn n t -> value Linear n t = Some w -> w = 0 -> t = 0%Z) as T0.
    { intros t w It V ->. pose proof (cv_id n t 0 Hw It V) as C1. pose proof (cv_id n 0 0 Hw (std_0 n Hw) (value_0 n Linear)) as C2. congruence. }
    rewrite (T0 a x Ia Va ltac:(lra)) in Eu. rewrite (T0 b y Ib Vb Zy) in Ev. assert (u = v) by congruence. lia.
  - destruct (K b y Ib Vb ltac:(lra)) as [Eb Rb]. rewrite Eb in Ev. injection Ev as <-.
    destruct (Req_dec x 0) as [Zx|NZx].
    + destruct (sqrt_lin_faithful n f H a Ia) as (t & Et & It & Kt). rewrite Va in Kt. rewrite Et in Eu. injection Eu as <-.
      destruct Kt as [[Kt _]|[_ Kt]]; [lra|]. rewrite Zx, sqrt_0 in Kt.
      rewrite (faithful_exact n 0 t 0 Hw (std_0 n Hw) Kt (value_0 n Linear)).
      assert (Cv n 0 <= Cv n (RF (fmt_of n) (sqrt y)))%Z as C.
      { apply cv_mono; auto; [exists (B754_zero false); split; reflexivity|].
        rewrite <- (RF_operand n 0) by (apply (operand_value n 0); [assumption|apply std_0; assumption|apply value_0]). apply RF_mono. apply sqrt_pos. }
      rewrite (cv_id n 0 0 Hw (std_0 n Hw) (value_0 n Linear)) in C. exact C.
    + destruct (K a x Ia Va ltac:(lra)) as [Ea Ra]. rewrite Ea in Eu. injection Eu as <-.
      apply cv_mono; auto. apply RF_mono. apply sqrt_le_1_alt. assumption.
Qed.

Lemma inv_lin_real : forall n f, linear_inversion n f -> std_width n /\
  forall a x, is_intn n a -> value Linear n a = Some x -> x <> 0 ->
    f a = Val (Cv n (inv_rd n (/ x))) /\ rep n (inv_rd n (/ x)).
Proof.
  intros n f H. destruct (inv_lin_form n f H) as (h & g & op & Hh & Hg & Hw & E & _ & _ & Ho). split; [assumption|].
  intros a x Ia V P. rewrite E. destruct (lin_operand n h a Hw Hh Ia) as (y & Ey & Ky). rewrite V in Ky. rewrite Ey. cbv beta iota delta [bind].
  pose proof (Ho y x (proj1 Ky) (proj1 (proj2 Ky)) P) as Hi. split; [apply cv_eq; assumption|]. eexists. exact Hi.
Qed.

Lemma inv_lin_antitone : forall n f a b u v, linear_inversion n f -> is_real_takum n a -> is_real_takum n b ->
  (0 < a <-> 0 < b)%Z -> (a <= b)%Z -> f a = Val u -> f b = Val v -> (v <= u)%Z.
Proof.
  intros n f a b u v H Ra Rb S L Eu Ev. destruct (inv_lin_real n f H) as [Hw K].
  destruct (real_nonzero n a Hw Ra) as (x & Va & Nx & Px & Mx). destruct (real_nonzero n b Hw Rb) as (y & Vb & Ny & Py & My).
  destruct Ra as (Ia & Na & _), Rb as (Ib & Nb & _). pose proof (value_le n a b x y Hw Ia Ib Va Vb L) as Lxy.
  destruct (K a x Ia Va Nx) as [Ea R1]. destruct (K b y Ib Vb Ny) as [Eb R2]. rewrite Ea in Eu. rewrite Eb in Ev. injection Eu as <-. injection Ev as <-.
  apply cv_mono; auto. apply (rd_mono n _ (inv_rd_ok n Hw)).
  destruct (Z_lt_le_dec 0 a) as [P|P].
  - apply Rinv_le; [apply Px; assumption|assumption].
  - assert (y < 0) as Y by (apply My; lia). pose proof (Rinv_le (- y) (- x) ltac:(lra) ltac:(lra)) as E.
    rewrite !Rinv_opp in E. lra.
Qed.

Lemma inv_lin_neg : forall n f a t, linear_inversion n f -> is_real_takum n a -> f a = Val t -> f (- a)%Z = Val (- t)%Z.
Proof.
  intros n f a t H Ra E. destruct (inv_lin_real n f H) as [Hw K]. destruct (real_nonzero n a Hw Ra) as (x & Va & Nx & _). destruct Ra as (Ia & Na & NN).
  destruct (K a x Ia Va Nx) as [Ea R]. rewrite Ea in E. injection E as <-.
  rewrite (proj1 (K (- a)%Z (- x) (intn_opp _ _ Ia NN) (value_opp n a x Hw Ia Va) ltac:(lra))).
  rewrite Rinv_opp, (rd_opp n _ (inv_rd_ok n Hw)). f_equal. apply cv_odd; assumption.
Qed.

(** exact results are returned *)
Lemma exact2 : forall f n P, std_width n -> result2 f n P -> forall z, (forall x y t, P x y t -> rounds_faithfully Linear n (z x y) t) ->
  forall a b c x y, is_intn n a -> is_intn n b -> is_intn n c -> value Linear n a = Some x -> value Linear n b = Some y ->
  value Linear n c = Some (z x y) -> f a b = Val c.
Proof.
  intros f n P Hw H z HP a b c x y Ia Ib Ic Va Vb Vc. destruct (H a b Ia Ib) as (t & E & It & K). rewrite Va, Vb in K.
  rewrite E. f_equal. apply (faithful_exact n (z x y)); auto.
Qed.
Lemma add_exact : forall n f a b c x y, linear_addition n f -> is_intn n a -> is_intn n b -> is_intn n c ->
  value Linear n a = Some x -> value Linear n b = Some y -> value Linear n c = Some (x + y) -> f a b = Val c.
Proof. intros n f a b c x y H. apply (exact2 f n _ (proj1 (add_real n f H)) (add_faithful n f H) Rplus). auto. Qed.
Lemma sub_exact : forall n f a b c x y, linear_subtraction n f -> is_intn n a -> is_intn n b -> is_intn n c ->
  value Linear n a = Some x -> value Linear n b = Some y -> value Linear n c = Some (x - y) -> f a b = Val c.
Proof. intros n f a b c x y H. apply (exact2 f n _ (proj1 (sub_real n f H)) (sub_faithful n f H) Rminus). auto. Qed.
Lemma mul_exact : forall n f a b c x y, linear_multiplication n f -> is_intn n a -> is_intn n b -> is_intn n c ->
  value Linear n a = Some x -> value Linear n b = Some y -> value Linear n c = Some (x * y) -> f a b = Val c.
Proof. intros n f a b c x y H. apply (exact2 f n _ (proj1 (mul_real n f H)) (mul_lin_faithful n f H) Rmult). auto. Qed.
Lemma div_exact : forall n f a b c x y, linear_division n f -> is_intn n a -> is_intn n b -> is_intn n c ->
  value Linear n a = Some x -> value Linear n b = Some y -> y <> 0 -> value Linear n c = Some (x / y) -> f a b = Val c.
Proof.
  intros n f a b c x y H Ia Ib Ic Va Vb Ny Vc. destruct (div_lin_faithful n f H a b Ia Ib) as (t & E & It & K). rewrite Va, Vb in K.
  rewrite E. f_equal. destruct K as [[K _]|[_ K]]; [contradiction|]. apply (faithful_exact n (x / y)); auto. apply (div_real n f H).
Qed.
Lemma sqrt_exact : forall n f a c x, linear_square_root n f -> is_intn n a -> is_intn n c ->
  value Linear n a = Some x -> 0 <= x -> value Linear n c = Some (sqrt x) -> f a = Val c.
Proof.
  intros n f a c x H Ia Ic Va Px Vc. destruct (sqrt_lin_faithful n f H a Ia) as (t & E & It & K). rewrite Va in K.
  rewrite E. f_equal. destruct K as [[K _]|[_ K]]; [lra|]. apply (faithful_exact n (sqrt x)); auto. apply (sqrt_lin_real n f H).
Qed.
Lemma inv_exact : forall n f a c x, linear_inversion n f -> is_intn n a -> is_intn n c ->
  value Linear n a = Some x -> x <> 0 -> value Linear n c = Some (/ x) -> f a = Val c.
Proof.
  intros n f a c x H Ia Ic Va Px Vc. destruct (inv_lin_faithful n f H a Ia) as (t & E & It & K). rewrite Va in K.
  rewrite E. f_equal. destruct K as [[K _]|[_ K]]; [contradiction|]. apply (faithful_exact n (/ x)); auto. apply (inv_lin_real n f H).
Qed.

Lemma lin_zero_neutral : forall n f g a, linear_addition n f -> linear_subtraction n g -> is_intn n a -> f a 0%Z = Val a /\ g a 0%Z = Val a.
Proof. intros n f g a F G Ia. split; [apply (add_zero n)|apply (sub_zero n)]; assumption. Qed.
Lemma lin_one_neutral : forall n f g a, linear_multiplication n f -> linear_division n g -> is_intn n a ->
  value Linear n (2 ^ (n - 2)) = Some 1 /\ f a (2 ^ (n - 2))%Z = Val a /\ g a (2 ^ (n - 2))%Z = Val a.
Proof.
  intros n f g a F G Ia. split; [apply value_one_k; apply (mul_real n f F)|split; [apply (mul_lin_one n)|apply (div_lin_one n)]]; assumption.
Qed.
Lemma lin_cancellation : forall n f g a, linear_addition n f -> linear_subtraction n g -> is_intn n a -> a <> nar n ->
  g a a = Val 0%Z /\ f a (- a)%Z = Val 0%Z.
Proof. intros n f g a F G Ia Na. split; [apply (sub_self n)|apply (add_opp n)]; assumption. Qed.
Lemma lin_quotients : forall n f a, linear_division n f -> is_real_takum n a -> f a a = Val (2 ^ (n - 2))%Z /\ f 0%Z a = Val 0%Z.
Proof. intros n f a F Ra. split; [apply div_lin_self|apply (div_lin_zero n)]; assumption. Qed.
Lemma lin_one_plus_one : value Linear 16 0x4000 = Some 1 /\ value Linear 16 0x4800 = Some (1 + 1) /\
  takum_linear_addition x86_64 W16 0x4000 0x4000 = Val 0x4800%Z.
Proof.
  split; [apply (value_one_k Linear 16); unfold std_width; tauto|]. split; [|vm_compute; reflexivity].
  unfold value. destruct (Z.eq_dec 0x4800 0); [lia|]. destruct (Z.eq_dec 0x4800 (nar 16)); [discriminate|].
  unfold lin_real, m_. change (S_ 16 0x4800) with 0%Z. change (M_ 16 0x4800) with 0%Z. change (c_ 16 0x4800) with 1%Z.
  f_equal. change ((1 - 2 * 0) * (1 + 0))%Z with 1%Z. simpl powerRZ. unfold Rdiv. ring.
Qed.
