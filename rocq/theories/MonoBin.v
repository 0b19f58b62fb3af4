(** Monotone conversions, powers, hypotenuse and logarithmic sums. *)
From Coq Require Import ZArith Reals Bool Lia Lra.
From Flocq Require Import Core.Core IEEE754.BinarySingleNaN.
From Verif Require Import CModel FloatModel Libm LibmSpec WidthConv Wrappers Conversion Codec Spec FloatSpec CodeFacts SpecFacts ValueFacts RoundFacts WidthFacts WidthApi WidthProps FloatFacts Machine LibmIdeal WrapApi WrapSpec LogApi LinApi LinProps FloatSym LogConv WrapTotal FloatAcc RealFacts FixFacts WrapAcc WrapMain WrapRefute LogAlgebra FunSym FunSym2 KindConv MonoFloat MonoSpec MonoConv MonoFun MonoFun2.
Local Open Scope R_scope.

(** ** Logarithmic takums to floats *)
Definition log_to_mform (lm : libm) (n : Z) (F : fmt) (f : Z -> outcome (flt F)) : Prop :=
  exists m G (cl : flt (m_F m) -> flt G) (po : flt G -> flt F), mach_ok m /\ m_n m = n /\ G <> f128 /\ cl_ok cl /\ po (B754_zero false) = B754_zero false /\
    (forall x y, fle x y = true -> fle (po x) (po y) = true) /\
    forall t, f t = bind (m_dec m t) (fun l => Val (po (fmul (fint G (int_sign t)) (cpow lm (sq G) (cl l))))).
Lemma log_to_minv : forall lm n F f, log_to_float lm n F f -> log_to_mform lm n F f.
Proof.
  assert (forall lm n F f m (cl : flt (m_F m) -> flt F), mach_ok m -> m_n m = n -> F <> f128 -> cl_ok cl ->
    (forall t, f t = bind (m_dec m t) (fun l => Val (fmul (fint F (int_sign t)) (cpow lm (sq F) (cl l))))) -> log_to_mform lm n F f) as K.
  { intros lm n F f m cl Hm En HF Hc Hf. exists m, F, cl, (fun x => x). split; [assumption|]. split; [assumption|]. split; [assumption|]. split; [assumption|]. split; [reflexivity|]. split; [intros x y L; exact L|]. exact Hf. }
  intros lm n F f [].
  - apply (K _ _ _ _ mach8 (fun l => l)); try reflexivity; try discriminate; [apply mach8_ok|apply cl_id].
  - apply (K _ _ _ _ mach16 (fun l => l)); try reflexivity; try discriminate; [apply mach16_ok|apply cl_id].
  - apply (K _ _ _ _ mach32 (fcast f32)); try reflexivity; try discriminate; [apply mach32_ok|apply cl_cast].
  - apply (K _ _ _ _ mach64 (fcast f32)); try reflexivity; try discriminate; [apply mach64_ok|apply cl_cast].
  - exists mach8, f80, (fcast f80), (fcast f64). split; [apply mach8_ok|]. split; [reflexivity|]. split; [discriminate|].
    split; [apply cl_cast|]. split; [reflexivity|]. split; [apply cast_mono|]. reflexivity.
  - apply (K _ _ _ _ mach16 (fcast f64)); try reflexivity; try discriminate; [apply mach16_ok|apply cl_cast].
  - apply (K _ _ _ _ mach32 (fun l => l)); try reflexivity; try discriminate; [apply mach32_ok|apply cl_id].
  - apply (K _ _ _ _ mach64 (fcast f64)); try reflexivity; try discriminate; [apply mach64_ok|apply cl_cast].
  - apply (K _ _ _ _ mach8 (fcast f80)); try reflexivity; try discriminate; [apply mach8_ok|apply cl_cast].
  - apply (K _ _ _ _ mach16 (fcast f80)); try reflexivity; try discriminate; [apply mach16_ok|apply cl_cast].
  - apply (K _ _ _ _ mach32 (fcast f80)); try reflexivity; try discriminate; [apply mach32_ok|apply cl_cast].
  - apply (K _ _ _ _ mach64 (fun l => l)); try reflexivity; try discriminate; [apply mach64_ok|apply cl_id].
Qed.

Lemma log_to_pos_le : forall lm n F h s t, c99 lm -> monotone lm -> log_to_float lm n F h -> is_intn n s -> is_intn n t -> (0 < s <= t)%Z ->
  exists y z, h s = Val y /\ h t = Val z /\ fle (B754_zero false) y = true /\ fle y z = true.
Proof.
  intros lm n F h s t C M H Is It O. destruct (log_to_minv _ _ _ _ H) as (m & G & cl & po & Hm & <- & HG & (Cv & _ & _) & Pz & Pm & Hf).
  pose proof (mo_range m Hm) as Hn. assert (is_real_takum (m_n m) s) as Rs by (split; [assumption|split; [lia|unfold is_intn, nar in *; lia]]).
  assert (is_real_takum (m_n m) t) as Rt by (split; [assumption|split; [lia|unfold is_intn, nar in *; lia]]).
  destruct (mo_dec m Hm s Rs) as (l & El & Hl). destruct (mo_dec m Hm t Rt) as (l' & El' & Hl').
  pose proof (l_abs (m_n m) s ltac:(lia) Rs) as Ba. pose proof (l_abs (m_n m) t ltac:(lia) Rt) as Bb.
  destruct (Cv l _ Hl ltac:(lra)) as [F1 V1]. destruct (Cv l' _ Hl' ltac:(lra)) as [F2 V2].
  assert (l_ (m_n m) s <= l_ (m_n m) t) as L. { destruct (Z.eq_dec s t) as [->|N]; [lra|]. left. apply (l_lt_pos (m_n m)); (assumption || lia). }
  pose proof (RF_mono G _ _ L) as LR. destruct (sqrte_ln G HG) as (q & [Fq Vq] & Q1 & _).
  assert (fle (cpow lm (sq G) (cl l)) (cpow lm (sq G) (cl l')) = true) as P by (apply (mono_pow_exponent lm M); (assumption || lra)).
  assert (0 < B2R (sq G)) as Pq by lra. assert (nonneg (cpow lm (sq G) (cl l))) as P0. { apply (close_pos _ _ _ _ (c_pow_pos lm C G _ _ Fq F1 Pq)). apply exp_pos. }
  assert (fle (B754_zero false) (cpow lm (sq G) (cl l)) = true) as P1 by (apply le_xv; [reflexivity|apply P0|apply (xv_nonneg _ _ P0)]).
  assert (int_sign s = 1%Z /\ int_sign t = 1%Z) as [S1 S2] by (unfold int_sign; replace (s =? 0)%Z with false by lia; replace (t =? 0)%Z with false by lia; replace (s <? 0)%Z with false by lia; replace (t <? 0)%Z with false by lia; split; reflexivity).
  rewrite !Hf, El, El'. cbn [bind]. rewrite S1, S2. eexists. eexists. split; [reflexivity|]. split; [reflexivity|].
  pose proof (one_isf G) as I1. unfold one in I1. split.
  - rewrite <- Pz. apply Pm. apply (mul_mono G _ _ _ 1 I1) in P1; [|lra]. destruct (pos_finite G _ 1 I1 Rlt_0_1) as (mm & ee & KK & EE). rewrite EE in P1 |- *. exact P1.
  - apply Pm. apply (mul_mono G _ _ _ 1 I1); [lra|assumption].
Qed.
Theorem log_to_mono : forall lm n F h s t, c99 lm -> monotone lm -> log_to_float lm n F h -> is_intn n s -> is_intn n t -> s <> nar n -> (s <= t)%Z ->
  exists y z, h s = Val y /\ h t = Val z /\ fle y z = true.
Proof.
  intros lm n F h s t C M H Is It Ns O. assert (8 <= n <= 64)%Z as Hn by (destruct (log_to_inv _ _ _ _ H) as (m & _ & _ & _ & Hm & <- & _); exact (mo_range m Hm)).
  pose proof (log_to_0 lm n F h C H) as H0.
  assert (forall u, is_intn n u -> (0 < u)%Z -> exists y, h u = Val y /\ fle (B754_zero false) y = true) as POS.
  { intros u Iu Pu. destruct (log_to_pos_le lm n F h u u C M H Iu Iu ltac:(lia)) as (y & _ & Ey & _ & Py & _). eauto. }
  assert (forall u, is_intn n u -> u <> nar n -> (u < 0)%Z -> exists y, h u = Val (fneg y) /\ h (- u)%Z = Val y /\ fle (fneg y) (B754_zero false) = true) as NEG.
  { intros u Iu Nu Pu. assert (is_intn n (- u)) as I' by (unfold is_intn, nar in *; lia). destruct (POS (- u)%Z I' ltac:(lia)) as (y & Ey & Py).
    pose proof (log_to_neg lm n F h _ y C H I' ltac:(lia) ltac:(unfold is_intn, nar in *; lia) Ey) as E. rewrite Z.opp_involutive in E. exists y. split; [assumption|]. split; [assumption|].
    apply fle_neg in Py. destruct (le_nan _ _ _ Py) as [N _]. apply le_xv in Py; [|assumption|reflexivity]. apply le_xv; [assumption|reflexivity|exact Py]. }
  destruct (Z.lt_trichotomy s 0) as [S|[S|S]]; destruct (Z.lt_trichotomy t 0) as [T|[T|T]]; try lia.
  - assert (t <> nar n) as Nt by (unfold is_intn, nar in *; lia). destruct (NEG s Is Ns S) as (y & Ey & Ey' & _). destruct (NEG t It Nt T) as (z & Ez & Ez' & _).
    destruct (log_to_pos_le lm n F h (- t) (- s)%Z C M H) as (z' & y' & E1 & E2 & _ & L); try (unfold is_intn, nar in *; lia).
    rewrite Ez' in E1. rewrite Ey' in E2. assert (z' = z) as -> by congruence. assert (y' = y) as -> by congruence.
    exists (fneg y), (fneg z). split; [assumption|]. split; [assumption|]. apply fle_neg. assumption.
  - subst t. destruct (NEG s Is Ns S) as (y & Ey & _ & Py). exists (fneg y), (B754_zero false). auto.
  - destruct (NEG s Is Ns S) as (y & Ey & _ & Py). destruct (POS t It T) as (z & Ez & Pz). exists (fneg y), z. split; [assumption|]. split; [assumption|]. eapply le_trans; eassumption.
  - subst s t. exists (B754_zero false), (B754_zero false). auto.
  - subst s. destruct (POS t It T) as (z & Ez & Pz). exists (B754_zero false), z. auto.
  - destruct (log_to_pos_le lm n F h s t C M H Is It ltac:(lia)) as (y & z & Ey & Ez & _ & L). exists y, z. auto.
Qed.

(** ** Between the kinds *)
Lemma none_nar : forall k n t, (8 <= n <= 64)%Z -> is_intn n t -> value k n t = None -> t = nar n.
Proof. intros k n t Hn It. unfold value. destruct (Z.eq_dec t 0); [discriminate|]. destruct (Z.eq_dec t (nar n)); [auto|discriminate]. Qed.
Lemma faithful_not_nar : forall k n x t, (8 <= n <= 64)%Z -> rounds_faithfully k n x t -> t <> nar n.
Proof.
  intros k n x t Hn [[_ ->]|[_ ((_ & _ & N) & _)]]; [|exact N]. unfold nar. intros E. pose proof (Z.pow_pos_nonneg 2 (n - 1) ltac:(lia) ltac:(lia)). lia.
Qed.
Lemma mid_wide : forall n m, wide (mid n m).
Proof. intros n m. unfold mid. destruct (_ || _)%bool; [right|left]; reflexivity. Qed.
Lemma conv_le : forall n F T (y y' : flt F) r q, conv_ok n F T -> fle y y' = true -> T y = Val r -> T y' = Val q -> r <> nar n -> q <> nar n -> (r <= q)%Z.
Proof.
  intros n F T y y' r q K L Er Eq Nr Nq.
  assert (forall z v, T z = Val v -> v <> nar n -> is_finite z = true) as FI.
  { intros z v Ez Nv. destruct (k_val n F T K z) as (v' & E' & [_ Q] & _). rewrite Ez in E'. assert (v' = v) as -> by congruence. destruct (is_finite z); [reflexivity|]. exfalso. apply Nv, Q. reflexivity. }
  pose proof (FI _ _ Er Nr) as F1. pose proof (FI _ _ Eq Nq) as F2. apply (k_mono n F T K y y'); try assumption.
  rewrite (fle_isf y y' _ _ (conj F1 eq_refl) (conj F2 eq_refl)) in L. destruct (Rle_bool_spec (B2R y) (B2R y')); [assumption|discriminate L].
Qed.
Theorem log_to_linear_mono : forall lm n m f s t r q, c99 lm -> monotone lm -> log_to_linear lm n m f -> is_intn n s -> is_intn n t -> s <> nar n -> (s <= t)%Z ->
  f s = Val r -> f t = Val q -> (r <= q)%Z.
Proof.
  intros lm n m f s t r q C M H Is It Ns O Er Eq. assert (8 <= n <= 64)%Z as Hn by (destruct H; lia). assert (8 <= m <= 64)%Z as Hm by (destruct H; lia). assert (t <> nar n) as Nt by (unfold is_intn, nar in *; lia).
  assert (forall u v, is_intn n u -> u <> nar n -> f u = Val v -> v <> nar m) as NN.
  { intros u v Iu Nu Ev. destruct (value Logarithmic n u) as [x|] eqn:Vx.
    - destruct (log_to_linear_faithful lm n m f u x C H Iu Vx) as (t' & z & Et & _ & Rt). rewrite Ev in Et. assert (t' = v) as -> by congruence. exact (faithful_not_nar _ _ _ _ Hm Rt).
    - exfalso. apply Nu. apply (none_nar Logarithmic n u Hn Iu). assumption. }
  pose proof (NN s r Is Ns Er) as Nr. pose proof (NN t q It Nt Eq) as Nq.
  destruct (log_to_linear_form _ _ _ _ H) as (h & g & Hh & Hg & E). rewrite E in Er, Eq.
  destruct (log_to_mono lm n _ h s t C M Hh Is It Ns O) as (y & z & Ey & Ez & L). rewrite Ey in Er. rewrite Ez in Eq. cbn [bind] in Er, Eq.
  apply (conv_le m _ g y z r q (lin_conv_ok m _ g Hg (mid_wide n m)) L Er Eq Nr Nq).
Qed.
Theorem linear_to_log_mono : forall lm n m f s t r q, c99 lm -> monotone lm -> linear_to_log lm n m f -> is_intn n s -> is_intn n t -> s <> nar n -> (s <= t)%Z ->
  f s = Val r -> f t = Val q -> (r <= q)%Z.
Proof.
  intros lm n m f s t r q C M H Is It Ns O Er Eq. assert (8 <= n <= 64)%Z as Hn by (destruct H; lia). assert (t <> nar n) as Nt by (unfold is_intn, nar in *; lia).
  destruct (linear_to_log_form _ _ _ _ H) as (h & g & Hh & Hg & E). rewrite E in Er, Eq.
  destruct (value Linear n s) as [x|] eqn:Vx; [|exfalso; apply Ns; apply (none_nar Linear n s Hn Is); assumption].
  destruct (value Linear n t) as [y|] eqn:Vy; [|exfalso; apply Nt; apply (none_nar Linear n t Hn It); assumption].
  destruct (lin_to_exact n _ h s Hh (mid_exact n m) Is) as (a & Ea & Va). rewrite Vx in Va. destruct Va as (Fa & Ra & _).
  destruct (lin_to_exact n _ h t Hh (mid_exact n m) It) as (b & Eb & Vb). rewrite Vy in Vb. destruct Vb as (Fb & Rb & _).
  rewrite Ea in Er. rewrite Eb in Eq. cbn [bind] in Er, Eq. apply (log_from_mono lm m _ g a b r q C M Hg Fa Fb); [|assumption|assumption].
  rewrite Ra, Rb. destruct (Z.eq_dec s t) as [->|N]; [rewrite Vx in Vy; assert (x = y) by congruence; lra|].
  left. apply (value_lt n ltac:(lia) Linear s t x y Is It Vx Vy). lia.
Qed.

(** ** Functions of two takums *)
Section Bin.
Variable lm : libm.
Hypothesis C : c99 lm.
Hypothesis M : monotone lm.

(** what the wrappers do with arguments and results *)
Record side (k : kind) (w : Wrappers.width) (F : fmt) (h : Z -> outcome (flt F)) (T : flt F -> outcome Z) : Prop := {
  sd_conv : conv_ok (bits w) F T;
  sd_arg : forall t v, is_intn (bits w) t -> value k (bits w) t = Some v -> exists y a, h t = Val y /\ isf y a /\ arg v a;
  sd_le : forall s t x y f g a b, is_intn (bits w) s -> is_intn (bits w) t -> value k (bits w) s = Some x -> value k (bits w) t = Some y -> x <= y ->
    h s = Val f -> h t = Val g -> isf f a -> isf g b -> a <= b }.

Lemma isf_val : forall F (y : flt F) a b, isf y a -> isf y b -> a = b.
Proof. intros F y a b [_ <-] [_ <-]. reflexivity. Qed.
Lemma exact_side : forall w F h T, wide F -> linear_from_float (bits w) F T ->
  (forall t v, is_intn (bits w) t -> value Linear (bits w) t = Some v -> exists y, h t = Val y /\ isf y v /\ arg v v) -> side Linear w F h T.
Proof.
  intros w F h T W HT H. split.
  - apply lin_conv_ok; assumption.
  - intros t v It Vv. destruct (H t v It Vv) as (y & Ey & Iy & Ay). exists y, v. auto.
  - intros s t x y f g a b Is It Vx Vy L Ef Eg If Ig. destruct (H s x Is Vx) as (f' & Ef' & If' & _). destruct (H t y It Vy) as (g' & Eg' & Ig' & _).
    rewrite Ef in Ef'. rewrite Eg in Eg'. assert (f' = f) as -> by congruence. assert (g' = g) as -> by congruence. rewrite (isf_val _ _ _ _ If If'), (isf_val _ _ _ _ Ig Ig'). assumption.
Qed.
Lemma lin_64_side : side Linear W64 f80 (lin_to_ld x86_64 W64) (lin_from_ld x86_64 W64).
Proof.
  apply exact_side; [right; reflexivity|apply lin_ld_from|]. intros t v It Vv. destruct (ld_arg t v It Vv) as (y & Ey & Iy & Ay & _). eauto.
Qed.
Lemma lin_d_side : forall w, w <> W64 -> side Linear w f64 (lin_to_double x86_64 w) (lin_from_double x86_64 w).
Proof.
  intros w Nw. destruct (lin_double_cases w) as [E|(Ht & Hf & HE & Eu)]; [contradiction|].
  apply exact_side; [left; reflexivity|assumption|]. intros t v It Vv. destruct (dbl_arg w t v Nw It Vv) as (y & Ey & Iy & Ay & _). eauto.
Qed.
Lemma lin_ld_side : forall w, side Linear w f80 (lin_to_ld x86_64 w) (lin_from_ld x86_64 w).
Proof.
  intros w. apply exact_side; [right; reflexivity|apply lin_ld_from|]. intros t v It Vv.
  destruct (lin_to_exact (bits w) f80 _ t (lin_ld_to w) ltac:(left; reflexivity) It) as (y & Ey & Vy). rewrite Vv in Vy. destruct Vy as (Fy & Ry & _). exists y. split; [assumption|]. split; [split; assumption|].
  destruct (width_64 w) as [->|Nw]; [destruct (ld_arg t v It Vv) as (? & _ & _ & A & _); exact A|destruct (dbl_arg w t v Nw It Vv) as (? & _ & _ & A & _); exact A].
Qed.
Lemma log_side : forall w, side Logarithmic w f80 (log_to_ld x86_64 lm w) (log_from_ld x86_64 lm w).
Proof.
  intros w. pose proof (log_ld_to lm w) as Hh. pose proof (log_ld_from lm w) as Hg. assert (5 <= bits w <= 64)%Z as Hn by (destruct w; simpl; lia). split.
  - apply (log_conv_ok lm); [assumption|assumption|assumption|right; reflexivity].
  - intros t v It Vv. destruct (FixFacts.log_arg lm _ _ t v C Hh It Vv) as (y & a & Ey & Iy & Ay & _). eauto.
  - intros s t x y f g a b Is It Vx Vy L Ef Eg If Ig. assert (s <> nar (bits w)) as Ns by (intros ->; rewrite value_nar in Vx by lia; discriminate).
    pose proof (value_lt (bits w) Hn Logarithmic t s y x It Is Vy Vx) as VL. destruct (Z.lt_trichotomy s t) as [O|[O|O]].
    + destruct (log_to_lt lm _ _ s t C Hh Is It Ns O) as (f' & g' & Ef' & Eg' & _ & _ & LL). rewrite Ef in Ef'. rewrite Eg in Eg'. assert (f' = f) by congruence. assert (g' = g) by congruence. subst f' g'. destruct If as [_ <-], Ig as [_ <-]. lra.
    + subst t. rewrite Ef in Eg. assert (f = g) by congruence. subst g. rewrite (isf_val _ _ _ _ If Ig). lra.
    + apply VL in O. lra.
Qed.

(** the library functions of two arguments *)
Definition lib_binary (k : kind) (g : fun2) (fx : fixer2) (w : Wrappers.width) : Z -> Z -> outcome Z :=
  match k with
  | Logarithmic => binary_log x86_64 lm (lib2 lm g (ld x86_64)) fx w
  | Linear => binary_lin x86_64 (lib2 lm g f64) (lib2 lm g (ld x86_64)) fx w
  end.
Lemma lib_side : forall k w, exists F h T, side k w F h T /\
  forall g fx a b, lib_binary k g fx w a b = bind (h a) (fun x => bind (h b) (fun y => T (fx F x y (lib2 lm g F x y)))).
Proof.
  intros [] w.
  - exists f80, (log_to_ld x86_64 lm w), (log_from_ld x86_64 lm w). split; [apply log_side|reflexivity].
  - destruct (width_64 w) as [->|Nw].
    + exists f80, (lin_to_ld x86_64 W64), (lin_from_ld x86_64 W64). split; [apply lin_64_side|reflexivity].
    + exists f64, (lin_to_double x86_64 w), (lin_from_double x86_64 w). split; [apply lin_d_side; assumption|]. intros g fx a b. destruct w; (reflexivity || contradiction).
Qed.

(** replacing a nonnegative result, as exp does *)
Lemma fix_power_exp : forall F (x y r : flt F) a, isf x a -> a <> 0 -> nonneg r -> fix_power F x y r = unary_fixer n_exp F x r.
Proof.
  intros F x y r a Ix Na [Nr Sr]. cbn [unary_fixer]. unfold fix_power, fix_exp. rewrite (feq_isf _ _ _ _ Ix (FloatFacts.isf_zero F)), Req_bool_false by assumption.
  unfold fsignbit. rewrite Sr. reflexivity.
Qed.
Lemma pow_nonneg : forall F (x y : flt F) a b, isf x a -> isf y b -> 0 < a -> nonneg (lib2 lm Fpow F x y).
Proof. intros F x y a b [Fx <-] [Fy <-] P. apply (close_pos _ _ _ _ (c_pow_pos lm C F x y Fx Fy P)). apply exp_pos. Qed.
Lemma nonneg_fix_le : forall u n F T (x x' y y' : flt F) a a' r q, conv_ok n F T -> u = n_exp \/ u = n_cosh -> isf x a -> isf x' a' -> nonneg y -> nonneg y' -> fle y y' = true ->
  T (unary_fixer u F x y) = Val r -> T (unary_fixer u F x' y') = Val q -> r <> nar n -> q <> nar n -> (r <= q)%Z.
Proof.
  intros u n F T x x' y y' a a' r q K Hu Ix Ix' P P' L Er Eq Nr Nq. apply (fix_mono u n F T x x' y y' a a'); try assumption.
  - destruct Hu as [-> | ->]; [exact P|apply nonneg_ninf; exact P].
  - destruct Hu as [-> | ->]; [exact P'|apply nonneg_ninf; exact P'].
  - right. destruct Hu as [-> | ->]; discriminate.
Qed.

(** x^e for two bases, or two exponents *)
Lemma power_le : forall k w s e s' e' x z x' z' r q, is_intn (bits w) s -> is_intn (bits w) e -> is_intn (bits w) s' -> is_intn (bits w) e' ->
  value k (bits w) s = Some x -> value k (bits w) e = Some z -> value k (bits w) s' = Some x' -> value k (bits w) e' = Some z' -> 0 < x -> 0 < x' ->
  ((s = s' /\ (1 <= x /\ z <= z' \/ x <= 1 /\ z' <= z)) \/ (e = e' /\ (0 <= z /\ x <= x' \/ z <= 0 /\ x' <= x))) ->
  api_binary k lm n_power w s e = Val r -> api_binary k lm n_power w s' e' = Val q -> r <> nar (bits w) -> q <> nar (bits w) -> (r <= q)%Z.
Proof.
  intros k w s e s' e' x z x' z' r q Is Ie Is' Ie' Vx Vz Vx' Vz' Px Px' HC Er Eq Nr Nq. destruct (lib_side k w) as (F & h & T & [K A L] & W).
  assert (forall a b, api_binary k lm n_power w a b = lib_binary k Fpow fix_power w a b) as U by (intros; destruct k; reflexivity). rewrite U, W in Er, Eq.
  destruct (A s x Is Vx) as (f & a & Ef & If & Af). destruct (A e z Ie Vz) as (g & c & Eg & Ig & Ag). destruct (A s' x' Is' Vx') as (f' & a' & Ef' & If' & Af'). destruct (A e' z' Ie' Vz') as (g' & c' & Eg' & Ig' & Ag').
  rewrite Ef, Eg in Er. rewrite Ef', Eg' in Eq. cbn [bind] in Er, Eq.
  destruct (arg_order x a Af) as (_ & Pa & _ & O1 & O2 & O3 & _). destruct (arg_order x' a' Af') as (_ & Pa' & _). destruct (arg_order z c Ag) as (Z0 & Z1 & Z2 & _).
  assert (0 < a) as Qa by (apply Pa; assumption). assert (0 < a') as Qa' by (apply Pa'; assumption).
  pose proof (pow_nonneg F f g a c If Ig Qa) as N1. pose proof (pow_nonneg F f' g' a' c' If' Ig' Qa') as N2.
  rewrite (fix_power_exp F f g _ a If) in Er by (assumption || lra). rewrite (fix_power_exp F f' g' _ a' If') in Eq by (assumption || lra).
  apply (nonneg_fix_le n_exp _ F T f f' _ _ a a' r q K (or_introl eq_refl) If If' N1 N2); try assumption.
  destruct HC as [[E HC]|[E HC]]; subst.
  - rewrite Ef in Ef'. assert (f' = f) by congruence. subst f'. pose proof (isf_val _ _ _ _ If If'). subst a'. destruct If as [Ff <-]. destruct HC as [[H1 H2]|[H1 H2]].
    + pose proof (L e e' z z' g g' c c' Ie Ie' Vz Vz' H2 Eg Eg' Ig Ig') as LL. destruct Ig as [Fg <-], Ig' as [Fg' <-]. apply (mono_pow_exponent lm M); try assumption. destruct (Req_dec x 1) as [Q|Q]; [apply O2 in Q; lra|]. assert (1 < x) as Q' by lra. apply O3 in Q'. lra.
    + pose proof (L e' e z' z g' g c' c Ie' Ie Vz' Vz H2 Eg' Eg Ig' Ig) as LL. destruct Ig as [Fg <-], Ig' as [Fg' <-]. apply (mono_pow_exponent_dec lm M); try assumption. destruct (Req_dec x 1) as [Q|Q]; [apply O2 in Q; lra|]. assert (x < 1) as Q' by lra. apply O1 in Q'. lra.
  - rewrite Eg in Eg'. assert (g' = g) by congruence. subst g'. pose proof (isf_val _ _ _ _ Ig Ig'). subst c'. destruct Ig as [Fg <-]. destruct HC as [[H1 H2]|[H1 H2]].
    + pose proof (L s s' x x' f f' a a' Is Is' Vx Vx' H2 Ef Ef' If If') as LL. destruct If as [Ff <-], If' as [Ff' <-]. apply (mono_pow_base lm M); try assumption; [lra|]. destruct (Req_dec z 0) as [Q|Q]; [apply Z0 in Q; lra|]. assert (0 < z) as Q' by lra. apply Z1 in Q'. lra.
    + pose proof (L s' s x' x f' f a' a Is' Is Vx' Vx H2 Ef' Ef If' If) as LL. destruct If as [Ff <-], If' as [Ff' <-]. apply (mono_pow_base_dec lm M); try assumption; [lra|]. destruct (Req_dec z 0) as [Q|Q]; [apply Z0 in Q; lra|]. assert (z < 0) as Q' by lra. apply Z2 in Q'. lra.
Qed.

Lemma hypot_nonneg : forall F (x y : flt F) a b, isf x a -> isf y b -> is_nan (lib2 lm Fhypot F x y) = false /\ lib2 lm Fhypot F x y <> B754_infinity true.
Proof.
  intros F x y a b [Fx <-] [Fy <-]. pose proof (c_hypot lm C F x y Fx Fy) as K. split; [apply K|]. apply (close_ninf _ _ _ _ K). pose proof (sqrt_pos (B2R x * B2R x + B2R y * B2R y)). lra.
Qed.
Lemma hypot_le : forall k w s t u x y z r q, is_intn (bits w) s -> is_intn (bits w) t -> is_intn (bits w) u ->
  value k (bits w) s = Some x -> value k (bits w) t = Some y -> value k (bits w) u = Some z -> 0 <= x <= y ->
  (api_binary k lm n_hypotenuse w s u = Val r /\ api_binary k lm n_hypotenuse w t u = Val q) \/ (api_binary k lm n_hypotenuse w u s = Val r /\ api_binary k lm n_hypotenuse w u t = Val q) ->
  r <> nar (bits w) -> q <> nar (bits w) -> (r <= q)%Z.
Proof.
  intros k w s t u x y z r q Is It Iu Vx Vy Vz [P H] E Nr Nq. destruct (lib_side k w) as (F & h & T & [K A L] & W).
  assert (forall a b, api_binary k lm n_hypotenuse w a b = lib_binary k Fhypot fix2_over w a b) as U by (intros; destruct k; reflexivity). rewrite !U, !W in E. 
  destruct (A s x Is Vx) as (f & a & Ef & If & Af). destruct (A t y It Vy) as (g & b & Eg & Ig & Ag). destruct (A u z Iu Vz) as (p & c & Ep & Ip & Ap).
  rewrite Ef, Eg, Ep in E. cbn [bind] in E. pose proof (L s t x y f g a b Is It Vx Vy H Ef Eg If Ig) as Hab.
  assert (0 <= a) as Pa. { destruct (arg_order x a Af) as (O1 & O2 & _). destruct (Req_dec x 0) as [Q|Q]; [apply O1 in Q; lra|]. assert (0 < x) as Q' by lra. apply O2 in Q'. lra. }
  assert (fle (lib2 lm Fhypot F f p) (lib2 lm Fhypot F g p) = true /\ fle (lib2 lm Fhypot F p f) (lib2 lm Fhypot F p g) = true) as [L1 L2].
  { destruct If as [Ff <-], Ig as [Fg <-], Ip as [Fp <-]. apply (mono_hypot lm M); try assumption. lra. }
  assert (forall v v' : flt F, fix2_over F v v' = unary_fixer n_cosh F v) as X by reflexivity. rewrite !X in E.
  destruct E as [[E1 E2]|[E1 E2]].
  - apply (fix_mono n_cosh _ F T f g _ _ a b r q K If Ig (proj2 (hypot_nonneg F f p a c If Ip)) (proj2 (hypot_nonneg F g p b c Ig Ip))); try assumption. right. discriminate.
  - apply (fix_mono n_cosh _ F T p p _ _ c c r q K Ip Ip (proj2 (hypot_nonneg F p f c a Ip If)) (proj2 (hypot_nonneg F p g c b Ip Ig))); try assumption. right. discriminate.
Qed.
End Bin.
