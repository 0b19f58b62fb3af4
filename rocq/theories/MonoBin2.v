(** Monotonicity of logarithmic addition and subtraction, and of integer powers and roots. *)
From Coq Require Import ZArith Reals Bool Lia Lra.
From Flocq Require Import Core.Core IEEE754.BinarySingleNaN.
From Verif Require Import CModel FloatModel Libm LibmSpec WidthConv Wrappers Conversion Codec Spec FloatSpec CodeFacts SpecFacts ValueFacts RoundFacts WidthFacts WidthApi WidthProps FloatFacts Machine LogFacts LibmIdeal WrapApi WrapSpec WrapSpec2 LogApi LogProps LinApi LinProps FloatSym LogConv WrapTotal FloatAcc RealFacts FixFacts WrapAcc WrapMain WrapBin WrapPow WrapRoot WrapRefute LogAlgebra FunSym FunSym2 MonoFloat MonoSpec MonoConv MonoFun MonoFun2 MonoBin PowFacts Arith.
Local Open Scope R_scope.

Section Bin2.
Variable lm : libm.
Hypothesis C : c99 lm.
Hypothesis M : monotone lm.

(** ** Logarithmic sums and differences *)
Theorem log_addition_mono : forall w a b c, is_intn (bits w) a -> is_intn (bits w) b -> is_intn (bits w) c -> a <> nar (bits w) -> c <> nar (bits w) -> (a <= b)%Z ->
  exists r q, api_binary Logarithmic lm n_addition w a c = Val r /\ api_binary Logarithmic lm n_addition w b c = Val q /\ (r <= q)%Z.
Proof.
  intros w a b c Ia Ib Ic Na Nc H. assert (b <> nar (bits w)) as Nb by (unfold is_intn, nar in *; lia).
  destruct (log_sum_sign lm w a c C Ia Ic Na Nc) as (r & Er & Nr & _). destruct (log_sum_sign lm w b c C Ib Ic Nb Nc) as (q & Eq & Nq & _).
  exists r, q. split; [assumption|]. split; [assumption|]. destruct (log_arith lm w) as (h & g & Hh & Hg & Ea & _). rewrite Ea in Er, Eq.
  destruct (log_to_mono lm (bits w) f80 h a b C M Hh Ia Ib Na H) as (x & y & Ex & Ey & L). rewrite Ex in Er. rewrite Ey in Eq. cbn [bind] in Er, Eq.
  assert (exists z, h c = Val z /\ is_finite z = true) as (z & Ez & Fz).
  { destruct (LogAlgebra.log_arg _ _ _ c C Hh Ic) as [(-> & E)|[(-> & E)|(_ & _ & s & m & e & He & E)]]; [|contradiction|]; rewrite E; eexists; split; reflexivity. }
  rewrite Ez in Er, Eq. cbn [bind] in Er, Eq.
  apply (conv_le (bits w) f80 g _ _ r q (log_conv_ok lm (bits w) f80 g C M Hg (or_intror eq_refl)) (MonoFloat.add_mono f80 z x y Fz L) Er Eq Nr Nq).
Qed.
Theorem log_subtraction_mono : forall w a b c, is_intn (bits w) a -> is_intn (bits w) b -> is_intn (bits w) c -> a <> nar (bits w) -> c <> nar (bits w) -> (a <= b)%Z ->
  (exists r q, api_binary Logarithmic lm n_subtraction w a c = Val r /\ api_binary Logarithmic lm n_subtraction w b c = Val q /\ (r <= q)%Z) /\
  (exists r q, api_binary Logarithmic lm n_subtraction w c a = Val r /\ api_binary Logarithmic lm n_subtraction w c b = Val q /\ (q <= r)%Z).
Proof.
  intros w a b c Ia Ib Ic Na Nc H. pose proof (pow2_pos (bits w - 1) ltac:(destruct w; simpl; lia)) as P.
  assert (b <> nar (bits w)) as Nb by (unfold is_intn, nar in *; lia). split.
  - rewrite !log_subtraction_is_addition by assumption. apply log_addition_mono; try assumption; unfold is_intn, nar in *; lia.
  - rewrite !log_subtraction_is_addition by assumption. rewrite (log_addition_commutes lm w c (- a)), (log_addition_commutes lm w c (- b)).
    destruct (log_addition_mono w (- b) (- a) c) as (r & q & Er & Eq & L); try assumption; try (unfold is_intn, nar in *; lia). exists q, r. auto.
Qed.

(** ** Powers and hypotenuse *)
Lemma computes2_not_nar : forall k w b x y t, computes2 k (bits w) b x y t -> t <> nar (bits w).
Proof. intros k w b x y t (_ & _ & _ & z & _ & _ & _ & _ & [H _]). eapply MonoBin.faithful_not_nar; [destruct w; simpl; lia|exact H]. Qed.
Theorem power_mono : forall k w s e s' e' x z x' z' r q, is_intn (bits w) s -> is_intn (bits w) e -> is_intn (bits w) s' -> is_intn (bits w) e' ->
  value k (bits w) s = Some x -> value k (bits w) e = Some z -> value k (bits w) s' = Some x' -> value k (bits w) e' = Some z' -> 0 < x -> 0 < x' ->
  ((s = s' /\ (1 <= x /\ z <= z' \/ x <= 1 /\ z' <= z)) \/ (e = e' /\ (0 <= z /\ x <= x' \/ z <= 0 /\ x' <= x))) ->
  api_binary k lm n_power w s e = Val r -> api_binary k lm n_power w s' e' = Val q -> (r <= q)%Z.
Proof.
  intros k w s e s' e' x z x' z' r q Is Ie Is' Ie' Vx Vz Vx' Vz' Px Px' HC Er Eq.
  assert (forall s e x z r, is_intn (bits w) s -> is_intn (bits w) e -> value k (bits w) s = Some x -> value k (bits w) e = Some z -> 0 < x -> api_binary k lm n_power w s e = Val r -> r <> nar (bits w)) as N.
  { clear - C. intros s e x z r Is Ie Vx Vz P E. destruct (power_computes lm C k w s e x z Is Ie Vx Vz (or_introl P)) as (t & Et & Ct). rewrite E in Et. assert (t = r) by congruence. subst t. eapply computes2_not_nar. exact Ct. }
  apply (power_le lm C M k w s e s' e' x z x' z'); try assumption; eapply N; [exact Is|exact Ie|exact Vx|exact Vz|exact Px|exact Er|exact Is'|exact Ie'|exact Vx'|exact Vz'|exact Px'|exact Eq].
Qed.
Theorem hypot_mono : forall k w s t u x y z r q, is_intn (bits w) s -> is_intn (bits w) t -> is_intn (bits w) u ->
  value k (bits w) s = Some x -> value k (bits w) t = Some y -> value k (bits w) u = Some z -> 0 <= x <= y ->
  (api_binary k lm n_hypotenuse w s u = Val r /\ api_binary k lm n_hypotenuse w t u = Val q) \/ (api_binary k lm n_hypotenuse w u s = Val r /\ api_binary k lm n_hypotenuse w u t = Val q) ->
  (r <= q)%Z.
Proof.
  intros k w s t u x y z r q Is It Iu Vx Vy Vz H E.
  assert (forall s e x z r, is_intn (bits w) s -> is_intn (bits w) e -> value k (bits w) s = Some x -> value k (bits w) e = Some z -> api_binary k lm n_hypotenuse w s e = Val r -> r <> nar (bits w)) as N.
  { clear - C. intros s e x z r Is Ie Vx Vz E. destruct (binary_computes lm C k n_hypotenuse w s e x z) as (t & Et & Ct); try assumption; try discriminate. rewrite E in Et. assert (t = r) by congruence. subst t. eapply computes2_not_nar. exact Ct. }
  apply (hypot_le lm C M k w s t u x y z); try assumption; destruct E as [[E1 E2]|[E1 E2]].
  - exact (N s u x z r Is Iu Vx Vz E1).
  - exact (N u s z x r Iu Is Vz Vx E1).
  - exact (N t u y z q It Iu Vy Vz E2).
  - exact (N u t z y q Iu It Vz Vy E2).
Qed.

(** ** Integer powers *)
Lemma powerRZ_le_inc : forall x y j, 0 < x <= y -> (0 <= j)%Z -> powerRZ x j <= powerRZ y j.
Proof. intros x y j H Hj. rewrite <- (Z2Nat.id j Hj), <- !pow_powerRZ. apply pow_incr. lra. Qed.
Lemma powerRZ_le_dec : forall x y j, 0 < x <= y -> (j <= 0)%Z -> powerRZ y j <= powerRZ x j.
Proof.
  intros x y j H Hj. replace j with (- - j)%Z by ring. rewrite !(powerRZ_neg' _ (- j)). apply Rinv_le_contravar; [apply powerRZ_lt; lra|]. apply powerRZ_le_inc; [assumption|lia].
Qed.
Lemma fix_ipow_exp : forall t n (x r : flt f80), (0 < t)%Z -> nonneg r -> fix_integer_power x86_64 t n r = unary_fixer n_exp f80 x r.
Proof.
  intros t n x r Pt [Nr Sr]. cbn [unary_fixer]. unfold fix_integer_power, fix_exp. change (ld x86_64) with f80. replace (t =? 0)%Z with false by (symmetry; apply Z.eqb_neq; lia). replace (t <? 0)%Z with false by (symmetry; apply Z.ltb_ge; lia).
  cbn [negb andb]. rewrite andb_true_r. destruct r as [s|s| |s m e K]; try discriminate; simpl in Sr; subst; reflexivity.
Qed.
Lemma ipow_side : forall k w, float_ipow k w -> exists h T, side k w f80 h T /\
  forall t j, t <> nar (bits w) -> t <> 0%Z -> api_integer_power k lm w t j = bind (h t) (fun x => T (fix_integer_power x86_64 t j (cpow lm x (fint f80 j)))).
Proof.
  intros k w Hk. assert (forall n t j, n = bits w -> t <> nar (bits w) -> t <> 0%Z -> ((t =? nar n) || ((t =? 0) && (j <=? 0)))%Z = false) as Ec.
  { intros n t j -> Nt H0. rewrite (proj2 (Z.eqb_neq _ _) Nt), (proj2 (Z.eqb_neq _ _) H0). reflexivity. }
  destruct k.
  - destruct Hk as [Hk|Hk]; [discriminate|subst w]. exists (log_to_ld x86_64 lm W64), (log_from_ld x86_64 lm W64). split; [apply log_side; assumption|].
    intros t j Nt H0. cbn [api_integer_power]. unfold takum64_integer_power. change (NaR 64) with (nar 64). rewrite (Ec 64%Z t j eq_refl Nt H0). reflexivity.
  - exists (lin_to_ld x86_64 w), (lin_from_ld x86_64 w). split; [apply lin_ld_side|].
    intros t j Nt H0. cbn [api_integer_power]. unfold takum_linear_integer_power. replace (NaR (bits w)) with (nar (bits w)) by (destruct w; reflexivity). rewrite (Ec _ t j eq_refl Nt H0). reflexivity.
Qed.

Lemma pow_arg_le : forall (f g e : flt f80) a b c, isf f a -> isf g b -> isf e c -> 0 < a -> a <= b ->
  (0 <= c -> fle (lib2 lm Fpow f80 f e) (lib2 lm Fpow f80 g e) = true) /\ (c <= 0 -> fle (lib2 lm Fpow f80 g e) (lib2 lm Fpow f80 f e) = true).
Proof.
  intros f g e a b c [Ff <-] [Fg <-] [Fe <-] P L. split; intros H; [apply (mono_pow_base lm M)|apply (mono_pow_base_dec lm M)]; try assumption; lra.
Qed.

Theorem integer_power_mono : forall k w s t x y j r q, is_intn (bits w) s -> is_intn (bits w) t -> is_int64 j -> value k (bits w) s = Some x -> value k (bits w) t = Some y -> 0 < x <= y ->
  api_integer_power k lm w s j = Val r -> api_integer_power k lm w t j = Val q -> ((0 <= j)%Z -> (r <= q)%Z) /\ ((j <= 0)%Z -> (q <= r)%Z).
Proof.
  intros k w s t x y j r q Is It Ij Vx Vy Hxy Er Eq. assert (8 <= bits w <= 64)%Z as Hn by (destruct w; simpl; lia).
  assert (forall t v, is_intn (bits w) t -> value k (bits w) t = Some v -> 0 < v -> (0 < t)%Z /\ t <> nar (bits w)) as Pos.
  { intros t0 v I0 V0 P0. assert (t0 <> nar (bits w)) as N0 by (intros ->; rewrite value_nar in V0 by lia; discriminate). split; [|assumption].
    pose proof (value_sign k (bits w) t0 v I0 Hn V0) as S. destruct (Z.eq_dec t0 0) as [->|]; [rewrite value_0 in V0; assert (v = 0) by congruence; lra|]. destruct (Z_lt_le_dec t0 0) as [Q|Q]; [apply S in Q; lra|lia]. }
  destruct (Pos s x Is Vx ltac:(lra)) as [Ps Ns]. destruct (Pos t y It Vy ltac:(lra)) as [Pt Nt].
  assert (float_ipow k w \/ (k = Logarithmic /\ log_integer_power (bits w) (api_integer_power k lm w))) as [Hk|[-> Hk]].
  { destruct k; [|left; left; reflexivity]. destruct w; [right|right|right|left; right; reflexivity]; (split; [reflexivity|constructor]). }
  - destruct (ipow_side k w Hk) as (h & T & [K A L] & W). rewrite W in Er by (assumption || lia). rewrite W in Eq by (assumption || lia).
    assert (r <> nar (bits w)) as Nr by (intros ->; rewrite <- W in Er by (assumption || lia); apply (integer_power_nar_iff lm C k w s j Hk Is Ij) in Er; destruct Er as [Er|Er]; [contradiction|lia]).
    assert (q <> nar (bits w)) as Nq by (intros ->; rewrite <- W in Eq by (assumption || lia); apply (integer_power_nar_iff lm C k w t j Hk It Ij) in Eq; destruct Eq as [Eq|Eq]; [contradiction|lia]).
    destruct (A s x Is Vx) as (f & a & Ef & If & Af). destruct (A t y It Vy) as (g & b & Eg & Ig & Ag). rewrite Ef in Er. rewrite Eg in Eq. cbn [bind] in Er, Eq. unfold cpow in Er, Eq.
    pose proof (L s t x y f g a b Is It Vx Vy ltac:(lra) Ef Eg If Ig) as Lab. destruct (arg_order x a Af) as (_ & Pa & _). assert (0 < a) as Qa by (apply Pa; lra). clear Pa. rename Qa into Pa. pose proof (isf_int64 j Ij) as Ie.
    pose proof (pow_nonneg lm C f80 f _ a _ If Ie Pa) as N1. pose proof (pow_nonneg lm C f80 g _ b _ Ig Ie ltac:(lra)) as N2.
    rewrite (fix_ipow_exp s j f _ Ps N1) in Er. rewrite (fix_ipow_exp t j g _ Pt N2) in Eq. destruct (pow_arg_le f g _ a b _ If Ig Ie Pa Lab) as [L1 L2]. split; intros Hj.
    + apply (nonneg_fix_le n_exp (bits w) f80 T f g _ _ a b r q K (or_introl eq_refl) If Ig N1 N2); try assumption. apply L1. apply IZR_le. assumption.
    + apply (nonneg_fix_le n_exp (bits w) f80 T g f _ _ b a q r K (or_introl eq_refl) Ig If N2 N1); try assumption. apply L2. apply IZR_le. assumption.
  - destruct (pow_correct _ _ s j Hk Is Ij) as (u & Eu & _ & Vu). destruct (pow_correct _ _ t j Hk It Ij) as (v & Ev & _ & Vv). rewrite Vx in Vu. rewrite Vy in Vv.
    rewrite Er in Eu. rewrite Eq in Ev. assert (u = r) as -> by congruence. assert (v = q) as -> by congruence.
    destruct Vu as [(? & _)|[_ Vu]]; [lra|]. destruct Vv as [(? & _)|[_ Vv]]; [lra|]. split; intros Hj.
    + apply (rounds_mono Logarithmic (bits w) (powerRZ x j) (powerRZ y j)); try assumption; [lia|]. apply powerRZ_le_inc; assumption.
    + apply (rounds_mono Logarithmic (bits w) (powerRZ y j) (powerRZ x j)); try assumption; [lia|]. apply powerRZ_le_dec; assumption.
Qed.

(** ** Roots *)
Lemma g_root_mono_pos : forall m, mach_ok m -> forall a b e u v, is_real_takum (m_n m) a -> is_real_takum (m_n m) b -> is_int64 e -> e <> 0%Z -> (0 < a <= b)%Z ->
  g_root m a e = Val u -> g_root m b e = Val v -> ((0 < e)%Z -> (u <= v)%Z) /\ ((e < 0)%Z -> (v <= u)%Z).
Proof.
  intros m Hm a b e u v Ra Rb He Ne H Ea Eb. pose proof (mrange m Hm).
  assert (forall t, (0 < t)%Z -> root_nar t e = false) as K.
  { intros t Pt. unfold root_nar. replace (t <? 0)%Z with false by (symmetry; apply Z.ltb_ge; lia). replace (t =? 0)%Z with false by (symmetry; apply Z.eqb_neq; lia). rewrite (proj2 (Z.eqb_neq _ _) Ne). reflexivity. }
  rewrite (g_root_real m Hm) in Ea by (assumption || (apply K; lia)). rewrite (g_root_real m Hm) in Eb by (assumption || (apply K; lia)). 
  replace (a <? 0)%Z with false in Ea by (symmetry; apply Z.ltb_ge; lia). replace (b <? 0)%Z with false in Eb by (symmetry; apply Z.ltb_ge; lia).
  assert (l_ (m_n m) a <= l_ (m_n m) b) as Hl by (apply (l_le_pos m Hm); assumption).
  injection Ea as <-. injection Eb as <-. unfold asm. split; intros Q.
  - assert (0 < RF (m_F m) (IZR e)) as Hpos by (apply RF_int_pos; assumption).
    assert (RF (m_F m) (l_ (m_n m) a / RF (m_F m) (IZR e)) <= RF (m_F m) (l_ (m_n m) b / RF (m_F m) (IZR e))) as HM.
    { apply RF_mono. apply Rmult_le_compat_r; [left; apply Rinv_0_lt_compat; assumption|assumption]. }
    apply enc_mono; [lia|]. apply (mo_psi_mono m Hm). unfold sg. lra.
  - assert (0 < RF (m_F m) (IZR (- e))) as Hpos by (apply RF_int_pos; lia). rewrite opp_IZR in Hpos. unfold RF in Hpos. rewrite round_NE_opp in Hpos. fold (RF (m_F m) (IZR e)) in Hpos.
    assert (RF (m_F m) (l_ (m_n m) b / RF (m_F m) (IZR e)) <= RF (m_F m) (l_ (m_n m) a / RF (m_F m) (IZR e))) as HM.
    { apply RF_mono. pose proof (Rinv_lt_0_compat (RF (m_F m) (IZR e)) ltac:(lra)). unfold Rdiv. nra. }
    apply enc_mono; [lia|]. apply (mo_psi_mono m Hm). unfold sg. lra.
Qed.

Theorem root_mono_pos : forall k w s t x y j r q, is_intn (bits w) s -> is_intn (bits w) t -> is_int64 j -> j <> 0%Z -> value k (bits w) s = Some x -> value k (bits w) t = Some y -> 0 < x <= y ->
  api_root k lm w s j = Val r -> api_root k lm w t j = Val q -> ((0 < j)%Z -> (r <= q)%Z) /\ ((j < 0)%Z -> (q <= r)%Z).
Proof.
  intros k w s t x y j r q Is It Ij Nj Vx Vy Hxy Er Eq. assert (8 <= bits w <= 64)%Z as Hn by (destruct w; simpl; lia).
  assert (forall t v, is_intn (bits w) t -> value k (bits w) t = Some v -> 0 < v -> (0 < t)%Z /\ t <> nar (bits w)) as Pos.
  { intros t0 v I0 V0 P0. assert (t0 <> nar (bits w)) as N0 by (intros ->; rewrite value_nar in V0 by lia; discriminate). split; [|assumption].
    pose proof (value_sign k (bits w) t0 v I0 Hn V0) as S. destruct (Z.eq_dec t0 0) as [->|]; [rewrite value_0 in V0; assert (v = 0) by congruence; lra|]. destruct (Z_lt_le_dec t0 0) as [Q|Q]; [apply S in Q; lra|lia]. }
  destruct (Pos s x Is Vx ltac:(lra)) as [Ps Ns]. destruct (Pos t y It Vy ltac:(lra)) as [Pt Nt].
  destruct k.
  - assert (s <= t)%Z as Hst. { destruct (Z_le_gt_dec s t) as [?|G]; [assumption|]. assert (y < x) by (apply (value_lt (bits w) ltac:(lia) Logarithmic t s y x); (assumption || lia)). lra. }
    assert (log_root (bits w) (api_root Logarithmic lm w)) as HR by (destruct w; constructor). apply log_root_inv in HR as (m & Hm & Em & Hf & _). rewrite !Hf in Er. rewrite !Hf in Eq.
    apply (g_root_mono_pos m Hm s t j r q); try assumption; try (rewrite Em; split; [assumption|split; [lia|assumption]]). lia.
  - pose proof (lin_ld_side w) as [K A L].
    assert (forall t0, (0 < t0)%Z -> api_root Linear lm w t0 j = bind (lin_to_ld x86_64 w t0) (fun a => lin_from_ld x86_64 w (root_float lm t0 j a))) as W.
    { intros t0 P0. cbn [api_root]. unfold takum_linear_root. rewrite (proj2 (Z.eqb_neq _ _) Nj). cbn [orb]. replace (t0 <? 0)%Z with false by (symmetry; apply Z.ltb_ge; lia). cbn [andb]. destruct (lin_to_ld x86_64 w t0); [|reflexivity]. cbn [bind]. unfold root_float. replace (t0 <? 0)%Z with false by (symmetry; apply Z.ltb_ge; lia). reflexivity. }
    assert (r <> nar (bits w)) as Nr by (intros ->; apply (root_nar_iff lm C w s j Is Ij) in Er; destruct Er as [Er|[Er|[Er|Er]]]; [contradiction|contradiction|lia|lia]).
    assert (q <> nar (bits w)) as Nq by (intros ->; apply (root_nar_iff lm C w t j It Ij) in Eq; destruct Eq as [Eq|[Eq|[Eq|Eq]]]; [contradiction|contradiction|lia|lia]).
    rewrite W in Er by assumption. rewrite W in Eq by assumption.
    destruct (A s x Is Vx) as (f & a & Ef & If & Af). destruct (A t y It Vy) as (g & b & Eg & Ig & Ag). rewrite Ef in Er. rewrite Eg in Eq. cbn [bind] in Er, Eq. unfold root_float, cpow in Er, Eq.
    pose proof (L s t x y f g a b Is It Vx Vy ltac:(lra) Ef Eg If Ig) as Lab. destruct (arg_order x a Af) as (_ & Pa & _). assert (0 < a) as Qa by (apply Pa; lra). clear Pa. rename Qa into Pa.
    destruct (recip_int j Ij Nj) as (c & Ie & _ & _ & _ & Pc & Mc & Hc & _).
    pose proof (pow_nonneg lm C f80 f _ a _ If Ie Pa) as N1. pose proof (pow_nonneg lm C f80 g _ b _ Ig Ie ltac:(lra)) as N2. destruct (pow_arg_le f g _ a b _ If Ig Ie Pa Lab) as [L1 L2].
    set (e := fdiv (one f80) (fint f80 j)) in *. replace (s <? 0)%Z with false in Er by (symmetry; apply Z.ltb_ge; lia). replace (t <? 0)%Z with false in Eq by (symmetry; apply Z.ltb_ge; lia). replace (s =? 0)%Z with false in Er by (symmetry; apply Z.eqb_neq; lia). replace (t =? 0)%Z with false in Eq by (symmetry; apply Z.eqb_neq; lia).
    cbn [negb andb] in Er, Eq. rewrite andb_true_r in Er, Eq.
    assert (forall (p z : flt f80) v, nonneg z -> lin_from_ld x86_64 w (if feq z (fzero f80) then dmin f80 else z) = Val v -> v <> nar (bits w) -> lin_from_ld x86_64 w (unary_fixer n_exp f80 p z) = Val v) as FX.
    { intros p z v [Z1 Z2] Ev Nv. destruct z as [z|z| |z m0 e0 Hz]; try discriminate; simpl in Z2; subst z; try exact Ev. exfalso. change (feq (B754_infinity false) (fzero f80)) with false in Ev.
      destruct (k_val _ _ _ K (B754_infinity false)) as (v' & E' & [_ Q] & _). change (ld x86_64) with f80 in E'. rewrite Ev in E'. assert (v' = v) as -> by congruence. apply Nv, Q. reflexivity. }
    apply (FX f) in Er; [|assumption|assumption]. apply (FX g) in Eq; [|assumption|assumption]. split; intros Hj.
    + apply (nonneg_fix_le n_exp (bits w) f80 _ f g _ _ a b r q K (or_introl eq_refl) If Ig N1 N2); try assumption. apply L1. left. apply Pc. assumption.
    + apply (nonneg_fix_le n_exp (bits w) f80 _ g f _ _ b a q r K (or_introl eq_refl) Ig If N2 N1); try assumption. apply L2. left. apply Mc. assumption.
Qed.
End Bin2.
