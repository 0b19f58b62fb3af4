(** Absolute values and signs of products and quotients. *)
From Coq Require Import ZArith Reals Bool Lia Lra Psatz.
From Flocq Require Import Core.Core IEEE754.BinarySingleNaN.
From Verif Require Import CModel FloatModel WidthConv Codec Spec CodeFacts SpecFacts ValueFacts WidthFacts WidthApi WidthProps RoundFacts FloatFacts Machine Arith Wrappers LogApi LinApi LogFacts PowFacts LogProps MiscProps LinArith LinAlgebra WrapSign WaySpec.
Local Open Scope R_scope.

Ltac signs := repeat match goal with H : (?x < 0)%Z |- context [Z.sgn ?x] => rewrite (Z.sgn_neg x H) | H : (0 < ?x)%Z |- context [Z.sgn ?x] => rewrite (Z.sgn_pos x H) end; reflexivity.
Lemma mult_std : forall k n f, multiplies k n f -> std_width n.
Proof. intros k n f H. destruct k; cbn in H; destruct H; unfold std_width; tauto. Qed.
Lemma divides_std : forall k n f, divides k n f -> std_width n.
Proof. intros k n f H. destruct k; cbn in H; destruct H; unfold std_width; tauto. Qed.
Lemma some_value : forall k n t, std_width n -> is_intn n t -> t <> nar n -> exists x, value k n t = Some x.
Proof.
  intros k n t Sw It Nt. pose proof (std_range n Sw) as Hn. pose proof (LogFacts.value_some k n t ltac:(lia) It Nt) as H.
  destruct (value k n t) as [x|]; [eauto|contradiction].
Qed.
Lemma mult_comm : forall k n f a b, multiplies k n f -> is_intn n a -> is_intn n b -> f a b = f b a.
Proof. intros [] n f a b H Ia Ib; [apply (LogProps.mul_comm n)|apply (multiplication_commutes n)]; assumption. Qed.
Lemma mult_neg : forall k n f a b t, multiplies k n f -> is_intn n a -> is_intn n b -> a <> nar n -> b <> nar n -> f a b = Val t -> f (- a)%Z b = Val (- t)%Z.
Proof. intros [] n f a b t H; [apply (mul_neg n f a b t H)|apply (mul_lin_neg n f a b t H)]. Qed.
Lemma neg_intn : forall n a, (8 <= n <= 64)%Z -> is_intn n a -> a <> nar n -> is_intn n (- a) /\ (- a)%Z <> nar n.
Proof. intros n a Hn Ia Na. unfold is_intn, nar in *. lia. Qed.
Lemma mult_neg2 : forall k n f a b t, multiplies k n f -> is_intn n a -> is_intn n b -> a <> nar n -> b <> nar n -> f a b = Val t -> f a (- b)%Z = Val (- t)%Z.
Proof.
  intros k n f a b t H Ia Ib Na Nb E. pose proof (std_range n (mult_std k n f H)) as Hn. destruct (neg_intn n b Hn Ib Nb) as [Ib' Nb'].
  rewrite (mult_comm k n f) by assumption. apply (mult_neg k n f b a t); try assumption. rewrite (mult_comm k n f) by assumption. assumption.
Qed.
Lemma mult_signs : forall k n f a b, multiplies k n f -> is_intn n a -> is_intn n b -> a <> nar n -> b <> nar n ->
  exists t, f a b = Val t /\ is_intn n t /\ t <> nar n /\ Z.sgn t = (Z.sgn a * Z.sgn b)%Z.
Proof.
  intros k n f a b H Ia Ib Na Nb. pose proof (mult_std k n f H) as Sw. pose proof (std_range n Sw) as Hn.
  destruct (some_value k n a Sw Ia Na) as [x Va]. destruct (some_value k n b Sw Ib Nb) as [y Vb].
  assert (exists t, f a b = Val t /\ is_intn n t /\ rounds_faithfully k n (x * y) t) as (t & E & It & Rf).
  { destruct k; cbn in H; [destruct (mul_faithful n f a b H Ia Ib) as (t & E & It & V)|destruct (mul_lin_faithful n f H a b Ia Ib) as (t & E & It & V)]; rewrite Va, Vb in V; eauto. }
  exists t. split; [assumption|]. split; [assumption|]. destruct (faithful_sgn k n _ t Rf) as (S1 & S2 & S3).
  destruct (value_pos k n a x Hn Ia Va) as (A1 & A2 & A3). destruct (value_pos k n b y Hn Ib Vb) as (B1 & B2 & B3).
  assert (0 < 2 ^ (n - 1))%Z as Pn by (apply Z.pow_pos_nonneg; lia).
  destruct (Z.lt_trichotomy a 0) as [Ca|[Ca|Ca]].
  - destruct (Z.lt_trichotomy b 0) as [Cb|[Cb|Cb]].
    + assert (0 < t)%Z as T by (apply S1; apply A3 in Ca; apply B3 in Cb; nra). split; [unfold nar; lia|]. signs.
    + assert (t = 0)%Z as T by (apply S3; apply B2 in Cb; rewrite Cb; ring). subst. split; [unfold nar; lia|]. rewrite Z.mul_0_r. reflexivity.
    + assert (t < 0 /\ t <> nar n)%Z as [T T'] by (apply S2; apply A3 in Ca; apply B1 in Cb; nra). split; [assumption|]. signs.
  - assert (t = 0)%Z as T by (apply S3; apply A2 in Ca; rewrite Ca; ring). subst. split; [unfold nar; lia|]. reflexivity.
  - destruct (Z.lt_trichotomy b 0) as [Cb|[Cb|Cb]].
    + assert (t < 0 /\ t <> nar n)%Z as [T T'] by (apply S2; apply A1 in Ca; apply B3 in Cb; nra). split; [assumption|]. signs.
    + assert (t = 0)%Z as T by (apply S3; apply B2 in Cb; rewrite Cb; ring). subst. split; [unfold nar; lia|]. rewrite Z.mul_0_r. reflexivity.
    + assert (0 < t)%Z as T by (apply S1; apply A1 in Ca; apply B1 in Cb; nra). split; [unfold nar; lia|]. signs.
Qed.
Lemma abs_val : forall k n f t, absolute_value k n f -> is_intn n t -> t <> nar n -> f t = Val (Z.abs t) /\ is_intn n (Z.abs t) /\ Z.abs t <> nar n.
Proof.
  intros k n f t H It Nt. assert ((8 <= n <= 64)%Z /\ f = absolute n) as [Hn ->] by (destruct H; split; (lia || reflexivity)).
  assert (is_intn n (Z.abs t)) as IA by (unfold is_intn, nar in *; lia). rewrite absolute_eq by auto. rewrite (to_s_eq n (Z.abs t) 0 (Z.abs t)) by (assumption || lia).
  split; [reflexivity|]. split; [assumption|]. unfold nar. assert (0 < 2 ^ (n - 1))%Z by (apply Z.pow_pos_nonneg; lia). lia.
Qed.
Lemma sgn_abs_cases : forall a, (Z.abs a = a \/ Z.abs a = - a)%Z.
Proof. intros a. lia. Qed.
Theorem abs_product : forall k n mul abs a b, multiplies k n mul -> absolute_value k n abs -> is_intn n a -> is_intn n b -> a <> nar n -> b <> nar n ->
  exists a' b' c c', abs a = Val a' /\ abs b = Val b' /\ mul a b = Val c /\ abs c = Val c' /\ mul a' b' = Val c'.
Proof.
  intros k n mul abs a b H Ha Ia Ib Na Nb. pose proof (std_range n (mult_std k n mul H)) as Hn.
  destruct (abs_val k n abs a Ha Ia Na) as (Ea & Ia' & Na'). destruct (abs_val k n abs b Ha Ib Nb) as (Eb & Ib' & Nb').
  destruct (mult_signs k n mul a b H Ia Ib Na Nb) as (c & Ec & Ic & Nc & Sc). destruct (abs_val k n abs c Ha Ic Nc) as (Ec' & _).
  exists (Z.abs a), (Z.abs b), c, (Z.abs c). repeat (split; [assumption|]).
  destruct (mult_signs k n mul _ _ H Ia' Ib' Na' Nb') as (d & Ed & _ & _ & Sd). rewrite Ed. f_equal.
  assert (d = c \/ d = - c)%Z as D.
  { destruct (neg_intn n a Hn Ia Na) as [J1 J2]. destruct (sgn_abs_cases a) as [Q|Q], (sgn_abs_cases b) as [Q'|Q']; rewrite Q, Q' in Ed.
    - left; congruence.
    - right. pose proof (mult_neg2 k n mul a b c H Ia Ib Na Nb Ec). congruence.
    - right. pose proof (mult_neg k n mul a b c H Ia Ib Na Nb Ec). congruence.
    - left. pose proof (mult_neg k n mul a b c H Ia Ib Na Nb Ec) as K. pose proof (mult_neg2 k n mul _ b _ H J1 Ib J2 Nb K) as K'. rewrite Z.opp_involutive in K'. congruence. }
  assert (0 <= d)%Z as P by (apply Z.sgn_nonneg; rewrite Sd; apply Z.mul_nonneg_nonneg; apply Z.sgn_nonneg, Z.abs_nonneg). clear - P D. lia.
Qed.

Lemma div_signs : forall k n f a b, divides k n f -> is_intn n a -> is_real_takum n b -> a <> nar n ->
  exists t, f a b = Val t /\ is_intn n t /\ t <> nar n /\ Z.sgn t = (Z.sgn a * Z.sgn b)%Z /\
            f (- a)%Z b = Val (- t)%Z /\ f a (- b)%Z = Val (- t)%Z.
Proof.
  intros k n f a b H Ia Rb Na. pose proof (divides_std k n f H) as Sw. pose proof (std_range n Sw) as Hn. pose proof Rb as (Ib & Zb & Nb).
  destruct (some_value k n a Sw Ia Na) as [x Va]. destruct (some_value k n b Sw Ib Nb) as [y Vb].
  destruct (value_pos k n a x Hn Ia Va) as (A1 & A2 & A3). destruct (value_pos k n b y Hn Ib Vb) as (B1 & B2 & B3).
  assert (exists t, f a b = Val t /\ is_intn n t /\ rounds_faithfully k n (x / y) t) as (t & E & It & Rf).
  { destruct k; cbn in H; [destruct (div_faithful n f a b H Ia Ib) as (t & E & It & V)|destruct (div_lin_faithful n f H a b Ia Ib) as (t & E & It & V)]; rewrite Va, Vb in V;
      (destruct V as [[V _]|[_ V]]; [exfalso; apply Zb, B2; assumption|eauto]). }
  exists t. split; [assumption|]. split; [assumption|]. destruct (faithful_sgn k n _ t Rf) as (S1 & S2 & S3).
  assert (0 < 2 ^ (n - 1))%Z as Pn by (apply Z.pow_pos_nonneg; lia).
  assert (f (- a)%Z b = Val (- t)%Z /\ f a (- b)%Z = Val (- t)%Z) as Ng.
  { destruct k; [apply (div_neg n f a b t H)|apply (div_lin_neg n f a b t H)]; assumption. }
  assert (t <> nar n /\ Z.sgn t = Z.sgn a * Z.sgn b)%Z as [K1 K2]; [|repeat (split; [assumption|]); assumption].
  destruct (Z.lt_trichotomy b 0) as [Cb|[Cb|Cb]]; [|contradiction|].
  - pose proof (Rinv_lt_0_compat y ltac:(apply B3; assumption)) as Py. destruct (Z.lt_trichotomy a 0) as [Ca|[Ca|Ca]].
    + assert (0 < t)%Z as T by (apply S1; apply A3 in Ca; unfold Rdiv; nra). split; [unfold nar; lia|]. signs.
    + assert (t = 0)%Z as T by (apply S3; apply A2 in Ca; rewrite Ca; unfold Rdiv; ring). subst. split; [unfold nar; lia|]. reflexivity.
    + assert (t < 0 /\ t <> nar n)%Z as [T T'] by (apply S2; apply A1 in Ca; unfold Rdiv; nra). split; [assumption|]. signs.
  - pose proof (Rinv_0_lt_compat y ltac:(apply B1; assumption)) as Py. destruct (Z.lt_trichotomy a 0) as [Ca|[Ca|Ca]].
    + assert (t < 0 /\ t <> nar n)%Z as [T T'] by (apply S2; apply A3 in Ca; unfold Rdiv; nra). split; [assumption|]. signs.
    + assert (t = 0)%Z as T by (apply S3; apply A2 in Ca; rewrite Ca; unfold Rdiv; ring). subst. split; [unfold nar; lia|]. reflexivity.
    + assert (0 < t)%Z as T by (apply S1; apply A1 in Ca; unfold Rdiv; nra). split; [unfold nar; lia|]. signs.
Qed.
Theorem abs_quotient : forall k n div abs a b, divides k n div -> absolute_value k n abs -> is_intn n a -> is_real_takum n b -> a <> nar n ->
  exists a' b' c c', abs a = Val a' /\ abs b = Val b' /\ div a b = Val c /\ abs c = Val c' /\ div a' b' = Val c'.
Proof.
  intros k n div abs a b H Ha Ia Rb Na. pose proof (std_range n (divides_std k n div H)) as Hn.
  destruct (abs_val k n abs a Ha Ia Na) as (Ea & Ia' & Na'). destruct (abs_val k n abs b Ha (proj1 Rb) (proj2 (proj2 Rb))) as (Eb & Ib' & Nb').
  assert (is_real_takum n (Z.abs b)) as Rb' by (split; [assumption|]; split; [destruct Rb as (_ & ? & _); lia|assumption]).
  destruct (div_signs k n div a b H Ia Rb Na) as (c & Ec & Ic & Nc & Sc & M1 & M2). destruct (abs_val k n abs c Ha Ic Nc) as (Ec' & _).
  exists (Z.abs a), (Z.abs b), c, (Z.abs c). repeat (split; [assumption|]).
  destruct (div_signs k n div _ _ H Ia' Rb' Na') as (d & Ed & _ & _ & Sd & _). rewrite Ed. f_equal.
  assert (d = c \/ d = - c)%Z as D.
  { destruct (neg_intn n a Hn Ia Na) as [J1 J2]. destruct (sgn_abs_cases a) as [Q|Q], (sgn_abs_cases b) as [Q'|Q']; rewrite Q, Q' in Ed.
    - left; congruence.
    - right. congruence.
    - right. congruence.
    - left. destruct (div_signs k n div (- a)%Z b H J1 Rb J2) as (c2 & E2 & _ & _ & _ & _ & M). assert (c2 = - c)%Z as -> by congruence. rewrite Z.opp_involutive in M. congruence. }
  assert (0 <= d)%Z as P by (apply Z.sgn_nonneg; rewrite Sd; apply Z.mul_nonneg_nonneg; apply Z.sgn_nonneg, Z.abs_nonneg). clear - P D. lia.
Qed.

Lemma sign_val : forall k n f t, sign_function k n f -> t <> nar n -> f t = Val (Z.sgn t * 2 ^ (n - 2))%Z.
Proof.
  intros k n f t H Nt. assert (f = sign n) as -> by (destruct H; reflexivity). unfold sign, NaR. fold (nar n). destruct (Z.eqb_spec t (nar n)); [contradiction|]. unfold ONE. f_equal.
  destruct (Z.ltb_spec t 0); [rewrite Z.sgn_neg by assumption; lia|]. destruct (Z.ltb_spec 0 t); [rewrite Z.sgn_pos by assumption; lia|]. assert (t = 0)%Z as -> by lia. reflexivity.
Qed.
Lemma sgn_intn : forall n s, (8 <= n <= 64)%Z -> (-1 <= s <= 1)%Z -> is_intn n (s * 2 ^ (n - 2)) /\ (s * 2 ^ (n - 2))%Z <> nar n.
Proof.
  intros n s Hn Hs. assert (0 < 2 ^ (n - 2))%Z by (apply Z.pow_pos_nonneg; lia). assert (2 ^ (n - 1) = 2 * 2 ^ (n - 2))%Z as E by (rewrite <- Z.pow_succ_r by lia; f_equal; lia).
  unfold is_intn, nar. rewrite E. nia.
Qed.
Lemma sgn_rng : forall t, (-1 <= Z.sgn t <= 1)%Z.
Proof. intros t. lia. Qed.
(** products of -1, 0 or 1 *)
Lemma mult_one : forall k n f a, multiplies k n f -> is_intn n a -> f a (2 ^ (n - 2))%Z = Val a.
Proof. intros [] n f a H Ia; [apply (mul_one n)|apply (mul_lin_one n)]; assumption. Qed.
Lemma mult_sgn : forall k n f s a, multiplies k n f -> is_intn n a -> a <> nar n -> (-1 <= s <= 1)%Z -> f (s * 2 ^ (n - 2))%Z a = Val (s * a)%Z.
Proof.
  intros k n f s a H Ia Na Hs. pose proof (std_range n (mult_std k n f H)) as Hn.
  destruct (sgn_intn n 1 Hn ltac:(lia)) as [I1 N1]. rewrite Z.mul_1_l in I1, N1.
  assert (f (2 ^ (n - 2))%Z a = Val a) as E1 by (rewrite (mult_comm k n f) by assumption; apply (mult_one k n f); assumption).
  assert (s = 1 \/ s = -1 \/ s = 0)%Z as [-> |[-> | ->]] by lia.
  - rewrite !Z.mul_1_l. assumption.
  - replace (-1 * 2 ^ (n - 2))%Z with (- 2 ^ (n - 2))%Z by ring. replace (-1 * a)%Z with (- a)%Z by ring. apply (mult_neg k n f); assumption.
  - rewrite !Z.mul_0_l. assert (is_intn n 0 /\ 0%Z <> nar n) as [I0 N0] by (destruct (sgn_intn n 0 Hn ltac:(lia)); rewrite Z.mul_0_l in *; split; assumption).
    destruct (mult_signs k n f 0 a H I0 Ia N0 Na) as (t & E & _ & _ & S). rewrite E. f_equal. apply Z.sgn_null_iff. rewrite S. reflexivity.
Qed.
Theorem sign_product : forall k n mul sgn a b, multiplies k n mul -> sign_function k n sgn -> is_intn n a -> is_intn n b -> a <> nar n -> b <> nar n ->
  exists a' b' c c', sgn a = Val a' /\ sgn b = Val b' /\ mul a b = Val c /\ sgn c = Val c' /\ mul a' b' = Val c'.
Proof.
  intros k n mul sgn a b H Hs Ia Ib Na Nb. pose proof (std_range n (mult_std k n mul H)) as Hn. destruct (mult_signs k n mul a b H Ia Ib Na Nb) as (c & Ec & Ic & Nc & Sc).
  destruct (sgn_intn n (Z.sgn b) Hn (sgn_rng b)) as [J1 J2].
  do 4 eexists. split; [apply (sign_val k n); eassumption|]. split; [apply (sign_val k n); eassumption|]. split; [eassumption|]. split; [apply (sign_val k n); eassumption|].
  rewrite (mult_sgn k n mul) by (assumption || apply sgn_rng). rewrite Sc. f_equal. ring.
Qed.
Theorem sign_quotient : forall k n div mul sgn a b, divides k n div -> multiplies k n mul -> sign_function k n sgn -> is_intn n a -> is_real_takum n b -> a <> nar n ->
  exists a' b' c c', sgn a = Val a' /\ sgn b = Val b' /\ div a b = Val c /\ sgn c = Val c' /\ mul a' b' = Val c'.
Proof.
  intros k n div mul sgn a b H Hm Hs Ia Rb Na. pose proof (std_range n (divides_std k n div H)) as Hn. destruct (div_signs k n div a b H Ia Rb Na) as (c & Ec & Ic & Nc & Sc & _).
  destruct (sgn_intn n (Z.sgn b) Hn (sgn_rng b)) as [J1 J2]. destruct Rb as (Ib & _ & Nb).
  do 4 eexists. split; [apply (sign_val k n); eassumption|]. split; [apply (sign_val k n); eassumption|]. split; [eassumption|]. split; [apply (sign_val k n); eassumption|].
  rewrite (mult_sgn k n mul) by (assumption || apply sgn_rng). rewrite Sc. f_equal. ring.
Qed.
Theorem sign_times_abs : forall k n mul abs sgn a, multiplies k n mul -> absolute_value k n abs -> sign_function k n sgn -> is_intn n a -> a <> nar n ->
  exists s u, sgn a = Val s /\ abs a = Val u /\ mul s u = Val a.
Proof.
  intros k n mul abs sgn a H Ha Hs Ia Na. destruct (abs_val k n abs a Ha Ia Na) as (Ea & Ia' & Na').
  do 2 eexists. split; [apply (sign_val k n); eassumption|]. split; [eassumption|].
  rewrite (mult_sgn k n mul) by (assumption || apply sgn_rng). f_equal. lia.
Qed.
Lemma abs_sign_case : multiplies Linear 16 (takum_linear_multiplication x86_64 W16) /\ absolute_value Linear 16 takum_linear16_absolute /\ sign_function Linear 16 takum_linear16_sign /\
  is_intn 16 (-0x5123) /\ is_real_takum 16 0x4035 /\ takum_linear16_absolute (-0x5123) = Val 0x5123%Z /\
  takum_linear_multiplication x86_64 W16 (-0x5123) 0x4035 = Val (-0x5138)%Z /\ takum_linear_multiplication x86_64 W16 0x5123 0x4035 = Val 0x5138%Z.
Proof.
  split; [constructor|]. split; [constructor|]. split; [constructor|]. split; [unfold is_intn; lia|]. split; [unfold is_real_takum, is_intn, nar; lia|]. repeat split; vm_compute; reflexivity.
Qed.
