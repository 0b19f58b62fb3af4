(** Logarithmic takums: inversion commutes with multiplication, division,
    square root, integer powers and roots.  Absolute values and signs of
    products and quotients. *)
From Coq Require Import ZArith Reals Bool Lia Lra Psatz.
From Flocq Require Import Core.Core IEEE754.BinarySingleNaN.
From Verif Require Import CModel FloatModel Spec CodeFacts SpecFacts ValueFacts WidthFacts WidthProps RoundFacts FloatFacts Machine Arith LogApi LinApi LogFacts PowFacts LogProps MiscProps LinAlgebra.
Local Open Scope R_scope.

Lemma inv_asm : forall n s u, (6 <= n <= 64)%Z -> (0 < u < 2 ^ (n - 1))%Z -> inv_code n (asm n s u) = asm n s (2 ^ (n - 1) - u).
Proof. intros n s u Hn Hu. unfold inv_code. rewrite asm_neg, low_asm by lia. reflexivity. Qed.
Lemma inv_enc : forall n s x, (6 <= n <= 64)%Z -> inv_code n (asm n s (enc n x)) = asm n s (enc n (- x)).
Proof. intros n s x Hn. rewrite inv_asm by (assumption || apply enc_range; assumption). rewrite enc_opp by assumption. reflexivity. Qed.
Lemma code_inv : forall m, mach_ok m -> forall s L, inv_code (m_n m) (code m s L) = code m s (- L).
Proof.
  intros m Hm s L. unfold code. rewrite inv_enc by (apply (mrange m Hm)). rewrite RF_opp. f_equal. f_equal. ring.
Qed.
Lemma log_coord_inv : forall x, x <> 0 -> log_coord (/ x) = - log_coord x.
Proof. intros x H. unfold log_coord. rewrite Rabs_inv, ln_Rinv by (apply Rabs_pos_lt; assumption). ring. Qed.
Lemma inv_neg : forall x, x <> 0 -> Rlt_bool (/ x) 0 = Rlt_bool x 0.
Proof.
  intros x H. destruct (Rlt_or_le x 0) as [C|C].
  - rewrite !Rlt_bool_true; [reflexivity|assumption|apply Rinv_lt_0_compat; assumption].
  - rewrite !Rlt_bool_false; [reflexivity|assumption|left; apply Rinv_0_lt_compat; lra].
Qed.
(** correct rounding commutes with inversion *)
Lemma rounds_inv : forall n x t, std_width n -> x <> 0 -> rounds Logarithmic n x t -> is_real_takum n t /\ rounds Logarithmic n (/ x) (inv_code n t).
Proof.
  intros n x t Sw Nx [[K _]|[_ H]]; [contradiction|]. pose proof (std_range n Sw) as Hn. split; [apply H|]. right. split; [apply Rinv_neq_0_compat; assumption|].
  apply nearest_code in H; [|lia]. subst t. rewrite inv_enc by lia. cbn [coord]. rewrite log_coord_inv, inv_neg by assumption.
  replace (- (sg (Rlt_bool x 0) * log_coord x)) with (sg (Rlt_bool x 0) * - log_coord x) by ring. apply enc_nearest_sg. lia.
Qed.
Lemma inv_value : forall n t x, std_width n -> is_real_takum n t -> value Logarithmic n t = Some x -> x <> 0 /\ is_real_takum n (inv_code n t) /\ value Logarithmic n (inv_code n t) = Some (/ x).
Proof.
  intros n t x Sw R V. pose proof (std_range n Sw) as Hn. assert (exists f, log_inversion n f) as (f & Hf) by (destruct Sw as [-> |[-> |[-> | ->]]]; eexists; constructor).
  destruct (inversion_lossless n f t Hf (proj1 R)) as (u & E & Iu & W). rewrite V in W.
  assert (x <> 0) as Nx by (intros ->; destruct (value_pos Logarithmic n t 0 Hn (proj1 R) V) as (_ & P2 & _); apply (proj1 (proj2 R)), P2; reflexivity).
  destruct W as [[K _]|[_ W]]; [contradiction|]. apply log_inversion_inv in Hf as [-> _]. rewrite inversion_real in E by (assumption || lia). injection E as <-.
  split; [assumption|]. split; [apply inv_code_facts; (assumption || lia)|assumption].
Qed.

Theorem mul_reciprocal : forall n mul inv a b, log_multiplication n mul -> log_inversion n inv -> is_real_takum n a -> is_real_takum n b ->
  exists a' b' c c', inv a = Val a' /\ inv b = Val b' /\ mul a b = Val c /\ inv c = Val c' /\ mul a' b' = Val c'.
Proof.
  intros n mul inv a b H Hi Ra Rb. apply log_multiplication_inv in H as (m & Hm & <- & Hf & _). apply log_inversion_inv in Hi as [-> Hn].
  destruct (inv_code_facts (m_n m) a ltac:(lia) Ra) as (Ra' & Sa & La). destruct (inv_code_facts (m_n m) b ltac:(lia) Rb) as (Rb' & Sb & Lb).
  do 4 eexists. split; [apply inversion_real; (assumption || lia)|]. split; [apply inversion_real; (assumption || lia)|].
  split; [rewrite Hf; apply (g_mul_code m Hm); assumption|]. split; [apply inversion_real; [lia|apply (code_real m Hm)]|].
  rewrite Hf, (g_mul_code m Hm) by assumption. rewrite (code_inv m Hm), Sa, Sb, La, Lb. do 2 f_equal. ring.
Qed.
Theorem div_reciprocal : forall n div inv a b, log_division n div -> log_inversion n inv -> is_real_takum n a -> is_real_takum n b ->
  exists a' b' c c', inv a = Val a' /\ inv b = Val b' /\ div a b = Val c /\ inv c = Val c' /\ div b a = Val c' /\ div a' b' = Val c'.
Proof.
  intros n div inv a b H Hi Ra Rb. apply log_division_inv in H as (m & Hm & <- & Hf & _). apply log_inversion_inv in Hi as [-> Hn].
  destruct (inv_code_facts (m_n m) a ltac:(lia) Ra) as (Ra' & Sa & La). destruct (inv_code_facts (m_n m) b ltac:(lia) Rb) as (Rb' & Sb & Lb).
  do 4 eexists. split; [apply inversion_real; (assumption || lia)|]. split; [apply inversion_real; (assumption || lia)|].
  split; [rewrite Hf; apply (g_div_code m Hm); assumption|]. split; [apply inversion_real; [lia|apply (code_real m Hm)]|].
  rewrite !Hf, !(g_div_code m Hm) by assumption. rewrite (code_inv m Hm), Sa, Sb, La, Lb. split; [rewrite xorb_comm|]; do 2 f_equal; ring.
Qed.
Theorem sqrt_reciprocal : forall n sqr inv a, log_square_root n sqr -> log_inversion n inv -> is_real_takum n a -> (0 < a)%Z ->
  exists a' c c', inv a = Val a' /\ sqr a = Val c /\ inv c = Val c' /\ sqr a' = Val c'.
Proof.
  intros n sqr inv a H Hi Ra Pa. apply log_inversion_inv in Hi as [-> Hn]. pose proof (std_log_sqrt n sqr H) as Sw.
  assert (exists x, value Logarithmic n a = Some x) as [x V] by (rewrite value_log_real by assumption; eauto).
  destruct (inv_value n a x Sw Ra V) as (Nx & Ra' & V'). destruct (value_pos Logarithmic n a x Hn (proj1 Ra) V) as (P1 & _). assert (0 < x) as Px by (apply P1; assumption).
  destruct (sqrt_correct n sqr a H (proj1 Ra)) as (c & E & _ & W). rewrite V in W. destruct W as [[K _]|[_ W]]; [lra|].
  destruct (sqrt_correct n sqr _ H (proj1 Ra')) as (c' & E' & _ & W'). rewrite V' in W'. destruct W' as [[K _]|[_ W']]; [pose proof (Rinv_0_lt_compat x Px); lra|].
  pose proof (sqrt_lt_R0 x Px) as Ps. assert (sqrt x <> 0) as Ns by lra; destruct (rounds_inv n (sqrt x) c Sw Ns W) as [Rc Wc].
  exists (inv_code n a), c, c'. split; [apply inversion_real; (assumption || lia)|]. split; [assumption|]. split; [|assumption].
  rewrite inversion_real by (assumption || lia). f_equal. apply (rounds_unique Logarithmic n (/ sqrt x)); [lia|assumption|]. rewrite <- sqrt_inv. assumption.
Qed.
Theorem pow_reciprocal : forall n pow inv a e, log_integer_power n pow -> log_inversion n inv -> is_real_takum n a -> is_int64 e ->
  exists a' c c', inv a = Val a' /\ pow a e = Val c /\ inv c = Val c' /\ pow a' e = Val c' /\ (e <> - 2 ^ 63 -> pow a (- e) = Val c')%Z.
Proof.
  intros n pow inv a e H Hi Ra He. apply log_inversion_inv in Hi as [-> Hn]. pose proof (std_log_pow n pow H) as Sw.
  assert (exists x, value Logarithmic n a = Some x) as [x V] by (rewrite value_log_real by assumption; eauto).
  destruct (inv_value n a x Sw Ra V) as (Nx & Ra' & V').
  destruct (pow_real n pow a e x H Ra He V) as (_ & c & E & _ & W). destruct (pow_real n pow _ e _ H Ra' He V') as (_ & c' & E' & _ & W').
  assert (powerRZ x e <> 0) as Np by (apply powerRZ_NOR; assumption). destruct (rounds_inv n _ c Sw Np W) as [Rc Wc].
  assert (powerRZ (/ x) e = / powerRZ x e) as Ep by (apply powerRZ_inv'). rewrite Ep in W'.
  assert (c' = inv_code n c) as -> by (apply (rounds_unique Logarithmic n (/ powerRZ x e)); [lia|assumption|assumption]).
  exists (inv_code n a), c, (inv_code n c). split; [apply inversion_real; (assumption || lia)|]. split; [assumption|]. split; [apply inversion_real; (assumption || lia)|]. split; [assumption|].
  intros Ne. assert (is_int64 (- e)) as He' by (unfold is_int64 in *; lia). destruct (pow_real n pow a (- e)%Z x H Ra He' V) as (_ & d & Ed & _ & Wd). rewrite Ed. f_equal.
  apply (rounds_unique Logarithmic n (/ powerRZ x e)); [lia| |assumption]. rewrite <- powerRZ_neg'. assumption.
Qed.

Lemma root_inv1 : forall e x y, x <> 0 -> is_root e x y -> is_root e (/ x) (/ y) /\ y <> 0.
Proof.
  intros e x y Nx (Ne & Ny & P & S1 & S2 & S3). assert (y <> 0) as N by (intros ->; destruct (Rtotal_order x 0) as [C|[C|C]]; [specialize (S2 C); lra|contradiction|specialize (S1 C); lra]).
  split; [|assumption]. split; [assumption|]. split; [intros _; apply Rinv_neq_0_compat; assumption|]. split; [rewrite powerRZ_inv'; congruence|].
  split; [|split].
  - intros C. apply Rinv_0_lt_compat, S1. rewrite <- (Rinv_inv x). apply Rinv_0_lt_compat. assumption.
  - intros C. apply Rinv_lt_0_compat, S2. rewrite <- (Rinv_inv x). apply Rinv_lt_0_compat. assumption.
  - intros C. exfalso. revert C. apply Rinv_neq_0_compat. assumption.
Qed.
Lemma root_inv2 : forall e x y, x <> 0 -> is_root e x y -> is_root (- e) x (/ y).
Proof.
  intros e x y Nx H. destruct (root_inv1 e x y Nx H) as [_ N]. destruct H as (Ne & Ny & P & S1 & S2 & S3).
  split; [lia|]. split; [intros _; apply Rinv_neq_0_compat; assumption|].
  split; [rewrite powerRZ_neg', powerRZ_inv', Rinv_inv; assumption|].
  split; [|split].
  - intros C. apply Rinv_0_lt_compat, S1. assumption.
  - intros C. apply Rinv_lt_0_compat, S2. assumption.
  - intros C. contradiction.
Qed.
Theorem root_reciprocal : forall n root inv a e, log_root n root -> n <> 64%Z -> log_inversion n inv -> is_real_takum n a -> is_int64 e ->
  exists a' c c', inv a = Val a' /\ root a e = Val c /\ inv c = Val c' /\ root a' e = Val c' /\ (e <> - 2 ^ 63 -> root a (- e) = Val c')%Z.
Proof.
  intros n root inv a e H N64 Hi Ra He. apply log_inversion_inv in Hi as [-> Hn]. pose proof (std_log_root n root H) as Sw.
  assert (exists x, value Logarithmic n a = Some x) as [x V] by (rewrite value_log_real by assumption; eauto).
  destruct (inv_value n a x Sw Ra V) as (Nx & Ra' & V'). assert (/ x <> 0) as Ni by (apply Rinv_neq_0_compat; assumption).
  destruct (root_correct n root a e H N64 (proj1 Ra) He) as (c & E & Ic & W). rewrite V in W.
  destruct (root_correct n root _ e H N64 (proj1 Ra') He) as (c' & E' & _ & W'). rewrite V' in W'.
  assert (inversion n c = Val c' /\ (e <> - 2 ^ 63 -> root a (- e) = Val c')%Z) as [K1 K2].
  2:{ exists (inv_code n a), c, c'. split; [apply inversion_real; (assumption || lia)|]. repeat (split; [assumption|]). assumption. }
  destruct W as [(y & Hy & Wy)|[No ->]].
  - destruct (root_inv1 e x y Nx Hy) as [Hy' Ny]. destruct (rounds_inv n y c Sw Ny Wy) as [Rc Wc].
    destruct W' as [(z & Hz & Wz)|[No _]]; [|exfalso; apply (No (/ y)); assumption].
    assert (z = / y) as -> by (apply (is_root_unique e (/ x)); assumption).
    assert (c' = inv_code n c) as -> by (apply (rounds_unique Logarithmic n (/ y)); [lia|assumption|assumption]).
    split; [apply inversion_real; (assumption || lia)|]. intros Ne. assert (is_int64 (- e)) as He' by (unfold is_int64 in *; lia).
    destruct (root_correct n root a (- e) H N64 (proj1 Ra) He') as (d & Ed & _ & Wd). rewrite V in Wd. pose proof (root_inv2 e x y Nx Hy) as Hd.
    destruct Wd as [(z & Hz' & Wz')|[No _]]; [|exfalso; apply (No (/ y)); assumption].
    assert (z = / y) as -> by (apply (is_root_unique (- e) x); assumption). rewrite Ed. f_equal. apply (rounds_unique Logarithmic n (/ y)); [lia|assumption|assumption].
  - destruct W' as [(z & Hz & _)|[_ ->]].
    { exfalso. destruct (root_inv1 e (/ x) z Ni Hz) as [Hz' _]. rewrite Rinv_inv in Hz'. apply (No (/ z)). assumption. }
    split.
    { rewrite inversion_eq by (assumption || lia). rewrite Z.eqb_refl, orb_true_r. reflexivity. }
    intros Ne. assert (is_int64 (- e)) as He' by (unfold is_int64 in *; lia).
    destruct (root_correct n root a (- e) H N64 (proj1 Ra) He') as (d & Ed & _ & Wd). rewrite V in Wd. rewrite Ed. f_equal.
    destruct Wd as [(z & Hz & _)|[_ Wd]]; [|assumption]. exfalso. apply (root_inv2 (- e)) in Hz; [|assumption]. rewrite Z.opp_involutive in Hz. apply (No (/ z)). assumption.
Qed.
(** at 64 bits the roots of a and 1/a are not always reciprocals *)
Lemma root64_reciprocal_refuted :
  is_real_takum 64 0x4000000000000035 /\ is_int64 21 /\ takum64_inversion 0x4000000000000035 = Val 0x3fffffffffffffcb%Z /\
  takum64_root x86_64 0x4000000000000035 21 = Val 0x4000000000000002%Z /\ takum64_inversion 0x4000000000000002 = Val 0x3ffffffffffffffe%Z /\
  takum64_root x86_64 0x3fffffffffffffcb 21 = Val 0x3ffffffffffffffd%Z /\ takum64_root x86_64 0x4000000000000035 (-21) = Val 0x3ffffffffffffffd%Z.
Proof. split; [unfold is_real_takum, is_intn, nar; lia|]. split; [unfold is_int64; lia|]. repeat split; vm_compute; reflexivity. Qed.
Lemma reciprocal_case : log_multiplication 16 takum16_multiplication /\ log_inversion 16 takum16_inversion /\
  is_real_takum 16 0x4035 /\ is_real_takum 16 0x5123 /\ takum16_inversion 0x4035 = Val 0x3fcb%Z /\ takum16_inversion 0x5123 = Val 0x2edd%Z /\
  takum16_multiplication 0x4035 0x5123 = Val 0x5130%Z /\ takum16_multiplication 0x3fcb 0x2edd = Val 0x2ed0%Z /\
  log_root 32 (takum32_root x86_64) /\ is_real_takum 32 0x40000035 /\ is_int64 21 /\
  takum32_root x86_64 0x40000035 21 = Val 0x40000003%Z /\ takum32_root x86_64 0x40000035 (-21) = Val 0x3ffffffd%Z.
Proof.
  split; [constructor|]. split; [constructor|]. split; [unfold is_real_takum, is_intn, nar; lia|]. split; [unfold is_real_takum, is_intn, nar; lia|].
  split; [vm_compute; reflexivity|]. split; [vm_compute; reflexivity|]. split; [vm_compute; reflexivity|]. split; [vm_compute; reflexivity|].
  split; [constructor|]. split; [unfold is_real_takum, is_intn, nar; lia|]. split; [unfold is_int64; lia|]. split; vm_compute; reflexivity.
Qed.
